(** The types of Types.v and the C++ types that they stand for: what C66 says about them. *)
From Coq Require Import List Bool Arith ZArith String Relations.
From Verif Require Import NumericModel EnumModel Types SchemaGenSpec.
From Verif Require SupportModel SupportSpec SupportSelect SupportProof SupportProps.
Import SupportModel SupportSpec.
Import ListNotations.
Local Open Scope list_scope.

(** Width and signedness of the integer types (LP64, char signed). *)
Definition integer_type (a : arith) : option ity :=
  let int w s := Some {| width := w; is_signed := s |} in
  match a with
  | AChar | ASChar => int 8%Z true
  | AUChar => int 8%Z false
  | AShort => int 16%Z true
  | AUShort => int 16%Z false
  | AInt => int 32%Z true
  | AUInt => int 32%Z false
  | ALong | ALLong => int 64%Z true
  | AULong | AULLong => int 64%Z false
  | _ => None
  end.

(** The C++ type [c] is what the type [t] stands for.  The conversions of the [n]-th enumeration are given by the table
    [names n]. *)
Inductive spelled (p : program) (names : nat -> enum_table) : ty -> cxx -> Prop :=
| spelled_null : spelled p names TNull (Ty NullptrT [])
| spelled_bool : spelled p names TBool (Ty (Arith ABool) [])
| spelled_int k a : integer_type a = Some k -> spelled p names (TInt k) (Ty (Arith a) [])
| spelled_float : spelled p names TFloat (Ty (Arith AFloat) [])
| spelled_double : spelled p names TDouble (Ty (Arith ADouble) [])
| spelled_string : spelled p names TString (Ty StringT [])
| spelled_bytes : spelled p names TBytes (Ty VectorT [Ty ByteT []])
| spelled_time : spelled p names TTime (Ty TimeT [])
| spelled_date : spelled p names TDate (Ty DateT [])
| spelled_number k n : to_string (enums p n) = false -> from_string (enums p n) = false ->
    integer_type (underlying (enums p n)) = Some k -> spelled p names (TEnumInt k) (Ty (EnumT n) [])
| spelled_name n : to_string (enums p n) = true -> from_string (enums p n) = true ->
    spelled p names (TEnumStr (names n)) (Ty (EnumT n) [])
| spelled_vector t c : spelled p names t c -> spelled p names (TVector t) (Ty VectorT [c])
| spelled_array n t c : spelled p names t c -> spelled p names (TArray n t) (Ty ArrayT [c; Ty (Size n) []])
| spelled_set t c : spelled p names t c -> spelled p names (TSet t) (Ty SetT [c])
| spelled_map (b : bool) t c : spelled p names t c ->
    spelled p names (TMap b t) (Ty (if b then MapT else UMapT) [Ty StringT []; c])
| spelled_pair t c u d : spelled p names t c -> spelled p names u d -> spelled p names (TPair t u) (Ty PairT [c; d])
| spelled_tuple ts cs : Forall2 (spelled p names) ts cs -> spelled p names (TTuple ts) (Ty TupleT cs)
| spelled_variant ts cs : Forall2 (spelled p names) ts cs -> spelled p names (TVariant ts) (Ty VariantT cs)
| spelled_class n : spelled p names (TClass n) (Ty (ClassT n) [])
| spelled_unique t c : spelled p names t c -> spelled p names (TUnique t) (Ty UniqueT [c])
| spelled_shared t c : spelled p names t c -> spelled p names (TShared t) (Ty SharedT [c])
| spelled_pointer t c : spelled p names t c -> spelled p names (TPtr t) (Ty PtrT [c]).

(** A member variable of a class of Types.v and the member variable that it stands for. *)
Inductive member_spelled (p : program) (names : nat -> enum_table) (m : member) : bool * cxx -> Prop :=
| member_plain c : m_kind m = MRequired -> spelled p names (m_ty m) c -> member_spelled p names m (false, c)
| member_default c : m_kind m = MDefault -> spelled p names (m_ty m) c -> member_spelled p names m (true, c)
| member_optional c : m_kind m = MOptional -> spelled p names (m_ty m) c -> member_spelled p names m (false, Ty OptionalT [c]).

(** The program declares the classes of the environment, and they have default constructors. *)
Definition declares (p : program) (names : nat -> enum_table) (e : env) : Prop :=
  forall n, persists (SupportModel.classes p n) = true /\ default_constructible (SupportModel.classes p n) = true /\
            Forall2 (member_spelled p names) (c_members (Types.class_of e n)) (visited (SupportModel.classes p n)).

Lemma ty_eq_bytes : forall t, {t = TBytes} + {t <> TBytes}.
Proof. intros []; (left; reflexivity) || (right; discriminate). Qed.

Lemma classic_class : forall t, (exists n, t = TClass n) \/ forall n, t <> TClass n.
Proof. intros []; try (right; discriminate). left. eexists. reflexivity. Qed.

Section Link.
Variables (p : program) (names : nat -> enum_table) (e : env).
Hypothesis (D : declares p names e).

Lemma spelled_not_byte : forall t, ~ spelled p names t (Ty ByteT []).
Proof. intros t H. inversion H. Qed.

Lemma spelled_not_optional : forall t c, ~ spelled p names t (Ty OptionalT [c]).
Proof. intros t c H. inversion H. Qed.

Lemma integer_integers : forall a k, integer_type a = Some k -> In a integers.
Proof. intros a k E. destruct a; simpl; tauto || discriminate E. Qed.

Lemma forall2_in : forall {A B} (R : A -> B -> Prop) l m, Forall2 R l m ->
  (forall a, In a l -> exists b, In b m /\ R a b) /\ (forall b, In b m -> exists a, In a l /\ R a b).
Proof.
  intros A B R l m F. induction F as [|a b l m H F (I & J)].
  - split; intros ? [].
  - split; intros x [<-|H']; simpl; [exists b; tauto | | exists a; tauto|].
    + destruct (I x H') as (y & ? & ?). exists y. tauto.
    + destruct (J x H') as (y & ? & ?). exists y. tauto.
Qed.

Lemma spelled_defaults : forall t c, spelled p names t c -> defaults p c = true.
Proof.
  assert (L : forall ts cs, Forall (fun t => forall c, spelled p names t c -> defaults p c = true) ts ->
                Forall2 (spelled p names) ts cs -> forallb (defaults p) cs = true).
  { intros ts cs F S. induction S as [|t c ts cs H S IH]; [reflexivity|]. inversion F; subst.
    simpl. rewrite (H2 c H). apply IH. assumption. }
  induction t using ty_ind'; intros x S; inversion S; subst; try reflexivity.
  - simpl. destruct n; [reflexivity|]. apply IHt. assumption.
  - destruct o; reflexivity.
  - simpl. rewrite IHt1, IHt2 by assumption. reflexivity.
  - simpl. apply (L ts); assumption.
  - simpl. destruct cs as [|d cs]; [reflexivity|]. assert (Y : forallb (defaults p) (d :: cs) = true) by (apply (L ts); assumption).
    simpl in Y. apply andb_prop in Y. apply Y.
  - simpl. apply (D c).
Qed.

(** Parts correspond. *)
Lemma part_spelled : forall o t c d, o <> Parse -> spelled p names t c -> t <> TBytes -> part_of p o c d ->
  exists u, In u (inner e t) /\ spelled p names u d.
Proof.
  intros o t c d O S B Q.
  assert (K : forall n m, In m (visited (SupportModel.classes p n)) ->
    exists u, In u (map m_ty (c_members (Types.class_of e n))) /\ spelled p names u (held o m)).
  { intros n m I. destruct (D n) as (_ & _ & F). apply forall2_in in F. destruct (proj2 F m I) as (x & J & M).
    exists (m_ty x). split; [apply in_map; exact J|].
    assert (N : forall c, spelled p names (m_ty x) c -> held o (false, c) = c).
    { intros y Y. destruct y as [g us]. destruct g; try reflexivity. destruct us as [|y [|z us]]; try reflexivity.
      exfalso. exact (spelled_not_optional _ _ Y). }
    inversion M; subst; [rewrite N by assumption; assumption | assumption |].
    destruct o; try assumption. contradiction. }
  inversion S; subst; inversion Q; subst; simpl in *; try (intuition discriminate); try (eexists; split; [left; reflexivity | assumption]).
  all: try (destruct b; simpl in *; intuition discriminate).
  all: try (eexists; split; [right; left; reflexivity | assumption]).
  all: try (destruct (proj2 (forall2_in _ _ _ H) d ltac:(assumption)) as (u & ? & ?); exists u; tauto).
  all: try (apply K; assumption).
  all: try (eexists; split; [left; reflexivity|]; assumption).
Qed.

Lemma byte_part : forall o d, ~ part_of p o (Ty ByteT []) d.
Proof. intros o d Q. inversion Q; subst; simpl in *; intuition discriminate. Qed.

Lemma bytes_part : forall o d, part_of p o (Ty VectorT [Ty ByteT []]) d -> d = Ty ByteT [].
Proof. intros o d Q. inversion Q; subst; [reflexivity | simpl in *; intuition discriminate]. Qed.

(** Parts of what is spelled, in a set of types that is closed under parts. *)
Lemma closed_parts : forall o (P : ty -> Prop) t d, o <> Parse ->
  (forall t u, P t -> In u (inner e t) -> P u) ->
  (t = Ty ByteT [] \/ exists v, P v /\ spelled p names v t) -> part_of p o t d ->
  d = Ty ByteT [] \/ exists v, P v /\ spelled p names v d.
Proof.
  intros o P t d O C [->|(v & H & S)] Q; [exfalso; exact (byte_part o d Q)|].
  destruct (ty_eq_bytes v) as [->|N].
  - inversion S; subst. left. exact (bytes_part o d Q).
  - right. destruct (part_spelled o v t d O S N Q) as (u & I & U). exists u. split; [exact (C v u H I) | exact U].
Qed.

Lemma shape_byte : forall o, supported_shape p o (Ty ByteT []).
Proof. intro o. apply shape_simple. simpl. tauto. Qed.

(** Everything that the model can write can be written. *)
Lemma output_modelled : forall o t c, output o -> spelled p names t c -> supported p o c.
Proof.
  intros o t c O S.
  apply (SupportProof.supported_by _ _ (fun c => c = Ty ByteT [] \/ exists v, True /\ spelled p names v c)).
  - clear t c S. intros c [->|(t & _ & S)]; [apply shape_byte|].
    assert (I : ~ input o) by (destruct O as [->| ->]; intros [E|E]; discriminate).
    assert (N : o <> Schema /\ o <> Deserialize /\ o <> Parse) by (destruct O as [->| ->]; repeat split; discriminate).
    destruct N as (N1 & N2 & N3).
    inversion S; subst; try (apply shape_simple; simpl; tauto).
    + apply shape_simple. simpl. destruct a; simpl; try tauto; discriminate.
    + apply shape_container; [simpl; tauto | intro; contradiction].
    + apply shape_enum. apply numeric; [exact N1 | eapply integer_integers; eassumption].
    + apply shape_enum. apply named_output; assumption.
    + apply shape_container; [simpl; tauto | intro; contradiction].
    + apply shape_array. intro; contradiction.
    + apply shape_container; [simpl; tauto | intro; contradiction].
    + apply shape_map; [destruct b; simpl; tauto | intro; contradiction].
    + apply shape_pair.
    + apply shape_tuple.
    + apply shape_variant; [assumption | intro; contradiction].
    + apply shape_class; [apply (D n) | intro; contradiction ..].
    + apply shape_smart; [simpl; tauto | intro; contradiction ..].
    + apply shape_smart; [simpl; tauto | intro; contradiction ..].
    + apply shape_raw. exact O.
  - intros a b H Q. apply (closed_parts o (fun _ => True) a b); [destruct O as [->| ->]; discriminate | auto | exact H | exact Q].
  - right. exists t. auto.
Qed.

Lemma schema_shape : forall t c, spelled p names t c -> (supported_shape p Schema c <-> SchemaGenSpec.supported e t).
Proof.
  intros t c S.
  assert (I : ~ input Schema) by (intros [E|E]; discriminate).
  assert (O : ~ output Schema) by (intros [E|E]; discriminate).
  assert (C : forall u d, spelled p names u d -> (structured p d <-> compound u)).
  { intros u d U. split.
    - intro T. inversion U; subst; simpl; try exact Logic.I; inversion T; subst; simpl in *; intuition discriminate.
    - intro T. inversion U; subst; simpl in T; try contradiction; try (constructor; simpl; tauto).
      + apply structured_vector. intros ->. exact (spelled_not_byte _ H).
      + destruct b; constructor; simpl; tauto.
      + apply structured_class. apply (D n). }
  split.
  - intro H. inversion S; subst; simpl; try exact Logic.I.
    + inversion H; subst; simpl in *; try (intuition discriminate).
      intros m M E. destruct (D n) as (_ & _ & F). destruct (proj1 (forall2_in _ _ _ F) m M) as (x & X & Y).
      match goal with X : Schema = Schema -> _ |- _ => destruct (X eq_refl) as (_ & G) end. specialize (G x X).
      inversion Y; subst; simpl in G; congruence.
    + inversion H; subst; simpl in *; try (intuition discriminate). apply (C t0 c0); auto.
    + inversion H; subst; simpl in *; try (intuition discriminate). apply (C t0 c0); auto.
    + inversion H; subst; simpl in *; intuition discriminate.
  - intro H. inversion S; subst; try (apply shape_simple; simpl; tauto).
    + apply shape_simple. simpl. destruct a; simpl; try tauto; discriminate.
    + apply shape_container; [simpl; tauto | intro; contradiction].
    + apply shape_enum. apply described.
    + apply shape_enum. apply described.
    + apply shape_container; [simpl; tauto | intro; contradiction].
    + apply shape_array. discriminate.
    + apply shape_container; [simpl; tauto | intro; contradiction].
    + apply shape_map; [destruct b; simpl; tauto | intro; contradiction].
    + apply shape_pair.
    + apply shape_tuple.
    + apply shape_variant; discriminate.
    + apply shape_class; [apply (D n) | discriminate | discriminate |].
      intros _. split; [apply (D n)|]. intros m M. destruct (D n) as (_ & _ & F).
      destruct (proj2 (forall2_in _ _ _ F) m M) as (x & X & Y). specialize (H x X).
      inversion Y; subst; [reflexivity | contradiction | reflexivity].
    + apply shape_smart; [simpl; tauto | intro; contradiction |]. intros _. apply (C t0); assumption.
    + apply shape_smart; [simpl; tauto | intro; contradiction |]. intros _. apply (C t0); assumption.
Qed.

(** Parts of a type of the model have their counterparts. *)
Lemma inner_spelled : forall t c u, spelled p names t c -> In u (inner e t) ->
  exists d, part_of p Schema c d /\ spelled p names u d.
Proof.
  intros t c u S I. inversion S; subst; simpl in I; try contradiction;
    try (destruct I as [<-|[]]; eexists; split; [|eassumption]; apply part_element; simpl; tauto).
  - destruct I as [<-|[]]. eexists. split; [|eassumption]. apply part_item. discriminate.
  - destruct I as [<-|[]]. eexists. split; [|eassumption]. apply part_value. destruct b; simpl; tauto.
  - destruct I as [<-|[<-|[]]]; eexists; (split; [|eassumption]); [apply part_first | apply part_second].
  - destruct (proj1 (forall2_in _ _ _ H) u I) as (d & J & U). exists d. split; [|exact U].
    eapply part_component; [|exact J]. simpl. tauto.
  - destruct (proj1 (forall2_in _ _ _ H) u I) as (d & J & U). exists d. split; [|exact U].
    eapply part_component; [|exact J]. simpl. tauto.
  - apply in_map_iff in I. destruct I as (m & <- & M). destruct (D n) as (_ & _ & F).
    destruct (proj1 (forall2_in _ _ _ F) m M) as (x & X & Y). exists (held Schema x).
    split; [apply part_member; exact X|]. inversion Y; subst.
    + destruct c as [g us]. destruct g; try assumption. destruct us as [|y [|z us]]; try assumption.
      exfalso. eapply spelled_not_optional. eassumption.
    + assumption.
    + assumption.
Qed.

(** Whether there is a schema is what the hypothesis of the theorems on schemas says. *)
Lemma schema_modelled : forall t c, spelled p names t c ->
  (supported p Schema c <-> forall u, reachable e u t -> SchemaGenSpec.supported e u).
Proof.
  intros t c S. split.
  - intros H u R. assert (G : exists d, SupportSpec.within p Schema c d /\ spelled p names u d).
    { apply clos_rt_rt1n_iff in R. induction R as [u|u v w R1 R2 IH]; [exists c; split; [constructor | exact S]|].
      destruct (IH S) as (d & W & V). destruct (inner_spelled v d u V R1) as (f & Q & U).
      exists f. split; [exact (within_part _ _ _ _ _ W Q) | exact U]. }
    destruct G as (d & W & U). apply (schema_shape u d U). apply H. exact W.
  - intro H.
    apply (SupportProof.supported_by _ _
             (fun c => c = Ty ByteT [] \/ exists v, reachable e v t /\ spelled p names v c)).
    + intros a [->|(v & R & V)]; [apply shape_byte|]. apply (schema_shape v a V). apply H. exact R.
    + intros a b X Q. apply (closed_parts Schema (fun v => reachable e v t) a b); [discriminate | | exact X | exact Q].
      intros x y A B. eapply rt_trans; [apply rt_step; exact B | exact A].
    + right. exists t. split; [apply rt_refl | exact S].
Qed.

(** C++ types have one counterpart. *)
Lemma spelled_one : forall t u c, spelled p names t c -> spelled p names u c -> t = u.
Proof.
  assert (L : forall ts us cs, Forall (fun t => forall u c, spelled p names t c -> spelled p names u c -> t = u) ts ->
                Forall2 (spelled p names) ts cs -> Forall2 (spelled p names) us cs -> ts = us).
  { intros ts us cs F S. revert us. induction S as [|t c ts cs H S IH]; intros us S'; inversion S'; subst; [reflexivity|].
    inversion F; subst. f_equal; [eapply H2; eassumption | apply IH; assumption]. }
  induction t using ty_ind'; intros u x S U; inversion S; subst; inversion U; subst; try reflexivity; try congruence;
    try (f_equal; eauto; fail); try (exfalso; eapply spelled_not_byte; eassumption);
    try (match goal with H : integer_type _ = Some _ |- _ => discriminate H end);
    try (destruct o; discriminate); try (destruct b; discriminate).
  - destruct o, b; try discriminate; f_equal; eauto.
Qed.

Lemma distinct_spelled : forall ts cs, Forall2 (spelled p names) ts cs -> NoDup ts -> NoDup cs.
Proof.
  intros ts cs F N. induction F as [|t c ts cs S F IH]; [constructor|]. inversion N; subst. constructor; [|auto].
  intro I. destruct (proj2 (forall2_in _ _ _ F) c I) as (u & J & U). rewrite (spelled_one _ _ _ S U) in *. contradiction.
Qed.

(** Types of the model that can be read. *)
Definition readable (t : ty) : Prop :=
  match t with
  | TPtr _ => False
  | TArray _ u => forall d, spelled p names u d -> copies p d = true
  | TVariant ts => NoDup ts
  | _ => True
  end.

Lemma read_modelled : forall t c, spelled p names t c -> (forall u, reachable e u t -> readable u) ->
  supported p Deserialize c.
Proof.
  intros t c S R.
  apply (SupportProof.supported_by _ _ (fun c => c = Ty ByteT [] \/ exists v, reachable e v t /\ spelled p names v c)).
  - clear c S. intros c [->|(v & H & S)]; [apply shape_byte|]. specialize (R v H).
    inversion S; subst; simpl in R; try (apply shape_simple; simpl; tauto).
    + apply shape_simple. simpl. destruct a; simpl; try tauto; discriminate.
    + apply shape_container; [simpl; tauto | reflexivity].
    + apply shape_enum. apply numeric; [discriminate | eapply integer_integers; eassumption].
    + apply shape_enum. apply named_input; [left; reflexivity | assumption].
    + apply shape_container; [simpl; tauto | intros _; eapply spelled_defaults; eassumption].
    + apply shape_array. intros _. split; [eapply spelled_defaults; eassumption | apply R; assumption].
    + apply shape_container; [simpl; tauto | intros _; eapply spelled_defaults; eassumption].
    + apply shape_map; [destruct b; simpl; tauto | intros _; eapply spelled_defaults; eassumption].
    + apply shape_pair.
    + apply shape_tuple.
    + apply shape_variant; [discriminate|]. intros _. split; [eapply distinct_spelled; eassumption|].
      intros d I. match goal with F : Forall2 _ _ _ |- _ => destruct (proj2 (forall2_in _ _ _ F) d I) as (w & _ & W) end.
      eapply spelled_defaults; eassumption.
    + apply shape_class; [apply (D n) | | discriminate ..].
      intros _ d I. destruct (D n) as (_ & _ & F). destruct (proj2 (forall2_in _ _ _ F) _ I) as (m & _ & M).
      inversion M; subst; [exfalso; eapply spelled_not_optional; eassumption | eapply spelled_defaults; eassumption].
    + apply shape_smart; [simpl; tauto | intros _; eapply spelled_defaults; eassumption | discriminate].
    + apply shape_smart; [simpl; tauto | intros _; eapply spelled_defaults; eassumption | discriminate].
  - intros a b H Q. apply (closed_parts Deserialize (fun v => reachable e v t) a b); [discriminate | | exact H | exact Q].
    intros x y A B. eapply rt_trans; [apply rt_step; exact B | exact A].
  - right. exists t. split; [apply rt_refl | exact S].
Qed.

(** Types of the model that can be parsed. *)
Definition parsable (t : ty) : Prop :=
  match t with
  | TPtr _ | TVariant _ => False
  | TClass n => c_members (Types.class_of e n) <> []
  | _ => True
  end.

Lemma parse_modelled : forall t c, spelled p names t c -> (forall u, reachable e u t -> parsable u) ->
  supported p Parse c.
Proof.
  intros t c S R.
  apply (SupportProof.supported_by _ _ (fun c => c = Ty ByteT [] \/ exists v, reachable e v t /\
           (spelled p names v c \/ exists d, c = Ty OptionalT [d] /\ spelled p names v d))).
  - clear c S. intros c [->|(v & H & [S|(d & -> & S)])]; [apply shape_byte | | apply shape_optional; eapply spelled_defaults; eassumption].
    specialize (R v H).
    inversion S; subst; simpl in R; try (apply shape_simple; simpl; tauto).
    + apply shape_simple. simpl. destruct a; simpl; try tauto; discriminate.
    + apply shape_container; [simpl; tauto | reflexivity].
    + apply shape_enum. apply numeric; [discriminate | eapply integer_integers; eassumption].
    + apply shape_enum. apply named_input; [right; reflexivity | assumption].
    + apply shape_container; [simpl; tauto | intros _; eapply spelled_defaults; eassumption].
    + apply shape_array. discriminate.
    + apply shape_container; [simpl; tauto | intros _; eapply spelled_defaults; eassumption].
    + apply shape_map; [destruct b; simpl; tauto | intros _; eapply spelled_defaults; eassumption].
    + apply shape_pair.
    + apply shape_tuple.
    + apply shape_class; [apply (D n) | discriminate | | discriminate].
      intros _ E. destruct (D n) as (_ & _ & F). rewrite E in F. inversion F. congruence.
    + apply shape_smart; [simpl; tauto | intros _; eapply spelled_defaults; eassumption | discriminate].
    + apply shape_smart; [simpl; tauto | intros _; eapply spelled_defaults; eassumption | discriminate].
  - intros a b X Q.
    assert (N : forall x y, reachable e x t -> In y (inner e x) -> reachable e y t).
    { intros x y A B. eapply rt_trans; [apply rt_step; exact B | exact A]. }
    destruct X as [->|(v & H & [V|(d & -> & V)])]; [exfalso; exact (byte_part _ _ Q) | |].
    + destruct (ty_eq_bytes v) as [->|B]; [inversion V; subst; left; exact (bytes_part _ _ Q)|].
      destruct (classic_class v) as [(n & ->)|C].
      * right. inversion V; subst. inversion Q; subst; try (simpl in *; intuition discriminate).
        destruct (D n) as (_ & _ & F). destruct (proj2 (forall2_in _ _ _ F) m ltac:(assumption)) as (x & I & M).
        exists (m_ty x). split; [apply (N _ _ H); simpl; apply in_map; exact I|].
        assert (E : forall c, held Parse (false, c) = c).
        { intros [g us]. destruct g; try reflexivity. destruct us as [|y [|z us]]; reflexivity. }
        inversion M; subst; [rewrite E; left; assumption | left; assumption | rewrite E; right; eexists; split; [reflexivity | assumption]].
      * assert (Q' : part_of p Schema a b).
        { inversion Q; subst; try (econstructor; eassumption).
          - apply part_item. discriminate.
          - inversion V; subst. exfalso. apply (C n). reflexivity. }
        destruct (part_spelled Schema v a b ltac:(discriminate) V B Q') as (u & I & U).
        right. exists u. split; [exact (N _ _ H I) | left; exact U].
    + right. inversion Q; subst; [exists v; split; [exact H | left; exact V] | simpl in *; intuition discriminate].
  - right. exists t. split; [apply rt_refl | left; exact S].
Qed.
End Link.
