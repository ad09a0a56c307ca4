(** The schema of a type accepts the documents of its values. *)
From Coq Require Import List Arith ZArith NArith Ascii String Bool Lia Permutation Sorted.
From Verif Require Import Base Float NumericModel NumericSpec Base64Spec DatetimeSpec DatetimeProof
  EnumModel Json Types DenoteSpec RoundSpec DocSpec PathModel PathSpec MapFacts DenoteProof RoundProof MergeFacts GraphSpec SerializeModel GraphProof
  SchemaModel SchemaSpec SchemaFacts.
Import ListNotations.
Local Open Scope string_scope.
Local Open Scope nat_scope.

(** * Definitions *)

Definition def_sorted (d : definitions) : Prop := StronglySorted (fun p q : string * jschema => str_ltb (fst p) (fst q) = true) d.

Lemma def_find_above : forall d k, Forall (fun q : string * jschema => str_ltb k (fst q) = true) d -> def_find d k = None.
Proof.
  intros d k F. induction F as [|[n s] d H F IH]; cbn; [reflexivity|]. destruct (String.eqb_spec n k) as [->|]; [|exact IH]. cbn in H. now rewrite str_ltb_irrefl in H.
Qed.

Lemma def_insert_above : forall d k a s, Forall (fun q : string * jschema => str_ltb a (fst q) = true) d -> str_ltb a k = true ->
  Forall (fun q : string * jschema => str_ltb a (fst q) = true) (def_insert d k s).
Proof.
  intros d k a s F H. induction F as [|[n s'] d Hn F IH]; cbn; [auto|].
  destruct (str_ltb k n); [constructor; [exact H|constructor; auto]|]. destruct (str_ltb n k); constructor; auto.
Qed.

Lemma def_insert_sorted : forall d k s, def_sorted d -> def_sorted (def_insert d k s).
Proof.
  intros d k s S. induction S as [|[n s'] d S IH F]; cbn; [repeat constructor|]. destruct (str_ltb k n) eqn:A.
  - constructor; [constructor; assumption|]. constructor; [exact A|]. eapply Forall_impl; [|exact F]. intros q B. exact (str_ltb_trans _ _ _ A B).
  - destruct (str_ltb n k) eqn:B; constructor; auto. now apply def_insert_above.
Qed.

Lemma def_find_insert : forall d k s k', def_sorted d ->
  def_find (def_insert d k s) k' = if String.eqb k k' then match def_find d k with Some s' => Some s' | None => Some s end else def_find d k'.
Proof.
  intros d k s k' S. induction S as [|[n s'] d S IH F]; cbn [def_insert def_find]; [reflexivity|]. destruct (str_ltb k n) eqn:A.
  - cbn [def_find]. destruct (String.eqb_spec k k') as [->|N]; [|reflexivity]. destruct (String.eqb_spec n k') as [->|N'].
    + now rewrite str_ltb_irrefl in A.
    + rewrite def_find_above; [reflexivity|]. eapply Forall_impl; [|exact F]. intros q B. exact (str_ltb_trans _ _ _ A B).
  - destruct (str_ltb n k) eqn:B; cbn [def_find].
    + rewrite IH. destruct (String.eqb_spec n k) as [->|N]; [now rewrite str_ltb_irrefl in B|]. destruct (String.eqb_spec k k') as [->|N']; [|reflexivity].
      destruct (String.eqb_spec n k') as [->|]; [contradiction|reflexivity].
    + rewrite (str_ltb_total _ _ A B). destruct (String.eqb_spec n k') as [->|N]; [|reflexivity]. now rewrite String.eqb_refl.
Qed.

Definition sub (d d' : definitions) : Prop := forall k s, def_find d k = Some s -> def_find d' k = Some s.

Lemma sub_insert : forall d k s, def_sorted d -> sub d (def_insert d k s).
Proof. intros d k s S k' s' E. rewrite def_find_insert by assumption. destruct (String.eqb_spec k k') as [->|]; [now rewrite E|exact E]. Qed.

Section Gen.
Variable e : env.
Variable tn : nat -> string.

Definition grows {A} (f : definitions -> gres A) : Prop := forall d a d', def_sorted d -> f d = GOk a d' -> def_sorted d' /\ sub d d'.

Lemma gen_all_grows : forall f ts, (forall t, grows (f t)) -> grows (gen_all f ts).
Proof.
  intros f ts G. induction ts as [|t ts IH]; intros d a d' S E; cbn in E.
  - injection E as <- <-. split; [assumption|intros ? ?; auto].
  - destruct (f t d) as [s d1| |] eqn:E1; cbn in E; try discriminate. destruct (gen_all f ts d1) as [ss d2| |] eqn:E2; cbn in E; try discriminate.
    injection E as <- <-. destruct (G _ _ _ _ S E1) as [S1 B1]. destruct (IH _ _ _ S1 E2) as [S2 B2]. split; [assumption|]. intros k x X. auto.
Qed.

Lemma visit_grows : forall f ms, (forall t, grows (f t)) -> grows (visit f ms).
Proof.
  intros f ms G. induction ms as [|m ms IH]; intros d a d' S E; cbn in E.
  - injection E as <- <-. split; [assumption|intros ? ?; auto].
  - assert (Q : gbind (f (m_ty m) d) (fun s d => gbind (visit f ms d) (fun r d =>
        GOk ((m_name m, s) :: fst r, match m_kind m with MOptional => snd r | _ => m_name m :: snd r end) d)) = GOk a d')
      by (destruct (m_kind m); [exact E|discriminate E|exact E]). clear E.
    destruct (f (m_ty m) d) as [s d1| |] eqn:E1; cbn in Q; try discriminate. destruct (visit f ms d1) as [r d2| |] eqn:E2; cbn in Q; try discriminate.
    injection Q as <- <-. destruct (G _ _ _ _ S E1) as [S1 B1]. destruct (IH _ _ _ S1 E2) as [S2 B2]. split; [assumption|]. intros k x X. auto.
Qed.

Lemma gen_grows : forall n inline t, grows (gen e tn n inline t).
Proof.
  induction n as [|n IH]; intros inline t d s d' S E; cbn [gen] in E; [discriminate|].
  assert (Id : def_sorted d /\ sub d d) by (split; [assumption|intros ? ?; auto]).
  assert (Bind : forall A (x : gres A) (f : A -> jschema), (forall a d1, x = GOk a d1 -> def_sorted d1 /\ sub d d1) ->
    gbind x (fun a d => GOk (f a) d) = GOk s d' -> def_sorted d' /\ sub d d').
  { intros A [a d1| |] f H Q; cbn in Q; try discriminate. injection Q as _ <-. exact (H _ _ eq_refl). }
  destruct t; try (injection E as _ <-; exact Id); try discriminate E;
    try (eapply Bind; [|exact E]; intros a0 d1 E1; first [eapply IH; [exact S|exact E1]|eapply gen_all_grows; [intros ?; apply IH|exact S|exact E1]]).
  - destruct (visit (gen e tn n false) (c_members (class_of e c)) d) as [r d1| |] eqn:E1; cbn in E; try discriminate.
    destruct (visit_grows _ _ (fun t => IH false t) _ _ _ S E1) as [S1 B1]. destruct inline; injection E as _ <-; [auto|].
    split; [now apply def_insert_sorted|]. intros k x X. apply sub_insert; auto.
  - destruct (context_aware t); [|discriminate]. exact (IH _ _ _ _ _ S E).
  - destruct (context_aware t); [|discriminate]. exact (IH _ _ _ _ _ S E).
Qed.

(** * What the generator produces *)

Section Described.
Variable D : definitions.

(** Schemas of types without parts. *)
Definition scalar_schema (t : ty) : option jschema :=
  match t with
  | TNull => Some (SFund "null" None None)
  | TBool => Some (SFund "boolean" None None)
  | TInt k => Some (if is_signed k then SSigned (tmin k) (tmax k) else SUnsigned (tmax k))
  | TFloat | TDouble => Some (SFund "number" None None)
  | TString => Some (SFund "string" None None)
  | TBytes => Some (SFund "string" None (Some "base64"))
  | TTime => Some (SFund "string" (Some "date-time") None)
  | TDate => Some (SFund "string" (Some "date") None)
  | TEnumInt _ => Some (SEnum "object")
  | TEnumStr _ => Some (SEnum "string")
  | _ => None
  end.

Inductive described : bool -> ty -> jschema -> Prop :=
| ds_scalar : forall i t s, scalar_schema t = Some s -> described i t s
| ds_vector : forall i u s, described false u s -> described i (TVector u) (SArray (Some s) None None None None)
| ds_set : forall i u s, described false u s -> described i (TSet u) (SArray (Some s) None (Some true) None None)
| ds_array : forall i n u s, described false u s -> described i (TArray n u) (SArray (Some s) None None (Some n) (Some n))
| ds_pair : forall i a b ss, Forall2 (described false) [a; b] ss -> described i (TPair a b) (SArray None (Some ss) None (Some 2) (Some 2))
| ds_tuple : forall i ts ss, Forall2 (described false) ts ss -> described i (TTuple ts) (SArray None (Some ss) None (Some (List.length ts)) (Some (List.length ts)))
| ds_variant : forall i ts ss, Forall2 (described false) ts ss -> described i (TVariant ts) (SOneOf ss)
| ds_map : forall i o u s, described false u s -> described i (TMap o u) (SObject None None (Some (inr s)))
| ds_class : forall c props req, Forall2 (fun m p => m_kind m <> MDefault /\ fst p = m_name m /\ described false (m_ty m) (snd p)) (c_members (class_of e c)) props ->
    (forall n, In n req <-> exists m, In m (c_members (class_of e c)) /\ m_kind m = MRequired /\ m_name m = n) ->
    described true (TClass c) (SObject (Some props) (Some req) (Some (inl false)))
| ds_ref : forall c s, def_find D (tn c) = Some s -> described false (TClass c) (SRef (tn c))
| ds_unique : forall i u s, described true u s -> described i (TUnique u) s
| ds_shared : forall i u s, described true u s -> described i (TShared u) s.

Definition sound (d : definitions) : Prop := forall c s, def_find d (tn c) = Some s -> described true (TClass c) s.

Definition describes {A} (f : definitions -> gres A) (P : A -> Prop) : Prop :=
  forall d a d', def_sorted d -> sound d -> f d = GOk a d' -> sub d' D -> sound d' /\ P a.

Lemma sub_trans : forall a b c, sub a b -> sub b c -> sub a c.
Proof. unfold sub. auto. Qed.

Lemma gen_all_describes : forall f ts, (forall t, grows (f t)) -> (forall t, describes (f t) (described false t)) -> describes (gen_all f ts) (Forall2 (described false) ts).
Proof.
  intros f ts G H. induction ts as [|t ts IH]; intros d a d' S O E B; cbn in E.
  - injection E as <- <-. split; [assumption|constructor].
  - destruct (f t d) as [s d1| |] eqn:E1; cbn in E; try discriminate. destruct (gen_all f ts d1) as [ss d2| |] eqn:E2; cbn in E; try discriminate.
    injection E as <- <-. destruct (G _ _ _ _ S E1) as [S1 B1]. destruct (gen_all_grows f ts G _ _ _ S1 E2) as [S2 B2].
    destruct (H t _ _ _ S O E1) as [O1 D1]; [eapply sub_trans; eauto|]. destruct (IH _ _ _ S1 O1 E2 B) as [O2 D2]. split; [assumption|now constructor].
Qed.

Lemma visit_describes : forall f ms, (forall t, grows (f t)) -> (forall t, describes (f t) (described false t)) ->
  describes (visit f ms) (fun r => Forall2 (fun m p => m_kind m <> MDefault /\ fst p = m_name m /\ described false (m_ty m) (snd p)) ms (fst r) /\
    forall n, In n (snd r) <-> exists m, In m ms /\ m_kind m = MRequired /\ m_name m = n).
Proof.
  intros f ms G H. induction ms as [|m ms IH]; intros d a d' S O E B; cbn in E.
  - injection E as <- <-. split; [assumption|]. split; [constructor|]. intros n. split; [intros []|intros (m & [] & _)].
  - assert (Nd : m_kind m <> MDefault) by (intros K; rewrite K in E; discriminate).
    assert (Q : gbind (f (m_ty m) d) (fun s d => gbind (visit f ms d) (fun r d =>
        GOk ((m_name m, s) :: fst r, match m_kind m with MOptional => snd r | _ => m_name m :: snd r end) d)) = GOk a d')
      by (destruct (m_kind m); [exact E|discriminate E|exact E]). clear E.
    destruct (f (m_ty m) d) as [s d1| |] eqn:E1; cbn in Q; try discriminate. destruct (visit f ms d1) as [r d2| |] eqn:E2; cbn in Q; try discriminate.
    injection Q as <- <-. destruct (G _ _ _ _ S E1) as [S1 B1]. destruct (visit_grows f ms G _ _ _ S1 E2) as [S2 B2].
    destruct (H _ _ _ _ S O E1) as [O1 D1]; [eapply sub_trans; eauto|]. destruct (IH _ _ _ S1 O1 E2 B) as [O2 [D2 R2]]. split; [assumption|]. cbn [fst snd]. split; [constructor; auto|].
    intros n. split; [intros I|].
    2: { intros (m' & [<-|I'] & K & <-); [rewrite K; now left|]. assert (J : In (m_name m') (snd r)) by (apply R2; eauto). destruct (m_kind m); [now right|congruence|exact J]. }
    assert (I' : (m_name m = n /\ m_kind m = MRequired) \/ In n (snd r)).
    { destruct (m_kind m) eqn:K; [|congruence|right; exact I]. destruct I as [I|I]; [left; auto|right; exact I]. }
    destruct I' as [[<- K]|I']; [exists m; split; [now left|auto]|]. destruct (proj1 (R2 _) I') as (m' & I1 & K & N). exists m'. split; [now right|auto].
Qed.

Hypothesis Hinj : forall c c', tn c = tn c' -> c = c'.

Lemma gen_describes : forall n inline t, describes (gen e tn n inline t) (described inline t).
Proof.
  induction n as [|n IH]; intros inline t d s d' S O E B; cbn [gen] in E; [discriminate|].
  assert (Bind : forall A (x : definitions -> gres A) (f : A -> jschema) (P : A -> Prop), describes x P ->
    gbind (x d) (fun a d => GOk (f a) d) = GOk s d' -> sound d' /\ exists a, P a /\ s = f a).
  { intros A x f P H Q. destruct (x d) as [a d1| |] eqn:X; cbn in Q; try discriminate. injection Q as <- <-. destruct (H _ _ _ S O X B) as [O1 P1]. eauto. }
  assert (All : forall ts, describes (gen_all (gen e tn n false) ts) (Forall2 (described false) ts))
    by (intros; apply gen_all_describes; [intros; apply gen_grows|intros; apply IH]).
  destruct t; try (injection E as <- <-; split; [assumption|]; now constructor); try discriminate E.
  - destruct (Bind _ _ _ _ (IH false t) E) as (O' & s' & P & ->). split; [assumption|now apply ds_vector].
  - destruct (Bind _ _ _ _ (IH false t) E) as (O' & s' & P & ->). split; [assumption|now apply ds_array].
  - destruct (Bind _ _ _ _ (IH false t) E) as (O' & s' & P & ->). split; [assumption|now apply ds_set].
  - destruct (Bind _ _ _ _ (IH false t) E) as (O' & s' & P & ->). split; [assumption|now apply ds_map].
  - destruct (Bind _ _ _ _ (All _) E) as (O' & s' & P & ->). split; [assumption|now apply ds_pair].
  - destruct (Bind _ _ _ _ (All _) E) as (O' & s' & P & ->). split; [assumption|now apply ds_tuple].
  - destruct (Bind _ _ _ _ (All _) E) as (O' & s' & P & ->). split; [assumption|now apply ds_variant].
  - destruct (visit (gen e tn n false) (c_members (class_of e c)) d) as [r d1| |] eqn:E1; cbn in E; try discriminate.
    destruct (visit_grows _ _ (fun t => gen_grows n false t) _ _ _ S E1) as [S1 B1].
    assert (Q : sub d1 D -> sound d1 /\ described true (TClass c) (SObject (Some (fst r)) (Some (snd r)) (Some (inl false)))).
    { intros B'. destruct (visit_describes _ _ (fun t => gen_grows n false t) (fun t => IH false t) _ _ _ S O E1 B') as [O1 [D1 R1]]. split; [assumption|now apply ds_class]. }
    destruct inline; injection E as <- <-; [auto|].
    destruct Q as [O1 Q]; [eapply sub_trans; [apply sub_insert; eassumption|exact B]|]. split.
    + intros c' s' F. rewrite def_find_insert in F by assumption. destruct (String.eqb_spec (tn c) (tn c')) as [X|X]; [|now apply O1].
      apply Hinj in X. subst c'. destruct (def_find d1 (tn c)) as [s2|] eqn:F2; [injection F as <-; now apply O1|]. injection F as <-. exact Q.
    + assert (Z : exists s', def_find (def_insert d1 (tn c) (SObject (Some (fst r)) (Some (snd r)) (Some (inl false)))) (tn c) = Some s').
      { rewrite def_find_insert, String.eqb_refl by assumption. destruct (def_find d1 (tn c)); eauto. }
      destruct Z as (s' & F). apply (ds_ref c s'). now apply B.
  - destruct (context_aware t); [|discriminate]. destruct (IH _ _ _ _ _ S O E B). split; [assumption|now apply ds_unique].
  - destruct (context_aware t); [|discriminate]. destruct (IH _ _ _ _ _ S O E B). split; [assumption|now apply ds_shared].
Qed.
End Described.
End Gen.

(** * Keywords *)

Lemma all_true : forall l, Forall (fun o => o = Some true) l -> all_of l = Some true.
Proof. intros l F. induction F as [|o l E F IH]; [reflexivity|]. cbn. unfold all_of in IH. now rewrite E, IH. Qed.

Lemma all_map_true : forall A (f : A -> option bool) l, (forall x, In x l -> f x = Some true) -> all_of (map f l) = Some true.
Proof. intros A f l H. apply all_true. rewrite Forall_forall. intros o I. apply in_map_iff in I. destruct I as (x & <- & I). auto. Qed.

Section Keywords.
Variables (V : json -> json -> option bool) (root : json) (kws : list (string * json)).
Notation kw := (keyword V root kws).
Lemma kw_ref : forall r inst, kw "$ref" (JStr r) inst = match resolve root r with Some s => V s inst | None => Some false end. Proof. reflexivity. Qed.
Lemma kw_type : forall n inst, kw "type" (JStr n) inst = Some (is_type n inst). Proof. reflexivity. Qed.
Lemma kw_format : forall f s, kw "format" (JStr f) (JStr s) =
  Some (if String.eqb f "date" then full_date (list_ascii_of_string s) else if String.eqb f "date-time" then date_time (list_ascii_of_string s) else true).
Proof. reflexivity. Qed.
Lemma kw_encoding : forall f s, kw "contentEncoding" (JStr f) (JStr s) = Some (if String.eqb f "base64" then base64_text (list_ascii_of_string s) else true).
Proof. reflexivity. Qed.
Lemma kw_minimum : forall a z, kw "minimum" (JInt a) (JInt z) = Some (at_most (JInt a) (JInt z)). Proof. reflexivity. Qed.
Lemma kw_maximum : forall a z, kw "maximum" (JInt a) (JInt z) = Some (at_most (JInt z) (JInt a)). Proof. reflexivity. Qed.
Lemma kw_one : forall l inst, kw "oneOf" (JArr l) inst = option_map (Nat.eqb 1) (how_many (map (fun s => V s inst) l)). Proof. reflexivity. Qed.
Lemma kw_items : forall arg l, kw "items" arg (JArr l) = all_of (map (V arg) (skipn (List.length (siblings kws "prefixItems")) l)). Proof. reflexivity. Qed.
Lemma kw_prefix : forall ss l, kw "prefixItems" (JArr ss) (JArr l) = all_of (pairwise V ss l). Proof. reflexivity. Qed.
Lemma kw_unique : forall l, kw "uniqueItems" (JBool true) (JArr l) = Some (all_different l). Proof. reflexivity. Qed.
Lemma kw_min : forall n l, kw "minItems" (JNat n) (JArr l) = Some (at_most (JNat n) (JInt (Z.of_nat (List.length l)))). Proof. reflexivity. Qed.
Lemma kw_max : forall n l, kw "maxItems" (JNat n) (JArr l) = Some (at_most (JInt (Z.of_nat (List.length l))) (JNat n)). Proof. reflexivity. Qed.
Lemma kw_properties : forall props l, kw "properties" (JObj props) (JObj l) =
  all_of (map (fun p => match find_member props (fst p) with Some s => V s (snd p) | None => Some true end) l).
Proof. reflexivity. Qed.
Lemma kw_required : forall names l, kw "required" (JArr names) (JObj l) =
  Some (forallb (fun n => match n with JStr name => existsb (fun p => String.eqb (fst p) name) l | _ => false end) names).
Proof. reflexivity. Qed.
Lemma kw_additional : forall arg l, kw "additionalProperties" arg (JObj l) =
  all_of (map (fun p => match find_member (sibling_members kws "properties") (fst p) with Some _ => Some true | None => V arg (snd p) end) l).
Proof. reflexivity. Qed.
Lemma kw_schema : forall arg inst, kw "$schema" arg inst = Some true. Proof. now intros arg []. Qed.
Lemma kw_definitions : forall arg inst, kw "definitions" arg inst = Some true. Proof. now intros arg []. Qed.
End Keywords.

Lemma keyword_siblings : forall V root kws kws' key arg inst, find_member kws "prefixItems" = find_member kws' "prefixItems" ->
  find_member kws "properties" = find_member kws' "properties" -> keyword V root kws key arg inst = keyword V root kws' key arg inst.
Proof. intros V root kws kws' key arg inst A B. unfold keyword, siblings, sibling_members. rewrite A, B. reflexivity. Qed.

Lemma validate_members : forall n root kws inst, validate (S n) root (JObj kws) inst = all_of (map (fun p => keyword (validate n root) root kws (fst p) (snd p) inst) kws).
Proof. reflexivity. Qed.

Lemma after_itself : forall p s, after_prefix p (p ++ s) = Some s.
Proof. induction p as [|c p IH]; intros s; cbn; [destruct s; reflexivity|]. rewrite Ascii.eqb_refl. apply IH. Qed.

Lemma find_rendered : forall (d : list (string * jschema)) k, find_member (map (fun p => (fst p, render (snd p))) d) k = option_map render (def_find d k).
Proof. induction d as [|[n s] d IH]; intros k; cbn; [reflexivity|]. destruct (String.eqb n k); [reflexivity|apply IH]. Qed.

(** * Validation *)

Fixpoint cost (v : val) : nat :=
  match v with
  | VList l | VObj l => 2 + list_max (map cost l)
  | VMap l => 2 + list_max (map (fun p => cost (snd p)) l)
  | VSome x | VPtr x | VShared _ x => cost x
  | VVariant _ x => 3 + cost x
  | _ => 1
  end.

Lemma cost_max : forall A (f : A -> nat) l x, In x l -> f x <= list_max (map f l).
Proof. intros A f l x I. pose proof (proj1 (list_max_le (map f l) _) (Nat.le_refl _)) as F. rewrite Forall_forall in F. apply F. now apply in_map. Qed.

Lemma Forall2_at : forall A B (R : A -> B -> Prop) l m i x y, Forall2 R l m -> nth_error l i = Some x -> nth_error m i = Some y -> R x y.
Proof.
  intros A B R l m i x y F. revert i. induction F as [|a b l m Rab F IH]; intros [|i] X Y; cbn in X, Y; try discriminate; [congruence|eauto].
Qed.

Section Valid.
Variable e : env.
Variable tn : nat -> string.
Variable D : definitions.
Variable root : json.
Hypothesis Hn : named e.
Hypothesis Hz : zero_blind e.
Hypothesis He : schematic_classes e.

Hypothesis Hs : sound e tn D D.
Hypothesis Hr : forall c s, def_find D (tn c) = Some s -> resolve root ("#/definitions/" ++ tn c) = Some (render s).

Notation placed := (placed e homeless).
Notation described := (described e tn D).

Definition sets_alone (t : ty) (v : val) : Prop := forall u l, occurs e t v (TSet u) (VList l) -> addresses (VList l) = [].

Lemma alone_part : forall t v u x, sets_alone t v -> vpart e t v u x -> sets_alone u x.
Proof. intros t v u x A P w l O. apply (A w l). eapply occurs_part; eauto. Qed.

Definition valid_at (v : val) : Prop := forall i t s p j m, described i t s -> schematic t = true -> holds e t v -> sets_alone t v -> placed t v p j ->
  cost v <= m -> validate m root (render s) j = Some true.

Lemma scalar_valid : forall v, scalar_value v = true -> valid_at v.
Proof.
  intros v Sv i t s p j m Ds Et Hv _ P M. assert (d : doc e t v j) by (inversion P; subst; try discriminate Sv; assumption).
  assert (S1 : exists m', m = S m') by (destruct m; [destruct v; try discriminate Sv; cbn in M; lia|eauto]). destruct S1 as (m' & ->).
  destruct v; try discriminate Sv; inversion Hv; subst; try discriminate Et; inversion d; subst; inversion Ds as [? ? ? E| | | | | | | | | | |]; subst; cbn in E; injection E as <-;
    cbn [render opt app].
  - reflexivity.
  - reflexivity.
  - assert (T : is_type "integer" (JInt z) = true) by (cbn; now rewrite ?Z.mod_1_r).
    match goal with H : in_range _ _ |- _ => unfold in_range in H end. unfold tmin, tmax.
    destruct (is_signed k); cbn [render]; rewrite validate_members; apply all_true; repeat constructor; cbn [fst snd];
      rewrite ?kw_type, ?kw_minimum, ?kw_maximum, ?at_most_ints, ?T; f_equal; try reflexivity; apply Z.leb_le; lia.
  - rewrite validate_members. apply all_true. repeat constructor. cbn [fst snd]. rewrite kw_type. destruct f; try discriminate; reflexivity.
  - rewrite validate_members. apply all_true. repeat constructor. cbn [fst snd]. rewrite kw_type. destruct f; try discriminate; reflexivity.
  - reflexivity.
  - unfold string_of. rewrite validate_members. apply all_true. cbn [map fst snd]. apply Forall_cons; [reflexivity|]. apply Forall_cons; [|apply Forall_nil]. rewrite kw_encoding.
    rewrite list_ascii_of_string_of_list_ascii. cbn [String.eqb]. change (String.eqb "base64" "base64") with true. now rewrite rfc_is_base64.
  - unfold string_of. rewrite validate_members. apply all_true. cbn [map fst snd]. apply Forall_cons; [reflexivity|]. apply Forall_cons; [|apply Forall_nil]. rewrite kw_format.
    rewrite list_ascii_of_string_of_list_ascii. change (String.eqb "date-time" "date") with false. change (String.eqb "date-time" "date-time") with true. cbv iota.
    match goal with H : instant _ _ _ _ _ _ _ |- _ => apply instant_iff in H; destruct H as (Hd & Ht & _) end. now rewrite time_is_date_time.
  - unfold string_of. rewrite validate_members. apply all_true. cbn [map fst snd]. apply Forall_cons; [reflexivity|]. apply Forall_cons; [|apply Forall_nil]. rewrite kw_format.
    rewrite list_ascii_of_string_of_list_ascii. change (String.eqb "date" "date") with true. cbv iota.
    match goal with H : cal _ _ _ _ |- _ => apply cal_iff in H; destruct H as (Hd & _) end. now rewrite date_is_full_date.
Qed.

Lemma items_valid : forall l u s js m, Forall valid_at l -> described false u s -> schematic u = true -> Forall (holds e u) l -> (forall x, In x l -> sets_alone u x) ->
  Forall2 (fun x j => exists q, placed u x q j) l js -> list_max (map cost l) <= m -> all_of (map (validate m root (render s)) js) = Some true.
Proof.
  intros l u s js m F Ds Eu Hl A P M. rewrite Forall_forall in F, Hl. apply all_map_true. intros j I.
  destruct (Forall2_in_r _ _ _ _ _ _ P I) as (x & Ix & q & Q). pose proof (cost_max _ cost l x Ix).
  eapply (F _ Ix); [exact Ds|exact Eu|exact (Hl _ Ix)|exact (A _ Ix)|exact Q|lia].
Qed.

Lemma parts_valid : forall l, Forall valid_at l -> forall ts ss p n js m, Forall2 (described false) ts ss -> forallb schematic ts = true -> Forall2 (holds e) ts l ->
  Forall2 sets_alone ts l -> parts_placed placed p n ts l js -> list_max (map cost l) <= m ->
  all_of (pairwise (validate m root) (map render ss) js) = Some true /\ List.length js = List.length ts.
Proof.
  intros l F. induction F as [|x l Vx F IH]; intros ts ss p n js m Ds Et Hl A P M.
  - inversion P; subst. inversion Ds; subst. auto.
  - inversion P as [|? u ts' ? ? j js' Px P']; subst. inversion Ds as [|? s ? ss' D1 D2]; subst. inversion Hl; subst. inversion A; subst.
    cbn [forallb] in Et. apply andb_true_iff in Et. destruct Et as [E1 E2]. cbn [map list_max fold_right] in M. unfold list_max in M. cbn [fold_right] in M.
    destruct (IH ts' ss' p (S n) js' m) as [R L]; auto; [unfold list_max; lia|]. split; [|cbn; now rewrite L]. cbn [map pairwise].
    change (all_of (?a :: ?b)) with (match a, all_of b with Some x, Some y => Some (x && y) | _, _ => None end). rewrite R.
    rewrite (Vx false u s (p ++ [Element n])%list j m); auto. lia.
Qed.

Lemma set_different : forall u l js, schematic u = true -> Forall (holds e u) l -> flat_map addresses l = [] ->
  StronglySorted (fun x y => less e u x y = true /\ less e u y x = false) l -> Forall2 (fun x j => exists q, placed u x q j) l js -> all_different js = true.
Proof.
  intros u l js Eu Hl Al S P. induction P as [|x j l js (q & Q) P IH]; [reflexivity|]. cbn [all_different].
  inversion Hl as [|? ? Hx Hl']; subst. inversion S as [|? ? S' F]; subst. cbn in Al. apply app_eq_nil in Al. destruct Al as [Ax Al].
  rewrite IH by auto. rewrite andb_true_r. apply forallb_forall. intros j' I. destruct (same j j') eqn:E; [|reflexivity]. exfalso.
  destruct (Forall2_in_r _ _ _ _ _ _ P I) as (y & Iy & q' & Q'). rewrite Forall_forall in F, Hl'. destruct (F _ Iy) as [L _].
  rewrite (Hz u x y) in L; [discriminate|]. exact (documents_differ e Hn He x u y q q' j j' Eu Hx (Hl' _ Iy) Ax (flat_nil _ _ _ _ _ Al Iy) Q Q' E).
Qed.

Lemma find_props : forall ms (props : list (string * jschema)) m, NoDup (map m_name ms) ->
  Forall2 (fun m p => m_kind m <> MDefault /\ fst p = m_name m /\ described false (m_ty m) (snd p)) ms props -> In m ms ->
  exists s, def_find props (m_name m) = Some s /\ described false (m_ty m) s.
Proof.
  intros ms props m Nd F. revert Nd. induction F as [|m0 [n s] ms props (K & E & Ds) F IH]; intros Nd I; [destruct I|]. cbn in E, Ds. subst n.
  inversion Nd as [|? ? N1 N2]; subst. cbn. destruct I as [->|I].
  - rewrite String.eqb_refl. eauto.
  - destruct (String.eqb_spec (m_name m0) (m_name m)) as [X|]; [|auto]. elim N1. rewrite X. now apply in_map.
Qed.

Lemma members_each : forall p ms l ps, members_placed placed p ms l ps -> forall k j, In (k, j) ps ->
  exists m x i q, nth_error ms i = Some m /\ m_name m = k /\ placed (m_ty m) x q j /\
    ((m_kind m <> MOptional /\ nth_error l i = Some x) \/ (m_kind m = MOptional /\ nth_error l i = Some (VSome x))).
Proof.
  intros p ms l ps P. induction P as [|m ms x l j0 js K P0 P IH|m ms x l j0 js K P0 P IH|m ms l js K P IH]; intros k j I.
  - destruct I.
  - destruct I as [E|I]; [injection E as <- <-; exists m, x, 0, (p ++ [Member (m_name m)])%list; cbn; split; [reflexivity|]; split; [reflexivity|]; split; [exact P0|auto]|].
    destruct (IH _ _ I) as (m' & x' & i & q & A). exists m', x', (S i), q. exact A.
  - destruct I as [E|I]; [injection E as <- <-; exists m, x, 0, (p ++ [Member (m_name m)])%list; cbn; split; [reflexivity|]; split; [reflexivity|]; split; [exact P0|auto]|].
    destruct (IH _ _ I) as (m' & x' & i & q & A). exists m', x', (S i), q. exact A.
  - destruct (IH _ _ I) as (m' & x' & i & q & A). exists m', x', (S i), q. exact A.
Qed.

Lemma members_required : forall p ms l ps, members_placed placed p ms l ps -> forall m, In m ms -> m_kind m <> MOptional -> In (m_name m) (map fst ps).
Proof.
  intros p ms l ps P. induction P as [|m ms x l j0 js K P0 P IH|m ms x l j0 js K P0 P IH|m ms l js K P IH]; intros m' I N; [destruct I| | |];
    (destruct I as [->|I]; [try contradiction; now left|]); cbn; auto. 
Qed.

Lemma class_valid : forall c l, Forall (fun x => valid_at x /\ match x with VSome y => valid_at y | _ => True end) l -> forall s p ps m,
  described true (TClass c) s -> holds e (TClass c) (VObj l) -> sets_alone (TClass c) (VObj l) -> members_placed placed p (c_members (class_of e c)) l ps ->
  1 + list_max (map cost l) <= m -> validate m root (render s) (JObj ps) = Some true.
Proof.
  intros c l F s p ps m Ds Hc A P M. destruct m as [|m]; [lia|]. inversion Ds as [? ? ? E| | | | | | | |? props req Dp Rq| | |]; subst; [discriminate E|].
  inversion Hc as [| | | | | | | | | | | | | | | | |? ? Hl| | |]; subst. rewrite Forall_forall in F.
  assert (Each : forall k j, In (k, j) ps -> exists s, def_find props k = Some s /\ validate m root (render s) j = Some true).
  { intros k j I. destruct (members_each _ _ _ _ P _ _ I) as (mb & x & i & q & Nm & <- & Px & Kx). pose proof (nth_error_In _ _ Nm) as Im.
    destruct (find_props _ _ _ (Hn c) Dp Im) as (s & Fs & Dsm). exists s. split; [exact Fs|].
    destruct Kx as [[K Nx]|[K Nx]]; pose proof (nth_error_In _ _ Nx) as Ix; pose proof (cost_max _ cost l _ Ix) as C; cbn [cost] in C;
      pose proof (Forall2_at _ _ _ _ _ _ _ _ Hl Nm Nx) as Hx.
    - eapply (proj1 (F _ Ix)); [exact Dsm|exact (He c _ Im)|inversion Hx; subst; [assumption|congruence|congruence]| |exact Px|lia].
      eapply alone_part; [exact A|]. eapply vpart_member; eauto.
    - eapply (proj2 (F _ Ix)); [exact Dsm|exact (He c _ Im)|inversion Hx; subst; [congruence|assumption]| |exact Px|lia].
      eapply alone_part; [exact A|]. eapply vpart_optional; eauto. }
  cbn [render opt app]. rewrite validate_members. apply all_true. cbn [map fst snd].
  apply Forall_cons; [reflexivity|]. apply Forall_cons; [|apply Forall_cons; [|apply Forall_cons; [|apply Forall_nil]]].
  - rewrite kw_properties. apply all_map_true. intros [k j] I. cbn [fst snd]. rewrite find_rendered. destruct (Each _ _ I) as (s & -> & V). exact V.
  - rewrite kw_required. f_equal. apply forallb_forall. intros n I. apply in_map_iff in I. destruct I as (name & <- & I).
    destruct (proj1 (Rq _) I) as (mb & Im & K & <-). assert (I2 : In (m_name mb) (map fst ps)) by (eapply members_required; eauto; congruence).
    apply in_map_iff in I2. destruct I2 as (q & E & Iq). apply existsb_exists. exists q. split; [exact Iq|]. rewrite E. apply String.eqb_refl.
  - rewrite kw_additional. apply all_map_true. intros [k j] I. cbn [fst snd sibling_members find_member String.eqb Ascii.eqb Bool.eqb].
    rewrite find_rendered. destruct (Each _ _ I) as (s & -> & _). reflexivity.
Qed.

Lemma alone_items : forall ts l, (forall i u x, nth_error ts i = Some u -> nth_error l i = Some x -> sets_alone u x) -> List.length ts = List.length l -> Forall2 sets_alone ts l.
Proof.
  induction ts as [|u ts IH]; intros [|x l] A L; try discriminate L; constructor.
  - exact (A 0 u x eq_refl eq_refl).
  - apply IH; [|now injection L]. intros i. exact (A (S i)).
Qed.

(** A document of another JSON type. *)
Lemma foreign : forall i t s, described i t s -> forall k j m, json_type t = Some k -> is_type k j = false ->
  (i = true \/ forall c, t <> TClass c) -> validate (S m) root (render s) j = Some false.
Proof.
  intros i t s Ds. induction Ds; intros k j m J T W; cbn [json_type] in J; try discriminate J;
    try (injection J as <-; cbn [render opt app]; rewrite validate_members; destruct j; try discriminate T; try reflexivity;
      cbn [map fst snd]; rewrite kw_type, T; reflexivity).
  - destruct t; try discriminate H; cbn [scalar_schema] in H; injection H as <-; cbn [json_type] in J; try discriminate J; injection J as <-.
    3: { assert (T' : is_type "integer" j = false) by (destruct j; try reflexivity; [discriminate T|]; destruct f; try reflexivity; discriminate T).
         destruct (is_signed k0); cbn [render]; rewrite validate_members; cbn [map fst snd]; rewrite kw_type, T'; destruct j; reflexivity. }
    all: cbn [render opt app]; rewrite validate_members; cbn [map fst snd]; rewrite kw_type, T; destruct j; try reflexivity; discriminate T.
  - destruct W as [W|W]; [discriminate W|destruct (W c eq_refl)].
  - eapply IHDs; eauto.
  - eapply IHDs; eauto.
Qed.

Lemma mismatch : forall t s k j m, described false t s -> json_type t = Some k -> is_type k j = false -> validate (S (S m)) root (render s) j = Some false.
Proof.
  intros t s k j m Ds J T. destruct t; try (eapply foreign; eauto; right; discriminate).
  inversion Ds as [? ? ? E| | | | | | | |? props req Dp Rq|? s' F| |]; subst; [discriminate E|]. cbn [render]. rewrite validate_members. cbn [map fst snd]. rewrite kw_ref, (Hr _ _ F).
  rewrite (foreign _ _ _ (Hs _ _ F) _ _ m J T) by now left. reflexivity.
Qed.

Lemma how_many_none : forall ts ss j m, Forall2 (described false) ts ss -> (forall t, In t ts -> exists k, json_type t = Some k /\ is_type k j = false) ->
  how_many (map (fun s => validate (S (S m)) root s j) (map render ss)) = Some 0.
Proof.
  intros ts ss j m F. induction F as [|t s ts ss Ds F IH]; intros H; [reflexivity|]. destruct (H t) as (k & J & T); [now left|].
  cbn [map how_many fold_right]. unfold how_many in IH. rewrite (mismatch _ _ _ _ m Ds J T), IH; [reflexivity|]. intros u I. apply H. now right.
Qed.

Lemma how_many_one : forall ts ss i t j m, Forall2 (described false) ts ss -> apart ts = true -> nth_error ts i = Some t ->
  (exists k, json_type t = Some k /\ is_type k j = true) -> (forall s, described false t s -> validate (S (S m)) root (render s) j = Some true) ->
  how_many (map (fun s => validate (S (S m)) root s j) (map render ss)) = Some 1.
Proof.
  intros ts ss i t j m F. revert i. induction F as [|u s ts ss Ds F IH]; intros i Ap Nt K V; [destruct i; discriminate|].
  assert (Other : forall n n' w, nth_error (u :: ts) n = Some t -> nth_error (u :: ts) n' = Some w -> n <> n' -> exists k, json_type w = Some k /\ is_type k j = false).
  { intros n n' w N N' D'. destruct (apart_at _ _ _ _ _ Ap N N' D') as (k & k' & J & J' & X). exists k'. split; [exact J'|]. destruct (is_type k' j) eqn:T'; [|reflexivity]. exfalso. apply X.
    destruct K as (k0 & J0 & T0). assert (k0 = k) by congruence. subst k0. apply (one_type k k' j T0 T'); intros ->; eapply not_integer; eauto. }
  cbn [map how_many fold_right]. destruct i as [|i]; cbn in Nt.
  - injection Nt as ->. rewrite (V s Ds). pose proof (how_many_none ts ss j m F) as Z. unfold how_many in Z. rewrite Z; [reflexivity|].
    intros w I. apply In_nth_error in I. destruct I as (n & N). apply (Other 0 (S n) w eq_refl N). discriminate.
  - destruct (Other (S i) 0 u Nt eq_refl) as (k & J & T); [discriminate|]. rewrite (mismatch _ _ _ _ m Ds J T). unfold how_many in IH. rewrite (IH i); auto.
    cbn [apart] in Ap. destruct (json_type u); [|discriminate]. now apply andb_true_iff in Ap.
Qed.

Lemma apart_typed : forall ts t, apart ts = true -> In t ts -> exists k, json_type t = Some k.
Proof.
  induction ts as [|u ts IH]; intros t A I; [destruct I|]. cbn [apart] in A. destruct I as [<-|I]; destruct (json_type u) as [k|] eqn:J; try discriminate; [eauto|]. apply andb_true_iff in A. apply IH; [apply A|exact I].
Qed.

Lemma all_valid : forall v, valid_at v.
Proof.
  intros v. enough (A : valid_at v /\ match v with VSome y => valid_at y | _ => True end) by apply A.
  induction v as [| |b|z|f|s|b|z|z|l IH|l IH|i v IH|l IH| |v IH| |v IH|a v IH] using val_ind'; (split; [|try exact I; try apply IH]);
    try (apply scalar_valid; reflexivity); intros i0 t s0 p j m Ds Et Hv A P M.
  - inversion Hv.
  - assert (F : Forall valid_at l) by (eapply Forall_impl; [|exact IH]; cbn beta; intros q0 [Q _]; exact Q). clear IH.
    cbn [cost] in M. destruct m as [|m]; [lia|].
    inversion Hv as [| | | | | | | | | | |u ? Sp Hl|u ? Hl|u ? Hl Ss| |a b x y Ha Hb|ts ? Hl| | | |]; subst; cbn [schematic] in Et.
    + inversion P as [? ? ? ? X|? ? ? js ? Pi| | | | | | | | | | |]; subst; [discriminate X|]. inversion Ds as [? ? ? E|? ? s D1| | | | | | | | | |]; subst; [discriminate E|].
      cbn [render opt app]. rewrite validate_members. apply all_true. cbn [map fst snd]. apply Forall_cons; [reflexivity|]. apply Forall_cons; [|apply Forall_nil].
      rewrite kw_items. cbn [siblings find_member String.eqb Ascii.eqb Bool.eqb List.length skipn]. eapply items_valid; eauto using items_each; [|lia].
      intros x I. eapply alone_part; [exact A|]. now apply vpart_vector.
    + inversion P as [? ? ? ? X| |? ? ? js Pi| | | | | | | | | |]; subst; [discriminate X|]. inversion Ds as [? ? ? E| | |? ? ? s D1| | | | | | | |]; subst; [discriminate E|].
      pose proof (items_each _ _ _ _ _ _ Pi) as Pe. pose proof (forall2_len _ _ _ _ _ Pe) as Le.
      cbn [render opt app]. rewrite validate_members. apply all_true. cbn [map fst snd]. apply Forall_cons; [reflexivity|].
      apply Forall_cons; [|apply Forall_cons; [|apply Forall_cons; [|apply Forall_nil]]].
      * rewrite kw_items. cbn [siblings find_member String.eqb Ascii.eqb Bool.eqb List.length skipn]. eapply items_valid; eauto; [|lia].
        intros x I. eapply alone_part; [exact A|]. now apply vpart_array.
      * rewrite kw_min. unfold JNat. rewrite at_most_ints. f_equal. apply Z.leb_le. lia.
      * rewrite kw_max. unfold JNat. rewrite at_most_ints. f_equal. apply Z.leb_le. lia.
    + inversion P as [? ? ? ? X| | |? ? ? js Pi| | | | | | | | |]; subst; [discriminate X|]. inversion Ds as [? ? ? E| |? ? s D1| | | | | | | | |]; subst; [discriminate E|].
      pose proof (set_each _ _ _ _ _ Pi) as Pe.
      cbn [render opt app]. rewrite validate_members. apply all_true. cbn [map fst snd]. apply Forall_cons; [reflexivity|].
      apply Forall_cons; [|apply Forall_cons; [|apply Forall_nil]].
      * rewrite kw_items. cbn [siblings find_member String.eqb Ascii.eqb Bool.eqb List.length skipn]. eapply items_valid; eauto; [|lia].
        intros x I. eapply alone_part; [exact A|]. now apply vpart_set.
      * rewrite kw_unique. f_equal. eapply set_different; eauto. exact (A u l (occurs_here _ _ _)).
    + inversion P as [? ? ? ? X| | | |? ? ? ? js Pi| | | | | | | |]; subst; [discriminate X|]. inversion Ds as [? ? ? E| | | |? ? ? ss D1| | | | | | |]; subst; [discriminate E|].
      assert (Q : all_of (pairwise (validate m root) (map render ss) js) = Some true /\ List.length js = List.length [a; b]).
      { apply (parts_valid [x; y] F [a; b] ss p 0 js m D1); [cbn; now rewrite andb_true_r|auto| |exact Pi|lia]. apply alone_items; [|reflexivity].
        intros i u w U W. eapply alone_part; [exact A|]. eapply vpart_pair; eauto. }
      destruct Q as [Q L]. cbn [List.length] in L.
      cbn [render opt app]. rewrite validate_members. apply all_true. cbn [map fst snd]. apply Forall_cons; [reflexivity|].
      apply Forall_cons; [|apply Forall_cons; [|apply Forall_cons; [|apply Forall_nil]]].
      * now rewrite kw_prefix.
      * rewrite kw_min. unfold JNat. rewrite at_most_ints, L. reflexivity.
      * rewrite kw_max. unfold JNat. rewrite at_most_ints, L. reflexivity.
    + inversion P as [? ? ? ? X| | | | |? ? ? js Pi| | | | | | |]; subst; [discriminate X|]. inversion Ds as [? ? ? E| | | | |? ? ss D1| | | | | |]; subst; [discriminate E|].
      assert (Q : all_of (pairwise (validate m root) (map render ss) js) = Some true /\ List.length js = List.length ts).
      { apply (parts_valid l F ts ss p 0 js m D1); [exact Et|exact Hl| |exact Pi|lia]. apply alone_items; [|symmetry; exact (forall2_len _ _ _ _ _ Hl)].
        intros i u w U W. eapply alone_part; [exact A|]. eapply vpart_tuple; eauto. }
      destruct Q as [Q L].
      cbn [render opt app]. rewrite validate_members. apply all_true. cbn [map fst snd]. apply Forall_cons; [reflexivity|].
      apply Forall_cons; [|apply Forall_cons; [|apply Forall_cons; [|apply Forall_nil]]].
      * now rewrite kw_prefix.
      * rewrite kw_min. unfold JNat. rewrite at_most_ints, L. f_equal. apply Z.leb_le. lia.
      * rewrite kw_max. unfold JNat. rewrite at_most_ints, L. f_equal. apply Z.leb_le. lia.
  - cbn [cost] in M. destruct m as [|m]; [lia|]. inversion Hv as [| | | | | | | | | | | | | |o u ? Hl Sl| | | | | |]; subst. cbn [schematic] in Et.
    inversion P as [? ? ? ? X| | | | | |? ? ? l' ? ps Pe Pi| | | | | |]; subst; [discriminate X|]. inversion Ds as [? ? ? E| | | | | | |? ? ? s D1| | | |]; subst; [discriminate E|].
    assert (Pm : Permutation l l') by (destruct o; [subst; auto|exact Pe]).
    cbn [render opt app]. rewrite validate_members. apply all_true. cbn [map fst snd]. apply Forall_cons; [reflexivity|].
    apply Forall_cons; [|apply Forall_nil]. rewrite kw_additional. apply all_map_true. intros [k j] I. cbn [fst snd sibling_members find_member String.eqb Ascii.eqb Bool.eqb].
    destruct (Forall2_in_r _ _ _ _ _ _ (entries_each _ _ _ _ _ Pi) I) as ([k' x] & I' & E & q & Q). cbn in E, Q. subst k'.
    apply (Permutation_in _ (Permutation_sym Pm)) in I'. rewrite Forall_forall in IH, Hl. pose proof (cost_max _ (fun p => cost (snd p)) l _ I') as C. cbn in C.
    eapply (proj1 (IH _ I')); [exact D1|exact Et|exact (proj2 (Hl _ I'))| |exact Q|cbn [snd]; lia]. eapply alone_part; [exact A|]. eapply vpart_map; eauto.
  - cbn [cost] in M. destruct m as [|[|[|m]]]; try lia. inversion Hv as [| | | | | | | | | | | | | | | | | | | |ts ? w ? Nt Ht _]; subst. cbn [schematic] in Et. apply andb_true_iff in Et. destruct Et as [Ap Et].
    inversion P as [? ? ? ? X| | | | | | | | | | | |? ? ? ? ? ? Nt1 Px]; subst; [discriminate X|]. rewrite Nt in Nt1. injection Nt1 as <-.
    inversion Ds as [? ? ? E| | | | | |? ? ss D1| | | | |]; subst; [discriminate E|]. pose proof (nth_error_In _ _ Nt) as It. destruct (apart_typed _ _ Ap It) as (k & K).
    cbn [render]. rewrite validate_members. apply all_true. cbn [map fst snd]. apply Forall_cons; [|apply Forall_nil]. rewrite kw_one.
    rewrite (how_many_one ts ss i w j m D1 Ap Nt); [reflexivity| |].
    + exists k. split; [exact K|]. exact (typed _ _ _ _ _ _ Ht Px K).
    + intros s D2. rewrite forallb_forall in Et. eapply (proj1 IH); eauto; [|lia]. eapply alone_part; [exact A|]. now apply vpart_variant.
  - inversion Hv as [| | | | | | | | | | | | | | | | |c ? Hl| | |]; subst. inversion P as [? ? ? ? X| | | | | | |? ? ? ps Pi| | | | |]; subst; [discriminate X|]. cbn [cost] in M.
    inversion Ds as [? ? ? E| | | | | | | |? props req Dp Rq|? s F| |]; subst; [discriminate E| |].
    + eapply class_valid; eauto. lia.
    + destruct m as [|m]; [lia|]. cbn [render]. rewrite validate_members. apply all_true. cbn [map fst snd]. apply Forall_cons; [|apply Forall_nil]. rewrite kw_ref, (Hr c s F).
      eapply class_valid; eauto. lia.
  - inversion Hv.
  - inversion Hv.
  - inversion Hv.
  - cbn [cost] in M. inversion Hv; subst. cbn [schematic] in Et. inversion P as [? ? ? ? X| | | | | | | |? ? ? ? Px| | | |]; subst; [discriminate X|].
    inversion Ds as [? ? ? E| | | | | | | | | |? ? ? D1|]; subst; [discriminate E|].
    eapply (proj1 IH); eauto. eapply alone_part; [exact A|]. apply vpart_unique.
  - cbn [cost] in M. inversion Hv; subst. cbn [schematic] in Et. inversion P as [? ? ? ? X| | | | | | | | |? ? ? ? ? Ho Px|? ? ? ? ? Ho|? ? ? ? ? Ho|]; subst; [discriminate X| |discriminate Ho|discriminate Ho].
    inversion Ds as [? ? ? E| | | | | | | | | | |? ? ? D1]; subst; [discriminate E|].
    eapply (proj1 IH); eauto. eapply alone_part; [exact A|]. apply vpart_shared.
Qed.
End Valid.

(** * The document *)

Lemma ordinary_resolve : forall l d name s, find_member l "definitions" = Some (JObj (map (fun p => (fst p, render (snd p))) d)) -> def_find d name = Some s ->
  forallb ordinary_char (list_ascii_of_string name) = true -> resolve (JObj l) ("#/definitions/" ++ name) = Some (render s).
Proof. intros l d name s F E O. unfold resolve. rewrite after_itself, O, F, find_rendered, E. reflexivity. Qed.

Lemma render_members : forall s, exists kws, render s = JObj kws /\ find_member kws "definitions" = None.
Proof. intros s. destruct s as [n|t [f|] [c|]|lo hi|hi|t|[i|] [p|] [[]|] [lo|] [hi|]|[p|] [r|] [[b|s]|]|l]; cbn; eexists; (split; [reflexivity|reflexivity]). Qed.

Theorem schema_accepts : forall e tn, (forall c c', tn c = tn c' -> c = c') -> (forall c, forallb ordinary_char (list_ascii_of_string (tn c)) = true) ->
  named e -> zero_blind e -> schematic_classes e ->
  forall t v j n doc d, schematic t = true -> holds e t v -> (forall u l, occurs e t v (TSet u) (VList l) -> addresses (VList l) = []) -> placed e homeless t v [] j ->
  schema_document e tn n t = GOk doc d -> accepts doc j.
Proof.
  intros e tn Inj Ord Hn Hz He t v j n doc d Et Hv A P G. unfold schema_document in G.
  destruct (gen e tn n true t []) as [s d0| |] eqn:E; cbn [gbind] in G; try discriminate. injection G as <- <-.
  assert (S0 : def_sorted []) by constructor.
  destruct (gen_describes e tn d0 Inj n true t [] s d0 S0) as [Sd Ds]; [intros c s' F; discriminate F|exact E|intros ? ?; auto|].
  destruct (render_members s) as (kws & Rk & Nk). rewrite Rk. cbn [members_of].
  set (head := match d0 with [] => [] | _ => [("definitions", JObj (map (fun p => (fst p, render (snd p))) d0))] end).
  set (root := JObj (("$schema", JStr schema_version) :: head ++ kws)%list).
  assert (V : forall m, cost v <= m -> validate m root (render s) j = Some true).
  { intros m M. eapply (all_valid e tn d0 root Hn Hz He); eauto. intros c s' F. apply (ordinary_resolve _ d0); auto.
    unfold head. destruct d0 as [|x d0]; [discriminate F|]. reflexivity. }
  exists (cost v). intros m M. specialize (V m M). rewrite Rk in V. destruct m as [|m]; [discriminate V|]. unfold root at 2. rewrite validate_members in V |- *.
  assert (Fk : forall k, k <> "$schema" -> k <> "definitions" -> find_member (("$schema", JStr schema_version) :: head ++ kws) k = find_member kws k).
  { intros k N1 N2. cbn [find_member]. destruct (String.eqb_spec "$schema" k); [congruence|]. unfold head. destruct d0; [reflexivity|].
    cbn [app find_member]. destruct (String.eqb_spec "definitions" k); [congruence|reflexivity]. }
  cbn [map fst snd]. rewrite kw_schema.
  assert (X : forall l, all_of (Some true :: l) = all_of l) by (intros l; cbn; destruct (all_of l) as [[]|] eqn:Q; unfold all_of in Q; now rewrite Q).
  rewrite X, map_app.
  rewrite <- V. assert (Y : forall l l', (forall o, In o l -> o = Some true) -> all_of (l ++ l') = all_of l').
  { intros l l' H. induction l as [|o l IH]; [reflexivity|]. cbn [app]. rewrite (H o) by now left. rewrite X. apply IH. intros; apply H; now right. }
  rewrite Y.
  - f_equal. apply map_ext. intros [k a]. cbn [fst snd]. apply keyword_siblings; apply Fk; discriminate.
  - intros o I. unfold head in I. destruct d0; [destruct I|]. cbn [map fst snd] in I. destruct I as [<-|[]]. apply kw_definitions.
Qed.
