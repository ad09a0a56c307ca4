(** Property C55: variants in round trips. *)
From Coq Require Import List Arith ZArith NArith Ascii String Bool Lia Permutation Sorted.
From Verif Require Import Base Float NumericModel NumericSpec DatetimeSpec Json PathModel PathSpec Types SerializeModel DeserializeModel
  DenoteSpec RoundSpec DocSpec GraphSpec GraphProof DeserializeProps RoundProps GraphProps.
Import ListNotations.
Local Open Scope string_scope.
Local Open Scope list_scope.

Lemma occurs_addresses : forall e t v t' v' a, occurs e t v t' v' -> In a (addresses v') -> In a (addresses v).
Proof.
  intros e t v t' v' a O I. induction O as [t v|t v w y t' v' P O IH]; [exact I|].
  specialize (IH I). destruct P; cbn [addresses]; auto; try (now right); apply in_flat_map; eauto using nth_error_In.
Qed.

(** C55: values with variants in them come back as they were, with the same alternatives, if
    no alternative looks like a later one. Nothing in the value is shared here; the theorems
    of C24 and C17 about shared pointers are about variants as well. *)
Theorem C55_round_trip : forall e t v, real_classes e -> (0 < tick e)%Z -> named e -> iterates e -> real_ints t = true -> holds e t v -> addresses v = [] ->
  exists tab j, serialize_to_document e t v = SOk tab j /\ placed e homeless t v [] j /\
    deserialize_throw e t j = Returned v /\ exists st, forall obj, deserialize e t j obj = DRet true st v.
Proof.
  intros e t v Rc Tk Nm It Ri Hv A.
  assert (S : simple e t v).
  { split.
    - intros u a x O. assert (In a (addresses v)) as I by (eapply occurs_addresses; [exact O|now left]). now rewrite A in I.
    - intros u l O. destruct (addresses (VList l)) as [|a r] eqn:E; [reflexivity|].
      assert (In a (addresses v)) as I by (eapply occurs_addresses; [exact O|rewrite E; now left]). now rewrite A in I. }
  destruct (unaliased_round_trip e t v Rc Tk Nm It Ri Hv S) as (tab & j & Sj & Pj & r & _ & T & st & D); [rewrite A; constructor|].
  rewrite (rename_unshared r v A) in T, D. exists tab, j. split; [exact Sj|]. split; [exact Pj|]. split; [exact T|]. exists st. exact D.
Qed.
Print Assumptions C55_round_trip.

(** Alternatives of all shapes. *)
Definition ex_choice : ty := TVariant [TNull; TBool; TInt int32; TDouble; TTime; TVector (TVariant [TInt int32; TString]); TShared (TClass 0)].
Definition ex_choices : val :=
  VList [VVariant 0 VNull; VVariant 1 (VBool true); VVariant 2 (VInt 7); VVariant 3 (VFlt (FFin false 1 0)); VVariant 4 (VTime 1000000000);
         VVariant 5 (VList [VVariant 1 (VStr "x"); VVariant 0 (VInt (-1))])].

Example ex_choices_hold : holds ex_graph (TVector ex_choice) ex_choices.
Proof.
  assert (C : forall i t x, nth_error [TNull; TBool; TInt int32; TDouble; TTime; TVector (TVariant [TInt int32; TString]); TShared (TClass 0)] i = Some t ->
    i < 6 -> holds ex_graph t x -> holds ex_graph ex_choice (VVariant i x)).
  { intros i t x N L Hx. eapply holds_variant; [exact N|exact Hx|]. intros k u K Nk s.
    do 6 (destruct i as [|i]; [do 6 (destruct k as [|k]; [injection Nk as <-; injection N as <-; first [lia | destruct s; cbn; congruence]|]); lia|]). lia. }
  apply holds_vector; [reflexivity|]. repeat (apply Forall_cons; [eapply C; [reflexivity|lia|]|]); [| | | | | |apply Forall_nil].
  - constructor.
  - constructor.
  - apply holds_int. cbn. lia.
  - apply holds_double; reflexivity.
  - apply (holds_time ex_graph 1); cbn; unfold first_second, last_second; lia.
  - apply holds_vector; [reflexivity|]. apply Forall_cons; [|apply Forall_cons; [|apply Forall_nil]].
    + eapply holds_variant; [reflexivity|constructor|]. intros [|k] u K Nk s; [|lia]. injection Nk as <-. destruct s; cbn; congruence.
    + eapply holds_variant; [reflexivity|apply holds_int; cbn; lia|]. intros k u K. lia.
Qed.

Example C55_example : (exists tab, serialize_to_document ex_graph (TVector ex_choice) ex_choices =
    SOk tab (JArr [JNull; JBool true; JInt 7; JDbl (FFin false 1 0); JStr "1970-01-01T00:00:01Z"; JArr [JStr "x"; JInt (-1)]])) /\
  deserialize_throw ex_graph (TVector ex_choice) (JArr [JNull; JBool true; JInt 7; JDbl (FFin false 1 0); JStr "1970-01-01T00:00:01Z"; JArr [JStr "x"; JInt (-1)]]) =
    Returned ex_choices.
Proof. split; [eexists|]; vm_compute; reflexivity. Qed.

(** C24 with variants: a shared object in an alternative and outside of it. *)
Definition ex_alias : ty := TPair (TShared (TClass 0)) (TVector (TVariant [TString; TInt int32; TShared (TClass 0)])).
Definition ex_aliases : val := VList [VShared 3 ex_leaf; VList [VVariant 2 (VShared 5 ex_leaf); VVariant 0 (VStr "a"); VVariant 2 (VShared 3 ex_leaf)]].
Definition ex_alias_document : json :=
  JArr [JObj [("name", JStr "d"); ("next", JArr [])]; JArr [JObj [("name", JStr "d"); ("next", JArr [])]; JStr "a"; JObj [("$ref", JStr "/0")]]].

Example ex_aliases_hold : holds ex_graph ex_alias ex_aliases.
Proof.
  assert (L : holds ex_graph (TClass 0) ex_leaf).
  { repeat first [(apply member_held; [discriminate|]) | (apply holds_class; cbn [c_members class_of classes ex_graph nth ex_node]) | constructor]. }
  assert (C : forall i t x, nth_error [TString; TInt int32; TShared (TClass 0)] i = Some t -> holds ex_graph t x ->
    holds ex_graph (TVariant [TString; TInt int32; TShared (TClass 0)]) (VVariant i x)).
  { intros i t x N Hx. eapply holds_variant; [exact N|exact Hx|]. intros k u K Nk s.
    do 3 (destruct i as [|i]; [do 3 (destruct k as [|k]; [injection Nk as <-; injection N as <-; first [lia | destruct s; cbn; congruence]|]); lia|]). destruct i; discriminate N. }
  apply holds_pair; [now apply holds_shared|]. apply holds_vector; [reflexivity|].
  repeat (apply Forall_cons; [eapply C; [reflexivity|first [now apply holds_shared | constructor]]|]). apply Forall_nil.
Qed.

Example ex_aliases_graph : graph ex_graph (fun _ => ex_leaf) (fun _ => TClass 0) ex_alias ex_aliases.
Proof.
  unfold ex_alias, ex_aliases, ex_leaf. split; intros;
  repeat match goal with
  | _ => discriminate
  | I : In _ (_ :: _) |- _ => destruct I as [<-|I]
  | I : In _ [] |- _ => destruct I
  | E : nth_error [_; _] ?i = Some _ |- _ => destruct i as [|[|i]]; cbn in *; [| |destruct i; discriminate]; injection E as <-
  | E : nth_error (c_members _) ?i = Some _ |- _ => destruct i as [|[|i]]; cbn in E; [| |destruct i; discriminate]; injection E as <-; cbn in *
  | E : nth_error (_ :: _) _ = Some _ |- _ => progress cbn in E
  | E : Some _ = Some _ |- _ => injection E as E; subst
  | P : vpart _ _ _ _ _ |- _ => inversion P; clear P; subst
  | O : occurs _ _ _ _ _ |- _ => inversion O; clear O; subst
  end; cbn; try (split; reflexivity); try tauto; try lia; intuition discriminate.
Qed.

Example C24_variant_example : (exists tab, serialize_to_document ex_graph ex_alias ex_aliases = SOk tab ex_alias_document) /\
  deserialize_throw ex_graph ex_alias ex_alias_document =
    Returned (VList [VShared 0 ex_leaf; VList [VVariant 2 (VShared 1 ex_leaf); VVariant 0 (VStr "a"); VVariant 2 (VShared 0 ex_leaf)]]).
Proof. split; [eexists|]; vm_compute; reflexivity. Qed.

(** C55: an integer after a floating-point number comes back as the other alternative. *)
Theorem C55_numbers_refuted : exists e ts i x tab j y, real_classes e /\ named e /\ iterates e /\ forallb real_ints ts = true /\
  nth_error ts i = Some (TInt int32) /\ holds e (TInt int32) x /\
  serialize_to_document e (TVariant ts) (VVariant i x) = SOk tab j /\ deserialize_throw e (TVariant ts) j = Returned (VVariant 0 y) /\ i <> 0.
Proof.
  exists ex_graph, [TDouble; TInt int32], 1, (VInt 7), [], (JInt 7), (VFlt (FFin false 7 0)).
  split; [exact ex_graph_real|]. split; [exact ex_graph_named|]. split; [exact ex_graph_iterates|]. split; [reflexivity|]. split; [reflexivity|].
  split; [apply holds_int; cbn; lia|]. split; [reflexivity|]. split; [vm_compute; reflexivity|discriminate].
Qed.
Print Assumptions C55_numbers_refuted.

(** C55: a text after another type written as text, too... *)
Theorem C55_texts_refuted : exists e ts i x tab j y, real_classes e /\ named e /\ iterates e /\
  nth_error ts i = Some TString /\ holds e TString x /\
  serialize_to_document e (TVariant ts) (VVariant i x) = SOk tab j /\ deserialize_throw e (TVariant ts) j = Returned (VVariant 0 y) /\ i <> 0.
Proof.
  exists ex_graph, [TBytes; TString], 1, (VStr "data"), [], (JStr "data"), (VBytes (list_ascii_of_string (String "u" (String (ascii_of_nat 171) (String "Z" ""))))).
  split; [exact ex_graph_real|]. split; [exact ex_graph_named|]. split; [exact ex_graph_iterates|]. split; [reflexivity|]. split; [constructor|].
  split; [reflexivity|]. split; [vm_compute; reflexivity|discriminate].
Qed.
Print Assumptions C55_texts_refuted.

(** C55: ...and a pointer after a pointer to another type: if it is an alias, it is taken for a
    pointer to that type, which is undefined behaviour. *)
Theorem C55_pointers_refuted : exists e t v tab j, real_classes e /\ named e /\ iterates e /\ printable e /\ real_ints t = true /\
  t = TPair (TShared (TMap true TBool)) (TVariant [TShared (TClass 0); TShared (TMap true TBool)]) /\
  v = VList [VShared 3 (VMap []); VVariant 1 (VShared 3 (VMap []))] /\
  serialize_to_document e t v = SOk tab j /\ deserialize_throw e t j = TUndef /\ forall obj, deserialize e t j obj = DUndef.
Proof.
  exists ex_graph. eexists. eexists. eexists. eexists. split; [exact ex_graph_real|]. split; [exact ex_graph_named|]. split; [exact ex_graph_iterates|]. split; [exact ex_graph_printable|].
  split; [|split; [reflexivity|split; [reflexivity|]]]; [reflexivity|]. split; [vm_compute; reflexivity|]. split; [vm_compute; reflexivity|]. intros obj. destruct obj; vm_compute; reflexivity.
Qed.
Print Assumptions C55_pointers_refuted.
