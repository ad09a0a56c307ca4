(** Property C71: what another version of a program reads from a document. *)
From Coq Require Import List Arith ZArith NArith Ascii String Bool Lia Permutation Sorted.
From Verif Require Import Base Float NumericModel NumericSpec EnumModel Json Types SerializeModel DeserializeModel ParseModel
  DenoteSpec DenoteFacts ParseSpec MergeSpec AgreeSpec ParseLimit RoundSpec DocSpec DeserializeProps ParseProps RoundProps EvolveSpec EvolveProof.
Import ListNotations.
Local Open Scope string_scope.
Local Open Scope list_scope.

(** Two versions of a program. *)
Definition ex_colours : list (Z * string) := [(0%Z, "red"); (1%Z, "green")].
Definition ex_old_shape : cls := {|
  c_members := [{| m_name := "x"; m_kind := MRequired; m_ty := TInt int32 |};
                {| m_name := "y"; m_kind := MRequired; m_ty := TInt int32 |};
                {| m_name := "note"; m_kind := MOptional; m_ty := TString |};
                {| m_name := "colour"; m_kind := MRequired; m_ty := TEnumStr ex_colours |};
                {| m_name := "gone"; m_kind := MRequired; m_ty := TBool |}];
  c_root := 5; c_default := [VIndet; VIndet; VNone; VIndet; VIndet]; c_value := [VInt 0; VInt 0; VNone; VInt 0; VBool false] |}.
Definition ex_new_shape : cls := {|
  c_members := [{| m_name := "colour"; m_kind := MRequired; m_ty := TEnumStr [(7%Z, "blue"); (8%Z, "green"); (9%Z, "red")] |};
                {| m_name := "y"; m_kind := MOptional; m_ty := TInt int64 |};
                {| m_name := "x"; m_kind := MRequired; m_ty := TUnique TDouble |};
                {| m_name := "z"; m_kind := MDefault; m_ty := TInt int32 |};
                {| m_name := "tags"; m_kind := MOptional; m_ty := TVector TString |};
                {| m_name := "note"; m_kind := MDefault; m_ty := TString |}];
  c_root := 6; c_default := [VIndet; VNone; VPtrNull; VInt 5; VNone; VStr "none"]; c_value := [VInt 0; VNone; VPtrNull; VInt 5; VNone; VStr "none"] |}.
Definition ex_version (c : cls) : env := {|
  classes := [c]; tick := 1000000000; endian := Base64Model.little; after := fun _ => [];
  less := fun _ v w => match v, w with VInt a, VInt b => Z.ltb a b | _, _ => false end;
  iteration := fun keys => rev (seq 0 (List.length keys)) |}.
Definition ex_old := ex_version ex_old_shape.
Definition ex_new := ex_version ex_new_shape.

Ltac by_version c := destruct c as [|c]; [|unfold class_of; cbn; destruct c].

Example ex_old_ordinary : ordinary ex_old.
Proof. split; [|split; [|reflexivity]]; intros c; by_version c; reflexivity. Qed.
Example ex_new_ordinary : ordinary ex_new.
Proof. split; [|split; [|reflexivity]]; intros c; by_version c; reflexivity. Qed.
Example ex_old_named : named ex_old.
Proof. intros c. by_version c; cbn; repeat (constructor; [cbn; intuition discriminate|]); constructor. Qed.
Example ex_new_named : named ex_new.
Proof. intros c. by_version c; cbn; repeat (constructor; [cbn; intuition discriminate|]); constructor. Qed.
Example ex_old_iterates : iterates ex_old.
Proof. intros keys. cbn. apply Permutation_sym, Permutation_rev. Qed.
Example ex_new_iterates : iterates ex_new.
Proof. intros keys. cbn. apply Permutation_sym, Permutation_rev. Qed.

Example ex_versions_compatible : compatible ex_old ex_new.
Proof.
  split; [reflexivity|]. intros c. by_version c; cbn; repeat (apply Forall_cons; [cbn|]); try apply Forall_nil; cbn; try discriminate.
  - split; [|discriminate]. apply wider_enum. cbn. intros n [<-|[<-|[]]]; cbn; auto.
  - split; [|discriminate]. apply (wider_int (TInt int32) int32 (TInt int64) int64); try reflexivity. unfold in_range. cbn. lia.
  - split; [|discriminate]. apply wider_to. now apply (wider_int_float _ int32 _ binary64).
  - split; [|discriminate]. apply wider_text. now left.
Qed.

Definition ex_old_value : val := VMap [("a", VObj [VInt 1; VInt 2; VSome (VStr "hi"); VInt 1; VBool true]); ("b", VObj [VInt 3; VInt 4; VNone; VInt 0; VBool false])].
Definition ex_new_value : val :=
  VMap [("a", VObj [VInt 8; VSome (VInt 2); VPtr (VFlt (Float.round binary64 (fl_of_Z 1))); VInt 5; VNone; VStr "hi"]);
        ("b", VObj [VInt 9; VSome (VInt 4); VPtr (VFlt (Float.round binary64 (fl_of_Z 3))); VInt 5; VNone; VStr "none"])].
Definition ex_old_document : json :=
  JObj [("a", JObj [("x", JInt 1); ("y", JInt 2); ("note", JStr "hi"); ("colour", JStr "green"); ("gone", JBool true)]);
        ("b", JObj [("x", JInt 3); ("y", JInt 4); ("colour", JStr "red"); ("gone", JBool false)])].

Example ex_old_holds : holds ex_old (TMap true (TClass 0)) ex_old_value.
Proof.
  assert (I : forall z, (-2147483648 <= z < 2147483648)%Z -> holds ex_old (TInt int32) (VInt z)) by (intros z R; apply holds_int; exact R).
  assert (C : forall z, (z = 0 \/ z = 1)%Z -> holds ex_old (TEnumStr ex_colours) (VInt z)).
  { intros z Z. apply holds_enum_str; cbn; [| |destruct Z as [->| ->]; auto]; repeat (constructor; [cbn; intuition discriminate|]); constructor. }
  apply holds_map; [|repeat constructor].
  repeat (apply Forall_cons; [split; [reflexivity|]; apply holds_class; cbn;
    apply Forall2_cons; [apply member_held; [discriminate|apply I; lia]|]; apply Forall2_cons; [apply member_held; [discriminate|apply I; lia]|];
    apply Forall2_cons; [|apply Forall2_cons; [apply member_held; [discriminate|apply C; auto]|]; apply Forall2_cons; [apply member_held; [discriminate|apply holds_bool]|];
    apply Forall2_nil]|]); [| |apply Forall_nil].
  - apply member_filled; [reflexivity|apply holds_string].
  - now apply member_empty.
Qed.

(** C71: another program, with other classes, reads from the document of a value what becomes
    of it, and nothing else. *)
Theorem C71_exactly : forall e e' t t' v, ordinary e -> ordinary e' -> named e -> iterates e -> plain t = true -> ordinary_type t' -> holds e t v ->
  exists j, serialize_to_document e t v = SOk [] j /\
    forall w, deserialize_throw e' t' j = Returned w <-> becomes e e' t v t' (dinit e' t') w.
Proof. exact evolves. Qed.
Print Assumptions C71_exactly.

(** After compatible changes, every value can still be read. *)
Theorem C71_compatible : forall e e' t t' v, ordinary e -> ordinary e' -> named e -> iterates e -> compatible e e' -> plain t = true -> ordinary_type t' ->
  wider t t' -> holds e t v ->
  exists j w, serialize_to_document e t v = SOk [] j /\ deserialize_throw e' t' j = Returned w.
Proof. exact compatible_reads. Qed.
Print Assumptions C71_compatible.

Example C71_example :
  serialize_to_document ex_old (TMap true (TClass 0)) ex_old_value = SOk [] ex_old_document /\
  deserialize_throw ex_new (TMap false (TClass 0)) ex_old_document = Returned ex_new_value /\
  becomes ex_old ex_new (TMap true (TClass 0)) ex_old_value (TMap false (TClass 0)) (dinit ex_new (TMap false (TClass 0))) ex_new_value /\
  wider (TMap true (TClass 0)) (TMap false (TClass 0)).
Proof.
  assert (A : serialize_to_document ex_old (TMap true (TClass 0)) ex_old_value = SOk [] ex_old_document) by (vm_compute; reflexivity).
  assert (B : deserialize_throw ex_new (TMap false (TClass 0)) ex_old_document = Returned ex_new_value) by (vm_compute; reflexivity).
  split; [exact A|]. split; [exact B|]. split; [|apply wider_map, wider_class].
  destruct (C71_exactly ex_old ex_new (TMap true (TClass 0)) (TMap false (TClass 0)) ex_old_value ex_old_ordinary ex_new_ordinary ex_old_named ex_old_iterates
    eq_refl (conj eq_refl eq_refl) ex_old_holds) as (j & S & X).
  rewrite A in S. injection S as <-. apply X. exact B.
Qed.

(** A value becomes at most one value. *)
Theorem C71_one : forall e e' t t' v w w', ordinary e -> ordinary e' -> named e -> iterates e -> plain t = true -> ordinary_type t' -> holds e t v ->
  becomes e e' t v t' (dinit e' t') w -> becomes e e' t v t' (dinit e' t') w' -> w = w'.
Proof.
  intros e e' t t' v w w' O O' N I P T H B B'. destruct (evolves e e' t t' v O O' N I P T H) as (j & _ & X). apply X in B, B'. congruence.
Qed.
Print Assumptions C71_one.

(** A class with a required member that the class of the value has not, or has as an optional
    member without a value, cannot be read. *)
Theorem C71_required : forall e e' c c' vs m, ordinary e -> ordinary e' -> named e -> iterates e -> holds e (TClass c) (VObj vs) ->
  In m (c_members (class_of e' c')) -> m_kind m = MRequired ->
  (forall i m', nth_error (c_members (class_of e c)) i = Some m' -> m_name m' = m_name m -> nth_error vs i = Some VNone) ->
  exists j, serialize_to_document e (TClass c) (VObj vs) = SOk [] j /\ forall w, deserialize_throw e' (TClass c') j <> Returned w.
Proof.
  intros e e' c c' vs m O O' N I H Im K A.
  destruct (evolves e e' (TClass c) (TClass c') (VObj vs) O O' N I eq_refl (conj eq_refl eq_refl) H) as (j & S & X). exists j. split; [exact S|].
  intros w R. apply X in R. revert R. eapply required_missing; [reflexivity|constructor|exact Im|exact K|].
  inversion H as [| | | | | | | | | | | | | | | | |c0 l F| | |]; subst. clear - F A.
  induction F as [|m0 v ms vs M F IH]; [reflexivity|]. cbn [member_fields].
  assert (Y : field_of (member_fields ms vs) (m_name m) = None) by (apply IH; intros i m' E; exact (A (Datatypes.S i) m' E)).
  assert (Z : m_name m0 = m_name m -> v = VNone) by (intros E; specialize (A O m0 eq_refl E); cbn in A; congruence).
  destruct (String.eqb_spec (m_name m0) (m_name m)) as [E|E].
  - specialize (Z E). subst v. inversion M as [v0 K Hv|K|x K Hx]; subst; [inversion Hv|]. now rewrite K.
  - apply String.eqb_neq in E. destruct (m_kind m0); cbn [field_of]; rewrite ?E; auto. destruct v; cbn [field_of]; rewrite ?E; auto.
Qed.
Print Assumptions C71_required.

(** The new version of the example cannot be read by the old one. *)
Example C71_required_example : exists j,
  serialize_to_document ex_new (TClass 0) (VObj [VInt 8; VNone; VPtr (VFlt (Float.round binary64 (fl_of_Z 1))); VInt 5; VNone; VStr "hi"]) = SOk [] j /\
  deserialize_throw ex_old (TClass 0) j <> Returned VNull /\ forall w, deserialize_throw ex_old (TClass 0) j <> Returned w.
Proof.
  destruct (C71_required ex_new ex_old 0 0 [VInt 8; VNone; VPtr (VFlt (Float.round binary64 (fl_of_Z 1))); VInt 5; VNone; VStr "hi"]
    {| m_name := "gone"; m_kind := MRequired; m_ty := TBool |}) as (j & S & X); auto using ex_old_ordinary, ex_new_ordinary, ex_new_named, ex_new_iterates.
  - apply holds_class. cbn. repeat apply Forall2_cons; try apply Forall2_nil; try (now apply member_empty); try (apply member_held; [discriminate|]).
    + apply holds_enum_str; cbn; [| |auto]; repeat (constructor; [cbn; intuition discriminate|]); constructor.
    + apply holds_unique. apply holds_double; vm_compute; reflexivity.
    + apply holds_int. unfold in_range. cbn. lia.
    + apply holds_string.
  - cbn. auto 10.
  - cbn. intros [|[|[|[|[|[|i]]]]]] m' E; cbn in E; try (injection E as <-); try discriminate. destruct i; discriminate.
  - eauto.
Qed.

(** A number that does not fit is not read. *)
Theorem C71_narrow : forall e e' k k' z, ordinary e -> ordinary e' -> named e -> iterates e -> ordinary_type (TInt k') -> in_range k z ->
  exists j, serialize_to_document e (TInt k) (VInt z) = SOk [] j /\ forall w, deserialize_throw e' (TInt k') j = Returned w <-> w = VInt z /\ in_range k' z.
Proof.
  intros e e' k k' z O O' N I T R. destruct (evolves e e' (TInt k) (TInt k') (VInt z) O O' N I eq_refl T (holds_int e k z R)) as (j & S & X).
  exists j. split; [exact S|]. intros w. rewrite X. split.
  - intros B. inversion B; subst; try (cbn in *; congruence); [cbn in *; split; congruence|]. match goal with D : doc _ _ _ _ |- _ => inversion D end.
  - intros [-> R']. now apply (becomes_int e e' (TInt k) k (TInt k') k').
Qed.
Print Assumptions C71_narrow.

Example C71_narrow_example : exists j, serialize_to_document ex_old (TInt int32) (VInt 300) = SOk [] j /\
  deserialize_throw ex_new (TInt {| width := 8; is_signed := false |}) j <> Returned (VInt 300) /\ deserialize_throw ex_new (TInt int64) j = Returned (VInt 300).
Proof. exists (JInt 300). split; [reflexivity|]. split; [vm_compute; discriminate|vm_compute; reflexivity]. Qed.

(** The parser of texts reads the same, if the document has no members that are unknown to the
    other program and its numbers are exact for it; what it reads is what becomes of the value,
    if the required members are there. *)
Theorem C71_parser : forall e e' fuel t t' v, ordinary e -> named e -> iterates e -> legible e -> plain t = true -> holds e t v -> depth v <= 84 ->
  supported e' fuel -> fresh_classes e' -> parser_classes e' -> ordinary_type t' -> parser_type t' = true ->
  exists j, serialize_to_document e t v = SOk [] j /\ forall w,
    (known e' t' j -> exact e' t' j -> becomes e e' t v t' (dinit e' t') w -> parse e' fuel real_capacity t' j = PReturned w) /\
    (complete e' t' j -> parse e' fuel real_capacity t' j = PReturned w -> becomes e e' t v t' (dinit e' t') w).
Proof. exact evolves_parser. Qed.
Print Assumptions C71_parser.

(** A class that got a member later. *)
Definition ex_older : env := ex_version {|
  c_members := [{| m_name := "s"; m_kind := MOptional; m_ty := TString |}; {| m_name := "n"; m_kind := MRequired; m_ty := TInt int32 |}];
  c_root := 2; c_default := [VNone; VIndet]; c_value := [VNone; VInt 0] |}.

Example C71_parser_example : exists j, serialize_to_document ex_older (TClass 0) (VObj [VSome (VStr "x"); VInt 4]) = SOk [] j /\
  parse ex_round ex_fuel real_capacity (TClass 0) j = PReturned (VObj [VInt 4; VBool true; VSome (VStr "x")]) /\
  becomes ex_older ex_round (TClass 0) (VObj [VSome (VStr "x"); VInt 4]) (TClass 0) (dinit ex_round (TClass 0)) (VObj [VInt 4; VBool true; VSome (VStr "x")]).
Proof.
  exists (JObj [("s", JStr "x"); ("n", JInt 4)]). split; [vm_compute; reflexivity|]. split; [vm_compute; reflexivity|].
  apply (becomes_class ex_older ex_round (TClass 0) _ _ 0 _ _ (fields_class ex_older 0 _)). cbn.
  apply ms_cons; [eapply mb_plain; [discriminate|reflexivity|]|apply ms_cons; [now apply mb_default|apply ms_cons; [|apply ms_nil]]].
  - apply (becomes_int _ _ (TInt int32) int32 (TInt int32) int32); try reflexivity. unfold in_range. cbn. lia.
  - eapply mb_some; [reflexivity|reflexivity|]. eapply becomes_text; [reflexivity|reflexivity|apply doc_string|apply denotes_string].
Qed.

(** The parser does not read the documents of all compatible programs: a member that was
    removed is an error. *)
Theorem C71_parser_compatible_refuted : exists e e' fuel t v j, ordinary e /\ named e /\ iterates e /\ compatible e e' /\ holds e t v /\
  supported e' fuel /\ fresh_classes e' /\ parser_classes e' /\ ordinary_type t /\ parser_type t = true /\
  serialize_to_document e t v = SOk [] j /\ (exists w, deserialize_throw e' t j = Returned w) /\ parse e' fuel real_capacity t j = PError.
Proof.
  exists {| classes := [{| c_members := c_members ex_point ++ [{| m_name := "gone"; m_kind := MRequired; m_ty := TBool |}]; c_root := 4;
                           c_default := [VIndet; VBool true; VNone; VIndet]; c_value := [VInt 0; VBool true; VNone; VBool false] |}; ex_nested; ex_derived; ex_sky];
            tick := 1000000000; endian := Base64Model.little; after := fun _ => []; less := less ex_round; iteration := iteration ex_round |},
    ex_round, ex_fuel, (TClass 0), (VObj [VInt 1; VBool false; VNone; VBool true]),
    (JObj [("n", JInt 1); ("b", JBool false); ("gone", JBool true)]).
  split; [split; [|split; [|reflexivity]]; intros c; by_class' c; reflexivity|].
  split; [intros c; by_class' c; cbn; repeat (constructor; [cbn; intuition discriminate|]); constructor|].
  split; [exact ex_round_iterates|].
  assert (I : wider (TInt int32) (TInt int32)) by now apply (wider_int (TInt int32) int32 (TInt int32) int32).
  split.
  { split; [reflexivity|]. intros c. by_class' c; cbn; repeat (apply Forall_cons; [cbn; split; [|discriminate]|]); try apply Forall_nil;
      repeat first [exact I | apply wider_bool | apply wider_class | apply wider_map | apply wider_from, wider_to | (apply wider_text; cbn; tauto)
        | (eapply wider_vector; [now left|]) | (eapply wider_set; [right; now left|])]. }
  split.
  { apply holds_class. cbn. repeat apply Forall2_cons; try apply Forall2_nil; try (now apply member_empty); (apply member_held; [discriminate|]); try apply holds_bool.
    apply holds_int. unfold in_range. cbn. lia. }
  split; [exact ex_round_supported|]. split; [exact ex_round_fresh|]. split; [exact ex_round_parser|]. split; [now split|]. split; [reflexivity|].
  split; [vm_compute; reflexivity|]. split; [eexists; vm_compute; reflexivity|vm_compute; reflexivity].
Qed.
Print Assumptions C71_parser_compatible_refuted.
