(** Whatever is read, accepted or not, the object keeps a content of its type. *)
From Coq Require Import List Arith ZArith NArith Ascii String Bool Lia Sorted.
From Verif Require Import Base Float NumericModel NumericSpec EnumModel Json Types SerializeModel DeserializeModel Events ParseModel TextModel TextSpec TextProof RewriteSpec DeserializeProps RewriteProps ValidSpec ValidProof ValidParse ValidText.
Import ListNotations.
Local Open Scope string_scope.
Local Open Scope list_scope.

(** C79: an object that is read into has a content of its type afterwards, whether the document
    was accepted or not. *)
Theorem C79_object : forall e t j obj ok st v, valid_classes e -> doubles j -> valid e t obj -> deserialize e t j obj = DRet ok st v -> valid e t v.
Proof.
  intros e t j obj ok st v P D V R. refine (proj2 (all_valid e j P j D t false obj [] [] start ok st v R _ V)). constructor.
Qed.
Print Assumptions C79_object.

(** C79: so has an object that is returned. *)
Theorem C79_returned : forall e t j v, valid_classes e -> doubles j -> deserialize_throw e t j = Returned v -> valid e t v.
Proof.
  intros e t j v P D R. unfold deserialize_throw in R. destruct (deser e j j true t (dinit e t) [] [] start) as [ok st x| | |] eqn:E; try discriminate. injection R as <-.
  refine (proj2 (all_valid e j P j D t true _ [] [] start ok st x E _ (dinit_valid e P t))). constructor.
Qed.
Print Assumptions C79_returned.

(** C79: texts. [nearest] says which doubles numbers are read as. *)
Theorem C79_text : forall (nearest : list ascii -> option fl), (forall s f, nearest s = Some f -> in_format binary64 f = true) ->
  forall e t str, valid_classes e ->
  (forall v, deserialize_string_throw nearest e t str = Document (Returned v) -> valid e t v) /\
  (forall obj ok st v, valid e t obj -> deserialize_string nearest e t str obj = DRet ok st v -> valid e t v).
Proof.
  intros nearest N e t str P. unfold deserialize_string_throw, deserialize_string, string_to_document.
  destruct (read_text nearest str) as [j r| |] eqn:E; [|split; [discriminate|]; intros obj ok st v V R; inversion R; subst; exact V|split; [discriminate|]; intros obj ok st v V R; inversion R; subst; exact V].
  apply read_exactly in E as [_ E]. apply (proj1 (proj2 (text_doubles nearest N))) in E. split.
  - intros v R. injection R as R. exact (C79_returned e t j v P E R).
  - intros obj ok st v V R. exact (C79_object e t j obj ok st v P E V R).
Qed.
Print Assumptions C79_text.

(** C79: the same with parse, for every capacity of the stack of handlers, *)
Theorem C79_parse : forall e fuel fits t j, valid_classes e -> doubles j ->
  (forall obj ok v, valid e t obj -> parse_into e fuel fits t j obj = Parsed ok v -> valid e t v) /\
  (forall v, parse e fuel fits t j = PReturned v -> valid e t v).
Proof.
  intros e fuel fits t j P D.
  assert (A : forall obj ok v, valid e t obj -> parse_into e fuel fits t j obj = Parsed ok v -> valid e t v).
  { intros obj ok v V R. unfold parse_into in R. pose proof (events_good e fuel fits P t obj (events j) (double_events j D) V) as G.
    destruct (parse_events e fuel fits t obj (events j)); inversion R; subst; exact G. }
  split; [exact A|]. intros v R. unfold parse in R. destruct (parse_into e fuel fits t j (dinit e t)) as [[] x| | |] eqn:E; try discriminate. injection R as <-.
  exact (A _ _ _ (dinit_valid e P t) E).
Qed.
Print Assumptions C79_parse.

(** and for texts, also if what comes later in the text is not JSON. *)
Theorem C79_parse_text : forall (nearest : list ascii -> option fl), (forall s f, nearest s = Some f -> in_format binary64 f = true) ->
  forall e fuel fits t str, valid_classes e ->
  (forall obj ok v, valid e t obj -> parse_string_into nearest e fuel fits t str obj = Parsed ok v -> valid e t v) /\
  (forall v, parse_string nearest e fuel fits t str = PReturned v -> valid e t v).
Proof.
  intros nearest N e fuel fits t str P.
  assert (A : forall obj ok v, valid e t obj -> parse_string_into nearest e fuel fits t str obj = Parsed ok v -> valid e t v).
  { intros obj ok v V R. unfold parse_string_into, parse_into in R. pose proof (text_sends nearest N str) as S. destruct (read_text nearest str) as [j r|evs|]; cbn in S; [| |discriminate].
    - pose proof (events_good e fuel fits P t obj _ S V) as G. destruct (parse_events e fuel fits t obj (events j)); inversion R; subst; exact G.
    - pose proof (events_good e fuel fits P t obj _ S V) as G. destruct (parse_events e fuel fits t obj evs); inversion R; subst; exact G. }
  split; [exact A|]. intros v R. unfold parse_string in R. destruct (parse_string_into nearest e fuel fits t str (dinit e t)) as [[] x| | |] eqn:E; try discriminate. injection R as <-.
  exact (A _ _ _ (dinit_valid e P t) E).
Qed.
Print Assumptions C79_parse_text.

Definition ex_colors : ty := TEnumStr [(1%Z, "red"); (2%Z, "green")].

Definition byte_type : ity := {| width := 8; is_signed := true |}.

Definition ex_valid : env := {|
  classes := [{|
    c_members := [{| m_name := "a"; m_kind := MRequired; m_ty := TInt byte_type |}; {| m_name := "b"; m_kind := MOptional; m_ty := TSet (TInt int32) |};
                  {| m_name := "p"; m_kind := MDefault; m_ty := TShared ex_colors |}];
    c_root := 3; c_default := [VIndet; VNone; VPtrNull]; c_value := [VInt 0; VNone; VPtrNull] |}];
  tick := 1000000000; endian := Base64Model.little; after := fun _ => [];
  less := fun _ x y => match x, y with VInt a, VInt b => Z.ltb a b | _, _ => false end; iteration := fun keys => seq 0 (List.length keys) |}.

Example ex_valid_classes : valid_classes ex_valid.
Proof.
  intros [|c].
  - split; apply valid_class; (apply Forall2_cons; [split; [intros _|discriminate]|apply Forall2_cons; [split; [intros K; now destruct K|now left]|apply Forall2_cons; [split; [intros _; apply valid_shared_null|discriminate]|apply Forall2_nil]]]).
    + now apply valid_unset.
    + apply valid_int. intros _. now split.
  - assert (E : class_of ex_valid (S c) = no_class) by (destruct c; reflexivity). rewrite E. split; apply valid_class; rewrite E; constructor.
Qed.

Definition ex_partly : json := JObj [("a", JInt 300); ("b", JArr [JInt 7; JInt 5; JStr "x"]); ("p", JStr "blue")].

(** What was read before the mistakes is kept: the elements of the set are in order, and the
    first number was out of range and is not stored. *)
Example C79_example : valid_classes ex_valid /\ doubles ex_partly /\ valid ex_valid (TClass 0) (VObj [VInt 9; VNone; VPtrNull]) /\
  deserialize ex_valid (TClass 0) ex_partly (VObj [VInt 9; VNone; VPtrNull]) =
    DRet false {| next_address := 1; objects := [] |} (VObj [VInt 9; VSome (VList [VInt 5; VInt 7]); VShared 0 (VInt 0)]) /\
  valid ex_valid (TClass 0) (VObj [VInt 9; VSome (VList [VInt 5; VInt 7]); VShared 0 (VInt 0)]) /\
  ~ valid ex_valid (TClass 0) (VObj [VInt 300; VSome (VList [VInt 5; VInt 7]); VShared 0 (VInt 0)]).
Proof.
  assert (A : valid ex_valid (TClass 0) (VObj [VInt 9; VNone; VPtrNull])).
  { apply valid_class. apply Forall2_cons; [split; [intros _; apply valid_int; intros _; now split|discriminate]|].
    apply Forall2_cons; [split; [intros K; now destruct K|now left]|]. apply Forall2_cons; [split; [intros _; apply valid_shared_null|discriminate]|apply Forall2_nil]. }
  assert (D : doubles ex_partly) by now apply whole_doubles.
  assert (R : deserialize ex_valid (TClass 0) ex_partly (VObj [VInt 9; VNone; VPtrNull]) =
    DRet false {| next_address := 1; objects := [] |} (VObj [VInt 9; VSome (VList [VInt 5; VInt 7]); VShared 0 (VInt 0)])) by (vm_compute; reflexivity).
  split; [exact ex_valid_classes|]. split; [exact D|]. split; [exact A|]. split; [exact R|]. split; [exact (C79_object _ _ _ _ _ _ _ ex_valid_classes D A R)|].
  intros V. inversion V as [| | | | | | | | | | | | | | | | | | | |? ? F| | | | | |]; subst. inversion F as [|? ? ? ? [H _] _]; subst. specialize (H ltac:(discriminate)).
  inversion H as [| | |? ? G| | | | | | | | | | | | | | | | | | | | | | |]; subst. destruct (G ltac:(now cbn)) as [_ L]. revert L. now vm_compute.
Qed.

(** C79: but an enumeration with names may be left with a value that has no name, behind a
    pointer that was empty before. *)
Theorem C79_nameless_refuted : exists e names j st z, valid_classes e /\ doubles j /\ valid e (TShared (TEnumStr names)) VPtrNull /\
  deserialize e (TShared (TEnumStr names)) j VPtrNull = DRet false st (VShared 0 (VInt z)) /\ ~ In z (map fst names).
Proof.
  exists ex_valid, [(1%Z, "red"); (2%Z, "green")], (JStr "blue"), {| next_address := 1; objects := [] |}, 0%Z.
  split; [exact ex_valid_classes|]. split; [now apply whole_doubles|]. split; [apply valid_shared_null|]. split; [vm_compute; reflexivity|]. intros [E|[E|[]]]; discriminate.
Qed.
Print Assumptions C79_nameless_refuted.

(** parse stops at the first mistake. *)
Example C79_parse_example :
  parse_into ex_valid 1000 real_capacity (TClass 0) (JObj [("a", JInt 100); ("b", JArr [JInt 7; JInt 5; JStr "x"]); ("p", JStr "red")]) (VObj [VInt 9; VNone; VPtrNull]) =
    Parsed false (VObj [VInt 100; VSome (VList [VInt 5; VInt 7]); VPtrNull]) /\
  parse_into ex_valid 1000 real_capacity (TClass 0) (JObj [("p", JStr "blue"); ("a", JInt 100)]) (VObj [VInt 9; VNone; VPtrNull]) =
    Parsed false (VObj [VInt 9; VNone; VShared 0 (VInt 0)]).
Proof. vm_compute. split; reflexivity. Qed.
