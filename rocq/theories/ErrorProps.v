(** Property C62: the texts of deserialization errors. *)
From Coq Require Import List Arith ZArith NArith Ascii String Bool Lia.
From Verif Require Import Base NumericModel NumericSpec Base64Model Json PathModel PathSpec Types SerializeModel DeserializeModel DenoteSpec SameSpec TextSpec
  CulpritSpec CulpritProof ErrorModel ErrorSpec ErrorProof MessageSpec MessageRead CulpritProps.
Import ListNotations.
Local Open Scope string_scope.

(** C62: what() of the exception says what is wrong with the first defect of the document, and
    then the path, which is also a member of the exception: that of the defect (C23). *)
Theorem C62_thrown : forall e t j err, real_classes e -> (0 < tick e)%Z -> simple_variant_classes e -> simple_variants t = true -> real_ints t = true ->
  unreferring e t j -> deserialize_error e t j = Some err ->
  exists ss u r why m, culprit e t j ss u r why /\ path err = string_of_list_ascii (path_str (rev (map segment_of ss))) /\
    says e u r m /\ upto_nul (m ++ " at " ++ path err) (what err).
Proof.
  intros e t j err Rc Tk Vc Vt W U H. unfold deserialize_error in H. destruct (deserialize_throw e t j) as [|why p| |] eqn:D; try discriminate. injection H as <-.
  destruct (C23_first_defect e t j why p Rc Tk Vc Vt W U D) as (ss & u & r & C & -> & _). exists ss, u, r, why, (reason why).
  split; [exact C|]. split; [reflexivity|]. split; [exact (culprit_says _ _ _ _ _ _ _ C)|]. apply c_string_upto.
Qed.
Print Assumptions C62_thrown.

(** C62: nothing else can be said about the value, and what is said keeps it from being one of
    the type. *)
Theorem C62_one : forall e t j m m', says e t j m -> says e t j m' -> m = m'.
Proof. exact says_one. Qed.
Print Assumptions C62_one.

Theorem C62_true : forall e t j m, real_ints t = true -> says e t j m -> forall old v, ~ denotes e t old j v.
Proof. exact says_denies. Qed.
Print Assumptions C62_true.

(** C62: conversely, without byte strings, times and dates, a document with a defect is
    rejected with these words for the first. *)
Theorem C62_exactly : forall e t j ss u r why m, real_classes e -> (0 < tick e)%Z -> simple_variant_classes e -> codec_free_classes e -> unshared_classes e ->
  simple_variants t = true -> real_ints t = true -> codec_free t = true -> unshared t = true ->
  culprit e t j ss u r why -> says e u r m ->
  exists err, deserialize_error e t j = Some err /\ path err = string_of_list_ascii (path_str (rev (map segment_of ss))) /\ upto_nul (m ++ " at " ++ path err) (what err).
Proof.
  intros e t j ss u r why m Rc Tk Vc Cc Uc Vt W Ct Ut C M.
  assert (D : deserialize_throw e t j = Threw why (path_str (rev (map segment_of ss)))) by (apply C23_exactly; eauto 6).
  unfold deserialize_error. rewrite D. eexists. split; [reflexivity|]. split; [reflexivity|].
  rewrite (says_one _ _ _ _ _ M (culprit_says _ _ _ _ _ _ _ C)). apply c_string_upto.
Qed.
Print Assumptions C62_exactly.

(** C62: the first words tell what was expected and what was found. *)
Theorem C62_words : forall e t j m, says e t j m ->
  (prefix "wrong JSON data type" m = true -> ~ right_kind t j) /\
  (prefix "signed integer out of range" m = true -> exists k z, (t = TInt k \/ t = TEnumInt k) /\ j = JInt z /\ is_signed k = true /\ ~ in_range k z) /\
  (prefix "unsigned integer out of range" m = true -> exists k z, (t = TInt k \/ t = TEnumInt k) /\ j = JInt z /\ is_signed k = false /\ ~ in_range k z) /\
  (prefix "invalid Base64-encoding" m = true -> exists s, t = TBytes /\ j = JStr s) /\
  (prefix "invalid ISO-8601 date-time" m = true -> exists s, t = TTime /\ j = JStr s) /\
  (prefix "invalid ISO-8601 date;" m = true -> exists s, t = TDate /\ j = JStr s) /\
  (prefix "unrecognized enumeration" m = true -> exists names s, t = TEnumStr names /\ j = JStr s) /\
  (prefix "mismatch in number" m = true -> exists js, j = JArr js /\ right_kind t j) /\
  (forall n, m = "missing required property: " ++ n -> exists c l, t = TClass c /\ j = JObj l /\ find_member l n = None) /\
  (prefix "unable to match" m = true -> exists ts, t = TVariant ts).
Proof.
  intros e t j m A. destruct A as [t j N|t k z T S R N|t k z T S R N|s X|s X|s X|names s X|t n js dn dl T L Nn Nl|c l b x a E K F B|ts j X];
    repeat split; try discriminate; eauto; intros.
  - now exists k, z.
  - now exists k, z.
  - exists js. split; [reflexivity|]. destruct t; try contradiction; exact I.
  - injection H as <-. eauto.
Qed.
Print Assumptions C62_words.

(** Errors of each kind. *)
Definition ex_error (t : ty) (j : json) : option (string * string) :=
  match deserialize_error ex_boxes t j with Some err => Some (what err, path err) | None => None end.

Example C62_example :
  ex_error (TClass 1) (ex_bad (JObj [("y", JInt 1); ("x", JInt 300)])) = Some ("signed integer out of range at /items/1/x", "/items/1/x") /\
  ex_error (TClass 1) (ex_bad (JObj [("y", JInt 1); ("x", JInt 100)])) = Some ("unable to match either of the variant types at /items/1/y", "/items/1/y") /\
  ex_error (TClass 1) (ex_bad (JObj [("y", JBool true)])) = Some ("missing required property: x at /items/1", "/items/1") /\
  ex_error (TClass 1) (ex_bad (JInt 1)) = Some ("wrong JSON data type; expected: object at /items/1", "/items/1") /\
  ex_error (TMap true (TArray 2 TBool)) (JObj [("a", JArr [JNull])]) = Some ("mismatch in number of array elements; expected: 2, got: 1 at /a", "/a") /\
  ex_error (TInt uint64) (JInt (-1)) = Some ("wrong JSON data type; expected: unsigned 64-bit integer at /", "/") /\
  ex_error (TInt {| width := 8; is_signed := false |}) (JInt 256) = Some ("unsigned integer out of range at /", "/") /\
  ex_error (TPair TBytes TDate) (JArr [JStr "QQ=="; JStr "1984-02-30"]) = Some ("invalid ISO-8601 date; expected: YYYY-MM-DD, got: 1984-02-30 at /1", "/1") /\
  ex_error TTime (JStr "today") = Some ("invalid ISO-8601 date-time; expected: YYYY-MM-DDTHH:MM:SSZ, got: today at /", "/") /\
  ex_error TBytes (JStr "QQ=") = Some ("invalid Base64-encoding for sequence of bytes at /", "/") /\
  ex_error (TEnumStr [(1%Z, "red")]) (JStr "green") = Some ("unrecognized enumeration string value; got: green at /", "/").
Proof. repeat (split; [vm_compute; reflexivity|]). vm_compute. reflexivity. Qed.

(** C62: the path cannot always be read from what(): a string that is quoted may hide it with a
    NUL, or look like the end of the text. *)
Theorem C62_readable_refuted : exists t j1 j2 j3 err1 err2 err3,
  deserialize_error ex_boxes t j1 = Some err1 /\ deserialize_error ex_boxes t j2 = Some err2 /\ deserialize_error ex_boxes t j3 = Some err3 /\
  what err1 = what err2 /\ path err1 = "/a" /\ path err2 = "/b at /a" /\ what err3 = "unrecognized enumeration string value; got: x" /\ path err3 = "/a".
Proof.
  exists (TMap true (TEnumStr [(1%Z, "red")])), (JObj [("a", JStr "x at /b")]), (JObj [("b at /a", JStr "x")]), (JObj [("a", JStr ("x" ++ String Ascii.zero ""))]).
  do 3 eexists. repeat (split; [vm_compute; reflexivity|]). vm_compute. reflexivity.
Qed.
Print Assumptions C62_readable_refuted.

(** C62: the kind that is expected may be the one found: an integer, where an integer of 32 bits
    is expected and this one has more. *)
Theorem C62_sensible_refuted : exists err, deserialize_error ex_boxes (TInt int32) (JInt 3000000000) = Some err /\ what err = "wrong JSON data type; expected: integer at /".
Proof. eexists. split; vm_compute; reflexivity. Qed.
Print Assumptions C62_sensible_refuted.
