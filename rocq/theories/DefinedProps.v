(** Objects of their types can be written unless they have bad parts. *)
From Coq Require Import List Arith ZArith NArith Ascii String Bool Lia Sorted Permutation.
From Verif Require Import Base Float NumericModel NumericSpec EnumModel Base64Model Base64Spec Base64Decode DatetimeModel Json Types SerializeModel DeserializeModel Events ParseModel TextModel WriteModel WriteSpec DerivedProof
  RewriteSpec ValidSpec ValidProof ValidProps DefinedSpec DefinedProof.
Import ListNotations.
Local Open Scope string_scope.
Local Open Scope list_scope.

(** C80: if to write an object of its type is undefined, there is a part without a value, a null
    pointer, a byte string with too little memory behind it or a date beyond the clock. *)
Theorem C80_undefined : forall e t v, (1000 <= tick e)%Z -> fair e -> valid e t v -> serialize_to_document e t v = SUndef ->
  exists u x, part e t v u x /\ bad e u x.
Proof. intros e t v T F V U. exact (proj1 (all_blamed e T F v) t [] [] V U). Qed.
Print Assumptions C80_undefined.

(** C80: the same if the text is written without a document. *)
Theorem C80_write : forall render e t v str, (1000 <= tick e)%Z -> fair e -> no_bases e -> valid e t v -> write_to_string render e t v str = None ->
  exists u x, part e t v u x /\ bad e u x.
Proof. intros render e t v str T F N V E. apply (C80_undefined e t v T F V). exact (undefined_alike render e t v str N E). Qed.
Print Assumptions C80_write.

(** C80: so without such parts it is written, or failure is reported. *)
Theorem C80_defined : forall e t v, (1000 <= tick e)%Z -> fair e -> valid e t v -> (forall u x, part e t v u x -> ~ bad e u x) ->
  serialize_to_document e t v <> SUndef.
Proof. intros e t v T F V C U. destruct (C80_undefined e t v T F V U) as (u & x & P & B). exact (C u x P B). Qed.
Print Assumptions C80_defined.

(** C80: so what an object has after reading, accepted or not, can be written unless such a part is left, *)
Theorem C80_after_reading : forall e t j obj ok st v, (1000 <= tick e)%Z -> fair e -> valid_classes e -> doubles j -> valid e t obj ->
  deserialize e t j obj = DRet ok st v -> serialize_to_document e t v = SUndef -> exists u x, part e t v u x /\ bad e u x.
Proof. intros e t j obj ok st v T F P D V R. apply C80_undefined; auto. exact (C79_object e t j obj ok st v P D V R). Qed.
Print Assumptions C80_after_reading.

(** and so can what is returned for a text. *)
Theorem C80_after_text : forall (nearest : list ascii -> option fl), (forall s f, nearest s = Some f -> in_format binary64 f = true) ->
  forall e t str v, (1000 <= tick e)%Z -> fair e -> valid_classes e ->
  deserialize_string_throw nearest e t str = Document (Returned v) -> serialize_to_document e t v = SUndef -> exists u x, part e t v u x /\ bad e u x.
Proof. intros nearest N e t str v T F P R. apply C80_undefined; auto. exact (proj1 (C79_text nearest N e t str P) v R). Qed.
Print Assumptions C80_after_text.

(** The same for what parse leaves, also if the text turns out not to be JSON. *)
Theorem C80_after_parse : forall (nearest : list ascii -> option fl), (forall s f, nearest s = Some f -> in_format binary64 f = true) ->
  forall e fuel fits t str obj ok v, (1000 <= tick e)%Z -> fair e -> valid_classes e -> valid e t obj ->
  parse_string_into nearest e fuel fits t str obj = Parsed ok v -> serialize_to_document e t v = SUndef -> exists u x, part e t v u x /\ bad e u x.
Proof.
  intros nearest N e fuel fits t str obj ok v T F P V R. apply C80_undefined; auto. exact (proj1 (C79_parse_text nearest N e fuel fits t str P) obj ok v V R).
Qed.
Print Assumptions C80_after_parse.

(** C80: none of the conditions can be left out: writing such a value itself is undefined. *)
Theorem C80_bad : forall e t v, bad e t v -> serialize_to_document e t v = SUndef.
Proof.
  intros e t v B. unfold serialize_to_document. destruct B as [t|t|b L|d D].
  - destruct t; reflexivity.
  - destruct t; reflexivity.
  - cbn [ser ser_scalar]. apply (reads_past_end (endian e)) in L. rewrite L. reflexivity.
  - cbn [ser ser_scalar]. unfold day_ticks, in_int64. destruct (_ && _)%bool eqn:E; [|reflexivity]. exfalso. apply D. apply andb_true_iff in E as [E1 E2]. apply Z.leb_le in E1. apply Z.ltb_lt in E2. now split.
Qed.
Print Assumptions C80_bad.

Lemma ex_valid_fair : fair ex_valid.
Proof. intros keys. apply Permutation_refl. Qed.

(** After the document of C79_example is refused, the first member still has no value: to write
    the object is undefined. The rest of it can be written. *)
Example C80_example :
  part ex_valid (TClass 0) (VObj [VIndet; VNone; VPtrNull]) (TInt byte_type) VIndet /\
  serialize_to_document ex_valid (TClass 0) (VObj [VIndet; VNone; VPtrNull]) = SUndef /\
  serialize_to_document ex_valid (TClass 0) (VObj [VInt 5; VNone; VPtrNull]) = SUndef /\
  valid ex_valid (TClass 0) (VObj [VInt 5; VNone; VShared 3 (VInt 2)]) /\
  (forall u x, part ex_valid (TClass 0) (VObj [VInt 5; VNone; VShared 3 (VInt 2)]) u x -> ~ bad ex_valid u x) /\
  serialize_to_document ex_valid (TClass 0) (VObj [VInt 5; VNone; VShared 3 (VInt 2)]) <> SUndef.
Proof.
  assert (V : valid ex_valid (TClass 0) (VObj [VInt 5; VNone; VShared 3 (VInt 2)])).
  { apply valid_class. apply Forall2_cons; [|apply Forall2_cons; [|apply Forall2_cons; [|apply Forall2_nil]]].
    - split; [intros _|discriminate]. apply valid_int. intros _. now split.
    - split; [intros K; now destruct K|now left].
    - split; [intros _|discriminate]. apply valid_shared, valid_name. right. now right; left. }
  assert (C : forall u x, part ex_valid (TClass 0) (VObj [VInt 5; VNone; VShared 3 (VInt 2)]) u x -> ~ bad ex_valid u x).
  { intros u x Q B. inversion Q as [|? ? ? ? ? ? H Q1]; subst; [inversion B|]. inversion H as [| | | | | | | |? ? i m ? E1 E2 K|? ? i m ? E1 E2 K| | |]; subst.
    - destruct i as [|[|[|i]]]; cbn in E1, E2; try (destruct i; discriminate); injection E1 as <-; injection E2 as <-; cbn in *.
      + inversion Q1 as [|? ? ? ? ? ? H1]; subst; [inversion B|inversion H1].
      + now apply K.
      + inversion Q1 as [|? ? ? ? ? ? H1 Q2]; subst; [inversion B|]. inversion H1; subst. inversion Q2 as [|? ? ? ? ? ? H2]; subst; [inversion B|inversion H2].
    - destruct i as [|[|[|i]]]; cbn in E1, E2; try (destruct i; discriminate); discriminate. }
  split; [|split; [reflexivity|split; [reflexivity|split; [exact V|split; [exact C|]]]]].
  - apply (part_child _ _ _ (TInt byte_type) VIndet); [|constructor]. exact (child_member ex_valid 0 [VIndet; VNone; VPtrNull] 0 {| m_name := "a"; m_kind := MRequired; m_ty := TInt byte_type |} _ eq_refl eq_refl ltac:(discriminate)).
  - apply C80_defined; [discriminate|exact ex_valid_fair|exact V|exact C].
Qed.

(** A date two million years ago is further away than a clock with nanoseconds can count. *)
Example C80_date_example :
  bad ex_valid TDate (VDate (- 719468000)) /\ serialize_to_document ex_valid TDate (VDate (- 719468000)) = SUndef /\
  serialize_to_document ex_valid TDate (VDate 20000) <> SUndef.
Proof.
  split; [|split; [reflexivity|vm_compute; discriminate]]. apply bad_date. intros [H _]. vm_compute in H. now apply H.
Qed.
