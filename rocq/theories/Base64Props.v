(** Properties C01 to C05: Base64. *)
From Coq Require Import List Arith NArith Ascii String Bool.
From Verif Require Import Base Base64Model Base64Spec Base64Proof Base64Decode.
Import ListNotations.

Definition txt := list_ascii_of_string.

(** C01. [tail] is any readable memory after the input. *)
Theorem C01_encode_is_rfc4648 : forall e input tail,
  over_read (List.length input) <= List.length tail ->
  base64_encode e input tail = Some (rfc4648 input).
Proof. exact encode_ok. Qed.
Print Assumptions C01_encode_is_rfc4648.

(** 26 bytes: fast path, tail triplets and two left-over bytes. *)
Example C01_ex :
  over_read 26 <= List.length (@nil ascii) /\
  rfc4648 (txt "abcdefghijklmnopqrstuvwxyz") = txt "YWJjZGVmZ2hpamtsbW5vcHFyc3R1dnd4eXo=" /\
  rfc4648 (txt "f") = txt "Zg==" /\ rfc4648 (txt "foobar") = txt "Zm9vYmFy".
Proof. repeat split; vm_compute; auto. Qed.

(** C02. *)
Theorem C02_decode_encode : forall e input tail,
  over_read (List.length input) <= List.length tail ->
  exists text, base64_encode e input tail = Some text /\
               base64_decode text = Some (true, input).
Proof. exact round_trip. Qed.
Print Assumptions C02_decode_encode.

Example C02_ex : base64_encode little (txt "light work.") [] = Some (txt "bGlnaHQgd29yay4=").
Proof. vm_compute. reflexivity. Qed.

(** C03. Acceptance and meaning; the decoder never reaches undefined behaviour. *)
Theorem C03_decode_accepts : forall text data,
  base64_decode text = Some (true, data) <-> exists values, decodes text values data.
Proof. exact decode_iff. Qed.
Print Assumptions C03_decode_accepts.

Theorem C03_decode_defined : forall text, exists ok out, base64_decode text = Some (ok, out).
Proof. exact decode_total. Qed.
Print Assumptions C03_decode_defined.

Example C03_ex :
  (exists v, decodes (txt "Zm8=") v (txt "fo")) /\
  (forall v d, ~ decodes (txt "Zm=8") v d) /\
  base64_decode (txt "Zm9") = Some (false, []).
Proof.
  split; [|split].
  - apply decode_iff. vm_compute. reflexivity.
  - intros v d H. assert (base64_decode (txt "Zm=8") = Some (true, d)) as E
      by (apply decode_iff; eauto). vm_compute in E. discriminate.
  - vm_compute. reflexivity.
Qed.

(** C04. Re-encoding gives the text back exactly if the unused bits are zero. *)
Theorem C04_encode_decode : forall e text data tail,
  base64_decode text = Some (true, data) ->
  over_read (List.length data) <= List.length tail ->
  (base64_encode e data tail = Some text <-> trailing_zero text).
Proof. exact encode_after_decode. Qed.
Print Assumptions C04_encode_decode.

Theorem C04_canonical_injective : forall t1 t2 data,
  base64_decode t1 = Some (true, data) -> base64_decode t2 = Some (true, data) ->
  trailing_zero t1 -> trailing_zero t2 -> t1 = t2.
Proof. exact canonical_injective. Qed.
Print Assumptions C04_canonical_injective.

(** "Zh==" is accepted and means the same as "Zg==", its canonical form. *)
Example C04_ex :
  base64_decode (txt "Zh==") = Some (true, txt "f") /\
  base64_decode (txt "Zg==") = Some (true, txt "f") /\
  trailing_zero (txt "Zg==") /\
  decodes (txt "Zh==") [25; 33]%N (txt "f").
Proof.
  split; [vm_compute; reflexivity|]. split; [vm_compute; reflexivity|].
  split; [apply (encode_after_decode little _ (txt "f") []); vm_compute; auto|].
  exists (txt "Zh"), 2. repeat split; auto.
  repeat constructor.
Qed.

(** C05. Undefined behaviour exactly if fewer than [over_read] bytes follow the input. *)
Theorem C05_reads_past_end : forall e input tail,
  base64_encode e input tail = None <-> List.length tail < over_read (List.length input).
Proof. exact reads_past_end. Qed.
Print Assumptions C05_reads_past_end.

(** The user expectation "no byte outside the view is read" is false for 24 bytes. *)
Theorem C05_in_bounds_refuted : exists e input, base64_encode e input [] = None.
Proof. exact reads_24. Qed.
Print Assumptions C05_in_bounds_refuted.

Example C05_ex : over_read 24 = 2 /\ over_read 49 = 1 /\ over_read 23 = 0 /\ over_read 26 = 0.
Proof. repeat split. Qed.
