(** Deeply nested input. *)
From Coq Require Import List Arith ZArith NArith Ascii String Bool Lia.
From Verif Require Import Base Float Json Events Types DeserializeModel ParseModel ParseLimit TextModel TextSpec TextProof ReaderModel ReaderProof DepthProof
  ParseProps TextProps.
Import ListNotations.
Local Open Scope string_scope.
Local Open Scope list_scope.

(** C59: making a document from a text takes as many nested calls as the document has levels,
    whatever it is to be read into. If there is no room for them, the stack overflows. *)
Theorem C59_document : forall nearest k str j, json_text nearest (c_string str) j ->
  document_within nearest k str = if Nat.leb (nesting j) k then Whole j else Crash.
Proof. intros nearest k str j H. eapply document_read. apply read_exactly. split; [reflexivity|exact H]. Qed.
Print Assumptions C59_document.

(** C59: other texts give an error or overflow the stack, too; *)
Theorem C59_not_json : forall nearest k str, (forall j, ~ json_text nearest (c_string str) j) ->
  document_within nearest k str = Crash \/ exists f n, document_within nearest k str = Erroneous f n.
Proof.
  intros nearest k str H. destruct (read_text nearest str) as [j r|evs|] eqn:E.
  - apply read_exactly in E as [_ E]. now apply H in E.
  - destruct (document_broken nearest k str evs E) as [[_ ->]|F]; auto.
  - now apply read_not_deep in E.
Qed.
Print Assumptions C59_not_json.

(** C59: whatever the size of the stack, a text of so many brackets is enough to overflow it, *)
Theorem C59_crash : forall nearest k, document_within nearest k (string_of_list_ascii (repeat "["%char (S k))) = Crash.
Proof.
  intros nearest k. unfold document_within, drive_text.
  assert (C : c_string (string_of_list_ascii (repeat "["%char (S k))) = string_of_list_ascii (repeat "["%char (S k))).
  { generalize (S k). induction n as [|n IH]; [reflexivity|]. cbn. now rewrite IH. }
  rewrite C, list_ascii_of_string_of_list_ascii.
  pose proof (brackets_deep nearest (S k) (2 * List.length (repeat "["%char (S k)) + 2) k ltac:(lia) ltac:(rewrite repeat_length; lia) []) as D.
  cbn [repeat] in D |- *. change (skip ("["%char :: ?x)) with ("["%char :: x). cbv zeta. cbn beta iota. now rewrite D.
Qed.
Print Assumptions C59_crash.

(** C59: and a text that is not longer than the stack is deep never is. *)
Theorem C59_enough : forall nearest k str, String.length str <= k -> document_within nearest k str <> Crash.
Proof.
  intros nearest k str L. unfold document_within. pose proof (text_never_exhausted nearest document_handler k [] str L) as N.
  pose proof (drive_text_reads nearest document_handler k [] str) as D.
  destruct (read_text nearest str) as [j r|evs|] eqn:E; cbn [expected] in D.
  - rewrite feed_built in D. unfold built in D. destruct (Nat.leb (nesting j) k); cbn [after app] in D.
    + destruct (drive_text nearest document_handler k [] str); try discriminate D. now injection D as -> ->.
    + destruct (drive_text nearest document_handler k [] str); try discriminate D. now destruct N.
  - destruct (document_levels evs k []) as [F|(k' & st' & F)]; rewrite F in D; cbn [after] in D;
      destruct (drive_text nearest document_handler k [] str); try discriminate D; [now destruct N|discriminate].
  - now apply read_not_deep in E.
Qed.
Print Assumptions C59_enough.

(** C59: the parser has at most 128 handlers at a time and the calls of the reader are nested
    at most 129 deep, for every type and every text, JSON or not. It ends as if there were no
    limit on the calls. *)
Theorem C59_parse_bounded : forall nearest e fuel t str obj k, 129 <= k ->
  parse_text nearest e fuel real_capacity k t str obj <> StackExhausted /\
  result (parse_text nearest e fuel real_capacity k t str obj) = Some (parse_string_into nearest e fuel real_capacity t str obj).
Proof.
  intros nearest e fuel t str obj k K. assert (B : parse_text nearest e fuel real_capacity k t str obj <> StackExhausted)
    by (apply parse_text_bounded with 128; [exact real_at_most|lia]). split; [exact B|now apply parse_text_same].
Qed.
Print Assumptions C59_parse_bounded.

(** C59: 129 is the least such number. *)
Theorem C59_parse_tight : exists e fuel t str obj,
  parse_text no_nearest e fuel real_capacity 128 t str obj = StackExhausted /\ parse_text no_nearest e fuel real_capacity 129 t str obj = Overflow.
Proof.
  exists ex_parsed, ex_fuel, (vectors 128), (string_of_list_ascii (repeat "["%char 129)), (VList []). split; vm_compute; reflexivity.
Qed.
Print Assumptions C59_parse_tight.

Example C59_example :
  document_within no_nearest 3 "[[[1, {}], []]]" = Crash /\
  document_within no_nearest 4 "[[[1, {}], []]]" = Whole (JArr [JArr [JArr [JInt 1; JObj []]; JArr []]]) /\
  document_within no_nearest 3 "[[[[[]" = Crash /\
  document_within no_nearest 5 "[[[[[]" = Erroneous MissCommaOrSquareBracket 6 /\
  parse_text no_nearest ex_parsed ex_fuel real_capacity 3 (TVector TBool) "[[[[[[" (VList []) = Refusal 2 (VList []) /\
  parse_text no_nearest ex_parsed ex_fuel real_capacity 3 (TVector (TVector TBool)) "[[true], [false, true]]" (VList []) =
    Filled (VList [VList [VBool true]; VList [VBool false; VBool true]]).
Proof. repeat (split; [vm_compute; reflexivity|]). vm_compute; reflexivity. Qed.
