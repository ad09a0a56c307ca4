(** Property C58: reading temporary strings in place. *)
From Coq Require Import List Arith ZArith NArith Ascii String Bool Lia.
From Verif Require Import Base Float Json Events Types SerializeModel DeserializeModel TextModel TextSpec TextProof InsituModel InsituSpec InsituProof.
Import ListNotations.

(** C58: string_to_document for a temporary string: no write outside the buffer, the same error
    or none, and while the buffer lasts the document is the one that a copy is read as. *)
Theorem C58_same_document : forall nearest str, exists d mem,
  string_to_document_rvalue nearest str = Some (d, snd (string_to_document nearest str), mem) /\ view (Some mem) d = Some (fst (string_to_document nearest str)).
Proof.
  intros nearest str. unfold string_to_document_rvalue, string_to_document. pose proof (text_in_place nearest str) as H. pose proof (read_not_deep nearest str) as N.
  destruct (read_text nearest str) as [j r|evs|]; [|rewrite H; exists (IPlain JNull), []; split; reflexivity|congruence].
  destruct H as (d & mem & pos & -> & V). exists d, mem. split; [reflexivity|exact V].
Qed.
Print Assumptions C58_same_document.

(** C58: deserialize gives the same for temporary strings as for others. *)
Theorem C58_same_object : forall nearest e t str obj, deserialize_rvalue nearest e t str obj = deserialize_string nearest e t str obj /\
  deserialize_rvalue_throw nearest e t str = deserialize_string_throw nearest e t str.
Proof.
  intros nearest e t str obj. unfold deserialize_rvalue, deserialize_rvalue_throw, deserialize_string, deserialize_string_throw.
  destruct (C58_same_document nearest str) as (d & mem & -> & V). destruct (string_to_document nearest str) as [j [|]]; cbn in V |- *; [rewrite V|]; split; reflexivity.
Qed.
Print Assumptions C58_same_object.

(** C58: the document that string_to_document returns for a temporary string can be looked at
    after the string is gone exactly if there is no string and no member in it. *)
Theorem C58_dangling : forall nearest str d ok mem, string_to_document_rvalue nearest str = Some (d, ok, mem) ->
  view None d = if wordless (fst (string_to_document nearest str)) then Some (fst (string_to_document nearest str)) else None.
Proof.
  intros nearest str d ok mem H. destruct (C58_same_document nearest str) as (d' & mem' & E & V). rewrite E in H. injection H as <- _ _. apply (view_gone mem'); [|exact V].
  unfold string_to_document_rvalue in E. pose proof (text_tidy nearest str) as T. destruct (in_text nearest str) as [d0 m p| | |]; try discriminate E; injection E as <- _ _; [exact T|reflexivity].
Qed.
Print Assumptions C58_dangling.

Local Open Scope string_scope.

(** The text {"a\n":["\u20AC",1]}: the buffer afterwards, with NUL characters at the ends of the
    strings, and rests of the text. *)
Definition ex_text : string := "{""a\n"":[""\u20AC"",1]}".

Example C58_example : exists d mem, string_to_document_rvalue (fun _ => None) ex_text = Some (d, true, mem) /\
  d = IObj [({| p_start := 2; p_length := 2 |}, IArr [IStr {| p_start := 9; p_length := 3 |}; IPlain (JInt 1)])] /\
  firstn 6 mem = ["{"; """"; "a"; "010"; "000"; """"]%char /\ firstn 6 (skipn 8 mem) = [""""; "226"; "130"; "172"; "000"; "A"]%char /\
  view (Some mem) d = Some (JObj [(String "a" (String "010" EmptyString), JArr [JStr (String "226" (String "130" (String "172" EmptyString))); JInt 1])]) /\ view None d = None.
Proof. eexists. eexists. vm_compute. repeat split; reflexivity. Qed.
