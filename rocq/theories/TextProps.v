(** Property C37: the texts that are written, and the texts that are read. *)
From Coq Require Import List Arith ZArith NArith Ascii String Bool Lia.
From Verif Require Import Base Float NumericModel NumericSpec DeserializeProps ParseProps Json Events Types SerializeModel WriteModel DeserializeModel ParseModel
  DenoteSpec ParseSpec MergeSpec AgreeSpec RoundSpec WriteSpec RoundParse RoundProps WriteProps
  TextModel TextSpec TextChars TextProof TextWrite.
Import ListNotations.
Local Open Scope string_scope.
Local Open Scope list_scope.

(** How doubles are printed and read, for examples without doubles. *)
Definition no_print (f : fl) : list ascii := [].
Definition no_nearest (s : list ascii) : option fl := None.

Section Texts.
(** How doubles are printed and read. *)
Variable print : fl -> list ascii.
Variable nearest : list ascii -> option fl.
Notation faithful := (faithful print nearest).
Notation written := (written print).

(** C37: what write_to_string gives is the JSON text of the document of the value. *)
Theorem C37_valid_text : forall e t v str str', no_bases e -> numbers faithful v ->
  write_to_string written e t v str = Some (true, str') ->
  exists tab j, serialize_to_document e t v = SOk tab j /\ json_text nearest str' j.
Proof.
  intros e t v str str' B N H. apply C18_success_same_text in H as (tab & j & S & ->); [|assumption]. exists tab, j. split; [assumption|].
  apply written_json. exact (proj1 (all_print e faithful v) N t [] [] tab j S).
Qed.

(** C37: also with inheritance, if the numbers are finite. *)
Theorem C37_finite_text : forall e t v str tab j, finite v = true -> numbers faithful v -> serialize_to_document e t v = SOk tab j ->
  exists str', write_to_string written e t v str = Some (true, str') /\ json_text nearest str' j.
Proof.
  intros e t v str tab j F N S. pose proof (C18_same_text written e t v str F) as H. rewrite S in H. eexists. split; [exact H|].
  apply written_json. exact (proj1 (all_print e faithful v) N t [] [] tab j S).
Qed.

(** C37: the text of a document is a JSON text of it, without any NUL, and is read as the
    same document. *)
Theorem C37_reads_back : forall j, printable faithful j ->
  json_text nearest (document_to_string written j) j /\ until_nul (document_to_string written j) = document_to_string written j /\
  string_to_document nearest (document_to_string written j) = (j, true).
Proof.
  intros j H. pose proof (written_json nearest print j H) as T. split; [exact T|]. pose proof (text_visible nearest _ _ T) as V. split; [exact V|].
  unfold string_to_document. assert (R : read_text nearest (document_to_string written j) = ROk j []).
  { apply read_exactly. split; [reflexivity|]. unfold document_to_string. rewrite V. exact T. }
  now rewrite R.
Qed.

(** C37: the reader takes exactly the JSON texts, up to the first NUL; the document is null
    otherwise. *)
Theorem C37_reads_exactly : forall str j, string_to_document nearest str = (j, true) <-> json_text nearest (until_nul str) j.
Proof.
  intros str j. unfold string_to_document. split.
  - destruct (read_text nearest str) as [j' r|evs|] eqn:E; intros H; try discriminate. injection H as <-. now apply read_exactly in E as [_ E].
  - intros H. assert (R : read_text nearest str = ROk j []) by now apply read_exactly. now rewrite R.
Qed.

Theorem C37_no_text : forall str, (forall j, ~ json_text nearest (until_nul str) j) -> string_to_document nearest str = (JNull, false).
Proof.
  intros str H. unfold string_to_document. destruct (read_text nearest str) as [j r|evs|] eqn:E; [|reflexivity|reflexivity].
  apply read_exactly in E as [_ E]. now apply H in E.
Qed.

(** C37: a JSON text stands for one document. *)
Theorem C37_unambiguous : forall str j j', json_text nearest str j -> json_text nearest str j' -> j = j'.
Proof. exact (text_unique nearest). Qed.

(** C37: the value comes back from its text, through the document, ... *)
Theorem C37_text_round_trip : forall e t v str, ordinary e -> named e -> iterates e -> ordinary_type t -> holds e t v -> numbers faithful v ->
  exists str', write_to_string written e t v str = Some (true, str') /\
    deserialize_string_throw nearest e t str' = Document (Returned v) /\ forall obj, deserialize_string nearest e t str' obj = DRet true start v.
Proof.
  intros e t v str O NM IT T H N. destruct (doc_round_trip e t v O NM IT T H) as (j & S & D1 & D2).
  exists (document_to_string written j). split; [now apply RoundParse.written_text|].
  destruct (C37_reads_back j) as (_ & _ & R). { exact (proj1 (all_print e faithful v) N t [] [] [] j S). }
  unfold deserialize_string_throw, deserialize_string. rewrite R, D1. split; [reflexivity|exact D2].
Qed.

(** ... and while it is parsed. *)
Theorem C37_parse_round_trip : forall e fuel t v str, supported e fuel -> fresh_classes e -> parser_classes e -> legible e -> iterates e ->
  ordinary_type t -> parser_type t = true -> holds e t v -> depth v <= 84 -> numbers faithful v ->
  exists str', write_to_string written e t v str = Some (true, str') /\ parse_string nearest e fuel real_capacity t str' = PReturned v.
Proof.
  intros e fuel t v str S F PC LG IT T PT H N NN. destruct (write_then_parse e fuel t v S F PC LG IT T PT H N) as (j & Sj & P).
  exists (document_to_string written j). split; [now apply RoundParse.written_text|].
  destruct (C37_reads_back j) as (T1 & T2 & _). { exact (proj1 (all_print e faithful v) NN t [] [] [] j Sj). }
  assert (R : read_text nearest (document_to_string written j) = ROk j []).
  { apply read_exactly. split; [reflexivity|]. rewrite <- T2 in T1. exact T1. }
  unfold parse_string, parse_string_into. rewrite R. exact P.
Qed.

(** C37: what is not a JSON text is not read by any of the functions; the flag is false or
    JsonParseError is thrown (or parse runs out of space before). *)
Theorem C37_rejected : forall e fuel fits t str obj, (forall j, ~ json_text nearest (until_nul str) j) ->
  deserialize_string nearest e t str obj = DRet false start obj /\ deserialize_string_throw nearest e t str = NotJson /\
  (forall v, parse_string_into nearest e fuel fits t str obj <> Parsed true v) /\ (forall v, parse_string nearest e fuel fits t str <> PReturned v).
Proof.
  intros e fuel fits t str obj H. unfold deserialize_string, deserialize_string_throw. rewrite (C37_no_text str H). split; [reflexivity|]. split; [reflexivity|].
  assert (P : forall o v, parse_string_into nearest e fuel fits t str o <> Parsed true v).
  { intros o v. unfold parse_string_into. destruct (read_text nearest str) as [j r|evs|] eqn:E.
    - apply read_exactly in E as [_ E]. now apply H in E.
    - destruct (parse_events e fuel fits t o evs); discriminate.
    - discriminate. }
  split; [apply P|]. intros v. unfold parse_string. specialize (P (dinit e t) v).
  destruct (parse_string_into nearest e fuel fits t str (dinit e t)) as [[] w| | |]; try discriminate. congruence.
Qed.

(** C37: the text after a NUL is not looked at. *)
Theorem C37_after_nul : forall str rest, read_text nearest (str ++ String Ascii.zero rest) = read_text nearest str.
Proof.
  intros str rest. unfold read_text. replace (c_string (str ++ String Ascii.zero rest)) with (c_string str); [reflexivity|].
  induction str as [|c str IH]; [reflexivity|]. cbn. rewrite IH. reflexivity.
Qed.
End Texts.
Print Assumptions C37_valid_text.
Print Assumptions C37_finite_text.
Print Assumptions C37_reads_back.
Print Assumptions C37_reads_exactly.
Print Assumptions C37_no_text.
Print Assumptions C37_unambiguous.
Print Assumptions C37_text_round_trip.
Print Assumptions C37_parse_round_trip.
Print Assumptions C37_rejected.
Print Assumptions C37_after_nul.

Definition ex_odd : string := String """" (String "\" (String "010" (String "001" (String Ascii.zero (String "200" "/"))))).

Example C37_example : let j := JObj [(ex_odd, JArr [JInt (-7); JNull; JBool true; JStr ex_odd]); ("", JObj []); ("a", JArr [])] in
  document_to_string (written no_print) j = ("{""\""\\\n\u0001\u0000" ++ String "200" "/"":[-7,null,true,""\""\\\n\u0001\u0000" ++ String "200" "/""],"""":{},""a"":[]}")%string /\
  string_to_document no_nearest (document_to_string (written no_print) j) = (j, true).
Proof. split; vm_compute; reflexivity. Qed.

(** Escapes beyond those that are written, white space, and integers that do not fit. *)
Example C37_reading_example :
  string_to_document no_nearest " [ ""\u00e4\uD834\uDD1E\/"" , 18446744073709551615,-0 ] " =
    (JArr [JStr (String "195" (String "164" (String "240" (String "157" (String "132" (String "158" "/")))))); JInt 18446744073709551615; JInt 0], true) /\
  string_to_document (fun s => if list_eq_dec ascii_dec s (list_ascii_of_string "1e2") then Some (FFin false 25 2) else None) "1e2" = (JDbl (FFin false 25 2), true) /\
  map (fun s => snd (string_to_document no_nearest s)) ["01"; "[1,]"; "{""a"" 1}"; """\ud834"""; "1 2"; "nul"; "-"; "1."; "["; ""; String """" (String "010" """")] =
    [false; false; false; false; false; false; false; false; false; false; false].
Proof. repeat split; vm_compute; reflexivity. Qed.

Example C37_value_example : exists str, write_to_string (written no_print) ex_round (TClass 3) ex_sky_value "" = Some (true, str) /\
  str = "{""values"":[7,-7],""map"":{""b"":{""n"":2,""b"":false,""s"":""x""},""a"":{""n"":1,""b"":true}},""time"":""1970-01-01T00:00:01Z"",""set"":[3,5]}" /\
  deserialize_string_throw no_nearest ex_round (TClass 3) str = Document (Returned ex_sky_value) /\
  parse_string no_nearest ex_round ParseProps.ex_fuel real_capacity (TClass 3) str = PReturned ex_sky_value.
Proof. eexists. split; [vm_compute; reflexivity|]. split; [reflexivity|]. split; vm_compute; reflexivity. Qed.

(** The text ends early, and what was read of it is in the object. *)
Example C37_rejected_example : let str := "[7,8" in
  deserialize_string no_nearest ex_round (TVector (TInt int32)) str (VList []) = DRet false start (VList []) /\
  parse_string_into no_nearest ex_round ParseProps.ex_fuel real_capacity (TVector (TInt int32)) str (VList []) = Parsed false (VList [VInt 7; VInt 8]) /\
  parse_string no_nearest ex_round ParseProps.ex_fuel real_capacity (TVector (TInt int32)) "[7]]" = PError.
Proof. repeat split; vm_compute; reflexivity. Qed.

Example C37_after_nul_example : string_to_document no_nearest ("[1]" ++ String Ascii.zero "]]") = (JArr [JInt 1], true).
Proof. vm_compute. reflexivity. Qed.

(** A double that is printed with a fraction and read as itself. *)
Example C37_double_example : let print := fun _ : fl => list_ascii_of_string "0.5" in
  let nearest := fun s => if list_eq_dec ascii_dec s (list_ascii_of_string "0.5") then Some (FFin false 1 (-1)) else None in
  faithful print nearest (FFin false 1 (-1)) /\ string_to_document nearest (document_to_string (written print) (JArr [JDbl (FFin false 1 (-1)); JInt 2])) =
    (JArr [JDbl (FFin false 1 (-1)); JInt 2], true).
Proof.
  split; [|vm_compute; reflexivity]. split; [|split; [|vm_compute; reflexivity]].
  - exists [], ["0"%char], ["."%char; "5"%char], []. split; [now left|]. split; [|split; [|split; [now left|reflexivity]]].
    + split; [split; [discriminate|]|reflexivity]. constructor; [split; vm_compute; discriminate|constructor].
    + right. exists ["5"%char]. split; [|reflexivity]. split; [discriminate|]. constructor; [split; vm_compute; discriminate|constructor].
  - intros z H. apply integer_chars in H. inversion H as [|? ? _ H2]; subst. inversion H2 as [|? ? H3 _]; subst.
    destruct H3 as [[H3 _]|H3]; [apply H3; reflexivity|discriminate].
Qed.
