(** Property C15: paths printed for references and errors are JSON pointers. *)
From Coq Require Import List ZArith NArith Ascii String Bool.
From Verif Require Import Decimal10 Json PathModel PathSpec PathProof.
Import ListNotations.

(** The library stores the segments of a path from the innermost outwards, hence [rev]. *)
Theorem C15_path_resolves : forall j ss r, ss <> [] -> Forall plain_step ss -> leads j ss r ->
  exists ts loc, parse_pointer (path_str (rev (map segment_of ss))) = Some ts /\
    pointer_get j ts = Some (loc, r) /\ at_place j loc = Some r.
Proof. exact path_resolves. Qed.
Print Assumptions C15_path_resolves.

(** The path of the root is printed as the pointer to a member with an empty name. *)
Theorem C15_root_refuted : exists j ts, leads j [] j /\
  parse_pointer (path_str (rev (map segment_of []))) = Some ts /\ pointer_get j ts = None.
Proof. exists (JArr []), [make_token []]. repeat split. constructor. Qed.
Print Assumptions C15_root_refuted.

(** A name with '/' leads elsewhere, a name with '~' may be malformed, and an empty name is
    printed as the index 0. *)
Theorem C15_slash_refuted : exists j ss r r', leads j ss r /\ r <> r' /\
  exists ts loc, parse_pointer (path_str (rev (map segment_of ss))) = Some ts /\ pointer_get j ts = Some (loc, r').
Proof.
  exists (JObj [("a"%string, JObj [("b"%string, JInt 1)]); ("a/b"%string, JInt 2)]), [Member "a/b"], (JInt 2), (JInt 1).
  split; [|split; [discriminate|]].
  - apply (leads_member [("a"%string, JObj [("b"%string, JInt 1)])]); [|constructor].
    intros [E|[]]. discriminate.
  - eexists. eexists. split; reflexivity.
Qed.
Print Assumptions C15_slash_refuted.

Theorem C15_tilde_refuted : exists j ss r, leads j ss r /\
  parse_pointer (path_str (rev (map segment_of ss))) = None.
Proof.
  exists (JObj [("a~b"%string, JNull)]), [Member "a~b"], JNull. split; [|reflexivity].
  apply (leads_member []); [intros []|constructor].
Qed.
Print Assumptions C15_tilde_refuted.

Theorem C15_empty_name_refuted : exists j ss r r', leads j ss r /\ r <> r' /\
  exists ts loc, parse_pointer (path_str (rev (map segment_of ss))) = Some ts /\ pointer_get j ts = Some (loc, r').
Proof.
  exists (JObj [("0"%string, JInt 1); (""%string, JInt 2)]), [Member ""], (JInt 2), (JInt 1).
  split; [|split; [discriminate|]].
  - apply (leads_member [("0"%string, JInt 1)]); [|constructor]. intros [E|[]]. discriminate.
  - eexists. eexists. split; reflexivity.
Qed.
Print Assumptions C15_empty_name_refuted.

Example C15_example :
  let j := JObj [("list"%string, JArr [JNull; JObj [("x"%string, JBool true)]])] in
  let ss := [Member "list"; Element 1; Member "x"] in
  leads j ss (JBool true) /\ Forall plain_step ss /\
  path_str (rev (map segment_of ss)) = list_ascii_of_string "/list/1/x".
Proof.
  cbn zeta. split; [|split].
  - apply (leads_member []); [intros []|]. apply (leads_element [JNull] _ []).
    apply (leads_member []); [intros []|]. constructor.
  - repeat constructor; try discriminate; intros E; discriminate.
  - reflexivity.
Qed.
