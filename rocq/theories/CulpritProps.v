(** Property C23: where deserialization errors point. *)
From Coq Require Import List Arith ZArith NArith Ascii String Bool Lia.
From Verif Require Import Base Float NumericModel NumericSpec Base64Model Json PathModel PathSpec PathProof Types SerializeModel DeserializeModel DenoteSpec SameSpec
  CulpritSpec CulpritProof.
Import ListNotations.
Local Open Scope string_scope.
Local Open Scope list_scope.

(** C23: the path of an error is that of the first defect of the document, the reason given
    is what is wrong there, and the value there does not denote a value of the type expected.
    Elements and entries come in the order of the document, members in the order in which the
    class declares them. *)
Theorem C23_first_defect : forall e t j why path, real_classes e -> (0 < tick e)%Z -> simple_variant_classes e -> simple_variants t = true -> real_ints t = true ->
  unreferring e t j -> deserialize_throw e t j = Threw why path ->
  exists ss u r, culprit e t j ss u r why /\ path = path_str (rev (map segment_of ss)) /\ forall old v, ~ denotes e u old r v.
Proof.
  intros e t j why path Rc Tk Vc Vt W U H. pose proof (located e t j Rc Tk Vc Vt W U) as L. rewrite H in L. destruct L as (ss & u & r & K & ->).
  exists ss, u, r. split; [exact K|]. split; [reflexivity|]. intros old v. destruct K as (pos & D & _). exact (defect_denies_there e t j pos ss u r why old v Rc W D).
Qed.
Print Assumptions C23_first_defect.

(** C23: in a document where objects have different names, the steps lead to that value; if the
    names need no escape, so does the path that is printed. *)
Theorem C23_path_leads : forall e t j ss u r why, clean j -> culprit e t j ss u r why ->
  leads j ss r /\
  (ss <> [] -> Forall plain_step ss -> exists ts loc, parse_pointer (path_str (rev (map segment_of ss))) = Some ts /\ pointer_get j ts = Some (loc, r)).
Proof.
  intros e t j ss u r why C (pos & D & _). pose proof (defect_leads _ _ _ _ _ _ _ _ D C) as L. split; [exact L|]. intros N P.
  destruct (path_resolves j ss r N P L) as (ts & loc & A & B & _). eauto.
Qed.
Print Assumptions C23_path_leads.

(** C23: conversely, without byte strings, times and dates, a document with a defect is
    rejected, with the path and the reason of the first. *)
Theorem C23_exactly : forall e t j why path, real_classes e -> (0 < tick e)%Z -> simple_variant_classes e -> codec_free_classes e -> unshared_classes e ->
  simple_variants t = true -> real_ints t = true -> codec_free t = true -> unshared t = true ->
  (deserialize_throw e t j = Threw why path <-> exists ss u r, culprit e t j ss u r why /\ path = path_str (rev (map segment_of ss))).
Proof. exact located_exactly. Qed.
Print Assumptions C23_exactly.

(** A class with a list of objects; the second of them has a number that is too large, and
    further members that are wrong follow. *)
Definition ex_item : cls := {|
  c_members := [{| m_name := "x"; m_kind := MRequired; m_ty := TInt {| width := 8; is_signed := true |} |};
                {| m_name := "y"; m_kind := MOptional; m_ty := TVariant [TBool; TString] |}];
  c_root := 2; c_default := [VIndet; VNone]; c_value := [VInt 0; VNone] |}.
Definition ex_box : cls := {|
  c_members := [{| m_name := "items"; m_kind := MRequired; m_ty := TVector (TUnique (TClass 0)) |};
                {| m_name := "title"; m_kind := MRequired; m_ty := TString |}];
  c_root := 2; c_default := [VList []; VStr ""]; c_value := [VList []; VStr ""] |}.
Definition ex_boxes : env := {|
  classes := [ex_item; ex_box]; tick := 1000000000; endian := Base64Model.little; after := fun _ => [];
  less := fun _ _ _ => false; iteration := fun keys => seq 0 (List.length keys) |}.

Definition ex_bad (item : json) : json :=
  JObj [("title", JInt 7); ("items", JArr [JObj [("y", JStr "a"); ("x", JInt 1)]; item; JBool true])].

Example C23_example :
  deserialize_throw ex_boxes (TClass 1) (ex_bad (JObj [("y", JInt 1); ("x", JInt 300)])) = Threw (OutOfRange true) (list_ascii_of_string "/items/1/x") /\
  deserialize_throw ex_boxes (TClass 1) (ex_bad (JObj [("y", JInt 1); ("x", JInt 100)])) = Threw NoAlternative (list_ascii_of_string "/items/1/y") /\
  deserialize_throw ex_boxes (TClass 1) (ex_bad (JObj [("y", JBool true)])) = Threw (MissingProperty "x") (list_ascii_of_string "/items/1") /\
  defect ex_boxes (TClass 1) (ex_bad (JObj [("y", JInt 1); ("x", JInt 300)])) [0; 1; 0] [Member "items"; Element 1; Member "x"]
    (TInt {| width := 8; is_signed := true |}) (JInt 300) (OutOfRange true) /\
  defect ex_boxes (TClass 1) (ex_bad (JObj [("y", JInt 1); ("x", JInt 300)])) [0; 1; 1] [Member "items"; Element 1; Member "y"]
    (TVariant [TBool; TString]) (JInt 1) NoAlternative.
Proof.
  split; [vm_compute; reflexivity|]. split; [vm_compute; reflexivity|]. split; [vm_compute; reflexivity|]. split.
  all: apply (defect_member ex_boxes 1 _ 0 {| m_name := "items"; m_kind := MRequired; m_ty := TVector (TUnique (TClass 0)) |}
      (JArr [JObj [("y", JStr "a"); ("x", JInt 1)]; JObj [("y", JInt 1); ("x", JInt 300)]; JBool true])); [reflexivity|reflexivity|].
  all: eapply defect_element; [reflexivity|reflexivity|]; apply defect_unique.
  - apply (defect_member ex_boxes 0 _ 0 {| m_name := "x"; m_kind := MRequired; m_ty := TInt {| width := 8; is_signed := true |} |} (JInt 300)); [reflexivity|reflexivity|].
    apply defect_here, wrong_int; cbn; lia.
  - apply (defect_member ex_boxes 0 _ 1 {| m_name := "y"; m_kind := MOptional; m_ty := TVariant [TBool; TString] |} (JInt 1)); [reflexivity|reflexivity|].
    apply defect_here, wrong_variant. intros u v [<-|[<-|[]]] D; inversion D.
Qed.

(** If a name occurs twice in the object of a map, the path may lead to a value that is right. *)
Theorem C23_duplicates_refuted : exists e t j why path ts loc r, deserialize_throw e t j = Threw why path /\
  parse_pointer path = Some ts /\ pointer_get j ts = Some (loc, r) /\ exists v, denotes e TBool VIndet r v.
Proof.
  exists ex_boxes, (TMap true TBool), (JObj [("a", JBool true); ("a", JNull)]), (WrongType "boolean"), (list_ascii_of_string "/a"). do 3 eexists.
  split; [vm_compute; reflexivity|]. split; [vm_compute; reflexivity|]. split; [vm_compute; reflexivity|]. eexists. constructor.
Qed.
Print Assumptions C23_duplicates_refuted.

(** A reference to nothing ends a list without error, so that later defects are reported
    before earlier ones. *)
Definition ex_refs : env := {|
  classes := [{| c_members := [{| m_name := "list"; m_kind := MRequired; m_ty := TVector (TShared TBool) |};
                               {| m_name := "flag"; m_kind := MRequired; m_ty := TBool |}];
                 c_root := 2; c_default := []; c_value := [] |}];
  tick := 1000000000; endian := Base64Model.little; after := fun _ => [];
  less := fun _ _ _ => false; iteration := fun keys => seq 0 (List.length keys) |}.

Theorem C23_references_refuted : exists e t j why ss pos u r ss' pos' u' r' why',
  deserialize_throw e t j = Threw why (path_str (rev (map segment_of ss))) /\ defect e t j pos ss u r why /\
  defect e t j pos' ss' u' r' why' /\ before pos' pos.
Proof.
  exists ex_refs, (TClass 0), (JObj [("list", JArr [JObj [("$ref", JStr "/nowhere")]; JInt 1]); ("flag", JInt 2)]), (WrongType "boolean"),
    [Member "flag"], [1], TBool, (JInt 2), [Member "list"; Element 1], [0; 1], TBool, (JInt 1), (WrongType "boolean").
  split; [vm_compute; reflexivity|]. split; [|split; [|constructor; lia]].
  - apply (defect_member ex_refs 0 _ 1 {| m_name := "flag"; m_kind := MRequired; m_ty := TBool |} (JInt 2)); [reflexivity|reflexivity|].
    apply defect_here, wrong_kind. cbn. tauto.
  - apply (defect_member ex_refs 0 _ 0 {| m_name := "list"; m_kind := MRequired; m_ty := TVector (TShared TBool) |} (JArr [JObj [("$ref", JStr "/nowhere")]; JInt 1]));
      [reflexivity|reflexivity|].
    eapply defect_element; [reflexivity|reflexivity|]. apply defect_shared, defect_here, wrong_kind. cbn. tauto.
Qed.
Print Assumptions C23_references_refuted.
