(** Properties C18, C34 and (for writing) C35. *)
From Coq Require Import List Arith ZArith NArith Ascii String Bool Permutation.
From Verif Require Import Base Float NumericModel Base64Model Json Types SerializeModel Events WriteModel WriteSpec DerivedProof.
Import ListNotations.
Local Open Scope string_scope.

(** An environment for the examples: class 0 has a number and an optional number; class 1 is
    derived from a class with the member "b". *)
Definition ex_env : env := {|
  classes := [
    {| c_members := [{| m_name := "x"; m_kind := MRequired; m_ty := TDouble |};
                     {| m_name := "y"; m_kind := MOptional; m_ty := TInt int32 |}];
       c_root := 2; c_default := [VIndet; VNone]; c_value := [VFlt (FZero false); VNone] |};
    {| c_members := [{| m_name := "b"; m_kind := MRequired; m_ty := TBool |};
                     {| m_name := "d"; m_kind := MRequired; m_ty := TDouble |};
                     {| m_name := "s"; m_kind := MRequired; m_ty := TString |}];
       c_root := 1; c_default := []; c_value := [] |}];
  tick := 1000000000; endian := little; after := fun _ => []; less := fun _ _ _ => false;
  iteration := fun keys => seq 0 (List.length keys) |}.

(** C18: as long as all numbers are finite, writing and serializing to a document give the
    same text, or are both undefined (null pointers and the like). Inheritance is allowed. *)
Theorem C18_same_text : forall render e t v str, finite v = true ->
  match serialize_to_document e t v with
  | SOk _ j => write_to_string render e t v str = Some (true, document_to_string render j)
  | SFail _ => False
  | SUndef => write_to_string render e t v str = None
  end.
Proof. exact same_text. Qed.
Print Assumptions C18_same_text.

(** C18: text that is written at all is the text of the document. *)
Theorem C18_success_same_text : forall render e t v str str', no_bases e ->
  write_to_string render e t v str = Some (true, str') ->
  exists tab j, serialize_to_document e t v = SOk tab j /\ str' = document_to_string render j.
Proof. exact success_same_text. Qed.
Print Assumptions C18_success_same_text.

(** C18: writing is undefined only where serializing is. *)
Theorem C18_undefined_alike : forall render e t v str, no_bases e ->
  write_to_string render e t v str = None -> serialize_to_document e t v = SUndef.
Proof. exact undefined_alike. Qed.
Print Assumptions C18_undefined_alike.

(** The second of two shared pointers to the same object is written as a reference. *)
Example C18_example :
  let v := VList [VShared 7 (VObj [VFlt (FFin false 3 (-1)); VNone]); VShared 7 (VObj [VFlt (FFin false 3 (-1)); VNone])] in
  exists tab, write_events ex_env (TVector (TShared (TClass 0))) v =
    WRet true tab [EStartArray; EStartObject; EKey "x"; EDbl (FFin false 3 (-1)); EEndObject;
                   EStartObject; EKey "$ref"; EStr "/0"; EEndObject; EEndArray] /\
  serialize_to_document ex_env (TVector (TShared (TClass 0))) v =
    SOk tab (JArr [JObj [("x", JDbl (FFin false 3 (-1)))]; JObj [("$ref", JStr "/0")]]).
Proof. eexists. split; vm_compute; reflexivity. Qed.

(** C34: without inheritance, write_to_string succeeds exactly on values all of whose numbers
    are finite, and otherwise leaves the string as it is. *)
Theorem C34_write : forall H render e t v str ok str', fair e -> no_bases e -> in_heap H v ->
  write_to_string render e t v str = Some (ok, str') -> ok = finite v /\ (ok = false -> str' = str).
Proof. exact write_flag. Qed.
Print Assumptions C34_write.

(** C34: a document is refused exactly if there is a non-finite number outside all objects. *)
Theorem C34_document_fails : forall H e t v, fair e -> in_heap H v ->
  match serialize_to_document e t v with
  | SOk _ _ => finite_outside v = true
  | SFail _ => finite_outside v = false
  | SUndef => True
  end.
Proof. exact outside_flag. Qed.
Print Assumptions C34_document_fails.

(** C34: an object never fails; its members with a non-finite number are left out, all others
    that are not empty are there. *)
Theorem C34_members_dropped : forall H e c l, fair e -> in_heap H (VObj l) ->
  match serialize_to_document e (TClass c) (VObj l) with
  | SOk _ j => exists o, j = JObj o /\
      map fst o = map fst (filter (fun p => written (snd p)) (combine (map m_name (c_members (class_of e c))) l))
  | SFail _ => False
  | SUndef => True
  end.
Proof. exact members_written. Qed.
Print Assumptions C34_members_dropped.

(** The member "x" disappears from the document without a trace, while writing fails. *)
Example C34_example :
  serialize_to_document ex_env (TClass 0) (VObj [VFlt FNan; VSome (VInt 5)]) = SOk [] (JObj [("y", JInt 5)]) /\
  write_to_string (fun _ => "text") ex_env (TClass 0) (VObj [VFlt FNan; VSome (VInt 5)]) "old" = Some (false, "old") /\
  serialize_to_document ex_env (TVector TDouble) (VList [VFlt (FInf true)]) = SFail [].
Proof. repeat split; vm_compute; reflexivity. Qed.

(** C34: the hypotheses hold for instance for ordered iteration. *)
Example C34_fair : fair ex_env.
Proof. intros keys. apply Permutation_refl. Qed.

(** C35: if the members of the root class are finite and a member of a derived class is not,
    writing reports success, with text that is not JSON. *)
Theorem C35_writing_not_checked : forall H e c l, fair e -> in_heap H (VObj l) ->
  forallb finite (firstn (c_root (class_of e c)) l) = true -> finite (VObj l) = false ->
  match write_events e (TClass c) (VObj l) with
  | WRet ok _ evs => ok = true /\ ~ well_formed evs
  | WUndef => True
  end.
Proof. exact derived_fails. Qed.
Print Assumptions C35_writing_not_checked.

(** {"b":true,"d":} *)
Example C35_writing_example :
  write_events ex_env (TClass 1) (VObj [VBool true; VFlt FNan; VStr "s"]) =
    WRet true [] [EStartObject; EKey "b"; EBool true; EKey "d"; EEndObject].
Proof. vm_compute. reflexivity. Qed.

(** The grammar accepts what is JSON. *)
Example C35_well_formed : well_formed (events (JObj [("a", JArr [JNull; JObj []]); ("b", JInt 3)])).
Proof. reflexivity. Qed.
