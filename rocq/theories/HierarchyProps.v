(** Property C65: classes with base classes. *)
From Coq Require Import List Arith ZArith NArith Ascii String Bool.
From Verif Require Import Base Float NumericModel Base64Model Json PathModel Types SerializeModel Events WriteModel DeserializeModel SchemaModel HierarchyModel HierarchySpec HierarchyProof.
Import ListNotations.
Local Open Scope string_scope.
Local Open Scope list_scope.

(** An object of a class with that persist function, and the values of its members. *)
Definition object_of (p : persist (member * val)) : val := VObj (map snd (in_order p)).

(** * The classes of the model are class hierarchies *)

(** C65: the document of an object of a derived class. *)
Theorem C65_serialize : forall e c p ctx tab, stands_for e c (pmap fst p) ->
  ser e (object_of p) (TClass c) ctx tab = serialize_object (pmap (fun q => (fst q, mpart (ser e) (snd q))) p) ctx tab.
Proof.
  intros e c p ctx tab (C & M & R). rewrite serialize_hierarchy, !in_order_map, !map_map. cbn [ser object_of]. rewrite M, in_order_map, map_map. reflexivity.
Qed.
Print Assumptions C65_serialize.

(** C65: the calls made on the writer. *)
Theorem C65_write : forall e c p ctx tab, stands_for e c (pmap fst p) ->
  wr e (object_of p) (TClass c) ctx tab = write_object (pmap (fun q => (fst q, wmpart (wr e) (snd q))) p) ctx tab.
Proof.
  intros e c p ctx tab (C & M & R). rewrite chained_map in C. rewrite (write_hierarchy _ ctx (class_of e c)); [|now rewrite chained_map|..].
  - cbn [wr object_of]. rewrite in_order_map, !map_map. reflexivity.
  - rewrite M, !in_order_map, !map_map. reflexivity.
  - rewrite R, !uncopied_map. reflexivity.
Qed.
Print Assumptions C65_write.

(** C65: reading into an object. *)
Theorem C65_deserialize : forall e root l exc c p ctx loc st, stands_for e c (pmap fst p) ->
  deser e root (JObj l) exc (TClass c) (object_of p) ctx loc st =
  deserialize_object e exc (map (fun q => (fst q, deser e root (snd q))) l) p ctx loc st.
Proof.
  intros e root l exc c p ctx loc st (C & M & R). rewrite chained_map in C. rewrite deserialize_hierarchy by assumption. cbn [deser object_of parts_of]. rewrite M, R, in_order_map, uncopied_map. reflexivity.
Qed.
Print Assumptions C65_deserialize.

(** C65: the schema. *)
Theorem C65_schema : forall e tn n inline c p d, stands_for e c p ->
  gen e tn (S n) inline (TClass c) d =
  gbind (schema_visit (gen e tn n false) p d) (fun r d =>
    let s := SObject (Some (fst r)) (Some (snd r)) (Some (inl false)) in
    if inline then GOk s d else GOk (SRef (tn c)) (def_insert d (tn c) s)).
Proof. intros e tn n inline c p d (C & M & R). rewrite schema_hierarchy. cbn [gen]. rewrite M. reflexivity. Qed.
Print Assumptions C65_schema.

(** * Base classes leave no trace but in the result flag *)

(** C65: class_traits lists the members of the class and its bases in that order. *)
Theorem C65_traits : forall A (p : persist A), chained p -> member_types p = in_order p /\ member_count p = List.length (in_order p).
Proof. intros A p C. split; [now apply builder_spec|now apply counter_spec]. Qed.
Print Assumptions C65_traits.

(** C65: a derived class is serialized like a class without bases that has all the members. *)
Theorem C65_flat_serialize : forall p ctx tab, serialize_object p ctx tab = serialize_object (Own (in_order p)) ctx tab.
Proof. intros p ctx tab. rewrite !serialize_hierarchy, in_order_own. reflexivity. Qed.
Print Assumptions C65_flat_serialize.

(** C65: and described like one. *)
Theorem C65_flat_schema : forall f p d, schema_visit f p d = schema_visit f (Own (in_order p)) d.
Proof. intros f p d. rewrite !schema_hierarchy, in_order_own. reflexivity. Qed.
Print Assumptions C65_flat_schema.

(** C65: it is written like one, unless a member fails. This and the last two hold also if an
    archive returned is discarded. *)
Theorem C65_flat_write : forall p ctx tab tab' evs, write_object (Own (in_order p)) ctx tab = WRet true tab' evs ->
  write_object p ctx tab = WRet true tab' evs.
Proof. exact flat_write. Qed.
Print Assumptions C65_flat_write.

(** C65: if one fails, the members before it have been written, and that one in part. Either
    the failure is reported, which is so exactly if the members that the first archive visits
    fail without the others; or the object is ended as if the rest of the members was not
    there. *)
Theorem C65_flat_write_fails : forall p ctx tab tab' evs, chained p -> write_object (Own (in_order p)) ctx tab = WRet false tab' evs ->
  let first := write_object (Own (firstn (uncopied p) (in_order p))) ctx tab in
  first = WRet false tab' evs /\ write_object p ctx tab = WRet false tab' evs \/
  (exists tab1 evs1, first = WRet true tab1 evs1) /\ write_object p ctx tab = WRet true tab' (evs ++ [EEndObject]).
Proof. exact flat_write_fails. Qed.
Print Assumptions C65_flat_write_fails.

(** C65: the same values are read, and the same objects are referred to; the same exception is
    thrown. *)
Theorem C65_flat_deserialize : forall e exc fs p ctx loc st,
  match deserialize_object e exc fs (Own (in_order p)) ctx loc st with
  | DRet _ st' v => exists ok, deserialize_object e exc fs p ctx loc st = DRet ok st' v
  | r => deserialize_object e exc fs p ctx loc st = r
  end.
Proof. exact flat_deserialize. Qed.
Print Assumptions C65_flat_deserialize.

(** Three levels: the grandparent has "id"; the parent calls it first and adds "w" and "n"; the
    child has "x" and "y" and calls the parent last. *)
Definition req (name : string) (t : ty) : member := {| m_name := name; m_kind := MRequired; m_ty := t |}.
Definition maybe (name : string) (t : ty) : member := {| m_name := name; m_kind := MOptional; m_ty := t |}.

Definition family (x : fl) : persist (member * val) :=
  Before [(req "x" TDouble, VFlt x); (maybe "y" TBool, VNone)]
    (After (Own [(req "id" (TInt int32), VInt 7)]) [(req "w" TDouble, VFlt FNan); (maybe "n" TString, VSome (VStr "a"))]).

Definition family_env : env := {|
  classes := [{| c_members := [req "x" TDouble; maybe "y" TBool; req "id" (TInt int32); req "w" TDouble; maybe "n" TString];
                 c_root := 2; c_default := []; c_value := [] |}];
  tick := 1000000000; endian := little; after := fun _ => []; less := fun _ _ _ => false;
  iteration := fun keys => seq 0 (List.length keys) |}.

Example C65_stands : forall x, stands_for family_env 0 (pmap fst (family x)) /\ object_of (family x) = VObj [VFlt x; VNone; VInt 7; VFlt FNan; VSome (VStr "a")].
Proof. intros x. split; [split; [cbn; tauto|]|]; repeat split. Qed.

(** The number "w" cannot be written. Serializing leaves it out; writing ends the object there
    and reports success, as it is not the first archive that visits "w", whereas a class
    without bases reports it; and so does the class with the number at "x". *)
Example C65_example :
  let parts x := pmap (fun q => (fst q, wmpart (wr family_env) (snd q))) (family x) in
  serialize_object (pmap (fun q => (fst q, mpart (ser family_env) (snd q))) (family (FZero false))) [] [] =
    SOk [] (JObj [("x", JDbl (FZero false)); ("id", JInt 7); ("n", JStr "a")]) /\
  write_object (parts (FZero false)) [] [] = WRet true [] [EStartObject; EKey "x"; EDbl (FZero false); EKey "id"; EInt 7; EKey "w"; EEndObject] /\
  write_object (Own (in_order (parts (FZero false)))) [] [] = WRet false [] [EStartObject; EKey "x"; EDbl (FZero false); EKey "id"; EInt 7; EKey "w"] /\
  write_object (parts FNan) [] [] = WRet false [] [EStartObject; EKey "x"] /\
  map fst (member_types (pmap (fun q => (m_name (fst q), tt)) (family FNan))) = ["x"; "y"; "id"; "w"; "n"] /\ member_count (family FNan) = 5.
Proof. vm_compute. repeat split. Qed.

(** A document without "w" and "x": the flag of the first archive is that of "y"; values are read and
    the members that are missing are unchanged. *)
Example C65_example_read :
  let j := JObj [("n", JStr "b"); ("id", JInt 8)] in
  deserialize family_env (TClass 0) j (object_of (family FNan)) = DRet false start (VObj [VFlt FNan; VNone; VInt 8; VFlt FNan; VSome (VStr "b")]) /\
  let j := JObj [("n", JStr "b"); ("id", JInt 8); ("x", JDbl (FZero true))] in
  deserialize family_env (TClass 0) j (object_of (family FNan)) = DRet true start (VObj [VFlt (FZero true); VNone; VInt 8; VFlt FNan; VSome (VStr "b")]) /\
  deserialize_throw family_env (TClass 0) j = Threw (MissingProperty "w") ["/"%char].
Proof. vm_compute. repeat split. Qed.

(** The schema lists the members in that order. *)
Example C65_example_schema :
  gen family_env (fun _ => "F") 3 true (TClass 0) [] =
  GOk (SObject (Some [("x", SFund "number" None None); ("y", SFund "boolean" None None); ("id", SSigned (-2147483648) 2147483647); ("w", SFund "number" None None); ("n", SFund "string" None None)])
         (Some ["x"; "id"; "w"]) (Some (inl false))) [] /\
  schema_visit (gen family_env (fun _ => "F") 2 false) (pmap fst (family FNan)) [] =
  GOk ([("x", SFund "number" None None); ("y", SFund "boolean" None None); ("id", SSigned (-2147483648) 2147483647); ("w", SFund "number" None None); ("n", SFund "string" None None)], ["x"; "id"; "w"]) [].
Proof. vm_compute. repeat split. Qed.

(** * Two bases

    auto r = this->Base1::persist(ar); return this->Base2::persist(r) & x; *)
Definition two_bases (w : fl) : persist (member * val) :=
  Base (Own [(req "id" (TInt int32), VInt 7)]) (Base (After (Own [(req "a" TBool, VBool true)]) [(req "w" TDouble, VFlt w)]) (Own [(req "x" TBool, VBool false)])).

Example C65_example_two : chained (two_bases FNan) /\ uncopied (two_bases FNan) = 1 /\
  map (fun q => m_name (fst q)) (member_types (two_bases FNan)) = ["id"; "a"; "w"; "x"] /\
  write_object (pmap (fun q => (fst q, wmpart (wr family_env) (snd q))) (two_bases FNan)) [] [] =
    WRet true [] [EStartObject; EKey "id"; EInt 7; EKey "a"; EBool true; EKey "w"; EEndObject].
Proof. vm_compute. repeat split. Qed.

(** this->Base1::persist(ar); return this->Base2::persist(ar) & x; *)
Definition discarding (w : fl) : persist (member * val) :=
  Aside (After (Own [(req "a" TBool, VBool true)]) [(req "w" TDouble, VFlt w)]) (Base (Own [(req "id" (TInt int32), VInt 7)]) (Own [(req "x" TBool, VBool false)])).

(** C65: the members of a base whose archive is discarded are not among those of class_traits,
    which the parser uses, although they are written and are in the schema. *)
Theorem C65_discarded_refuted : exists p : persist (member * val),
  map fst (match serialize_object (pmap (fun q => (fst q, mpart (ser family_env) (snd q))) p) [] [] with SOk _ (JObj l) => l | _ => [] end) = ["a"; "w"; "id"; "x"] /\
  map (fun q => m_name (fst q)) (member_types p) = ["id"; "x"] /\ member_count p = 2.
Proof. exists (discarding (FZero false)). vm_compute. repeat split. Qed.
Print Assumptions C65_discarded_refuted.

(** C65: and if such a member fails, the calls made on the writer are not those of a document,
    although success is reported: the name "w" is followed by the name "id". *)
Theorem C65_discarded_calls_refuted : exists p,
  write_object p [] [] = WRet true [] [EStartObject; EKey "a"; EBool true; EKey "w"; EKey "id"; EInt 7; EKey "x"; EBool false; EEndObject].
Proof. exists (pmap (fun q => (fst q, wmpart (wr family_env) (snd q))) (discarding FNan)). vm_compute. reflexivity. Qed.
Print Assumptions C65_discarded_calls_refuted.
