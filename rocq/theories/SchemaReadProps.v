(** Property C51: documents that the schema accepts. *)
From Coq Require Import List Arith ZArith NArith Ascii String Bool Lia Relations.
From Verif Require Import Base Float NumericModel NumericSpec Json Types DeserializeModel DenoteSpec RoundSpec DenoteFacts
  SchemaModel SchemaSpec SchemaProof SchemaProps SchemaGenSpec SchemaReadSpec SchemaReadProof SafetySpec SafetyProps CulpritSpec SchemaReadAll.
Import ListNotations.
Local Open Scope string_scope.
Local Open Scope list_scope.

(** C51: a document that the schema of a type accepts can be read as a value of the type, for
    types without variants, shared pointers, times and dates. *)
Theorem C51_accepted_is_read : forall e tn t n schema d j, ordinary e -> ordinary_type t -> named e -> type_names tn -> timeless_classes e -> timeless t = true ->
  schema_document e tn n t = GOk schema d -> accepts schema j -> whole_as_integers j = true -> exists v, deserialize_throw e t j = Returned v.
Proof.
  intros e tn t n schema d j O T Nm [Inj Ord] Tc Ti G A W.
  destruct (schema_read e tn Inj Ord Nm (proj1 O) Tc t n schema d j (proj1 T) Ti G A W (dinit e t)) as (v & Dv). exists v. now apply accepts_exactly.
Qed.
Print Assumptions C51_accepted_is_read.

Definition ex_record : cls := {|
  c_members := [{| m_name := "year"; m_kind := MOptional; m_ty := TInt {| width := 16; is_signed := true |} |};
                {| m_name := "tracks"; m_kind := MRequired; m_ty := TVector (TUnique (TClass 0)) |};
                {| m_name := "marks"; m_kind := MRequired; m_ty := TMap true (TInt {| width := 8; is_signed := false |}) |};
                {| m_name := "first"; m_kind := MOptional; m_ty := TClass 0 |};
                {| m_name := "cover"; m_kind := MRequired; m_ty := TArray 2 TBytes |}];
  c_root := 5; c_default := []; c_value := [] |}.
Definition ex_records : env := {|
  classes := [ex_track; ex_record]; tick := 1000000000; endian := Base64Model.little; after := fun _ => []; less := fun _ _ _ => false; iteration := fun keys => seq 0 (List.length keys) |}.

(** Members in any order, integers where numbers are expected, padding bits that are not zero. *)
Definition ex_record_document : json :=
  JObj [("cover", JArr [JStr "Zh=="; JStr ""]); ("marks", JObj [("b", JInt 255); ("a", JInt 0)]);
        ("tracks", JArr [JObj [("level", JArr [JInt 3; JBool true]); ("name", JStr "a")]])].

Example C51_example : ordinary ex_records /\ ordinary_type (TClass 1) /\ named ex_records /\ timeless_classes ex_records /\ whole_as_integers ex_record_document = true /\
  (exists schema d, schema_document ex_records ex_names 9 (TClass 1) = GOk schema d /\ accepts schema ex_record_document) /\
  deserialize_throw ex_records (TClass 1) ex_record_document =
    Returned (VObj [VNone; VList [VPtr (VObj [VStr "a"; VList [VFlt (FFin false 3 0); VBool true]])]; VMap [("a", VInt 0); ("b", VInt 255)]; VNone;
                    VList [VBytes (list_ascii_of_string "f"); VBytes []]]).
Proof.
  assert (Cl : forall (P : cls -> Prop), P ex_track -> P ex_record -> P no_class -> forall c, P (class_of ex_records c)).
  { intros P A B C [|[|[|c]]]; auto. }
  split; [split; [|split]|split; [now split|split; [|split; [|split; [reflexivity|split; [|vm_compute; reflexivity]]]]]].
  - intros c. apply (Cl (fun k => forallb (fun m => plain (m_ty m)) (c_members k) = true)); reflexivity.
  - intros c. apply (Cl (fun k => forallb (fun m => real_ints (m_ty m)) (c_members k) = true)); reflexivity.
  - reflexivity.
  - intros c. apply (Cl (fun k => NoDup (map m_name (c_members k)))); cbn; repeat constructor; cbn; intuition discriminate.
  - intros c. apply (Cl (fun k => forall m, In m (c_members k) -> timeless (m_ty m) = true)); intros m I; cbn in I; repeat (destruct I as [<-|I]; [reflexivity|]); destruct I.
  - eexists. eexists. split; [vm_compute; reflexivity|]. refute 9.
Qed.

(** 1.0 is an integer of JSON Schema, but not for the deserializer. *)
Theorem C51_whole_doubles_refuted : exists e tn t j schema d why path, ordinary e /\ type_names tn /\ ordinary_type t /\ timeless t = true /\
  schema_document e tn 9 t = GOk schema d /\ accepts schema j /\ deserialize_throw e t j = Threw why path.
Proof.
  exists ex_records, ex_names, (TInt int32), (JDbl (FFin false 1 0)). do 4 eexists. split; [apply C51_example|]. split; [exact ex_type_names|]. split; [now split|]. split; [reflexivity|].
  split; [vm_compute; reflexivity|]. split; [refute 5|]. vm_compute. reflexivity.
Qed.
Print Assumptions C51_whole_doubles_refuted.

(** Times with an offset, and dates outside of the range of the clock. *)
Theorem C51_times_refuted : exists e tn j schema d why path, ordinary e /\ type_names tn /\
  schema_document e tn 9 TTime = GOk schema d /\ accepts schema j /\ whole_as_integers j = true /\ deserialize_throw e TTime j = Threw why path.
Proof.
  exists ex_records, ex_names, (JStr "2020-01-31T12:00:00+01:00"). do 4 eexists. split; [apply C51_example|]. split; [exact ex_type_names|].
  split; [vm_compute; reflexivity|]. split; [refute 5|]. split; [reflexivity|]. vm_compute. reflexivity.
Qed.
Print Assumptions C51_times_refuted.

Theorem C51_dates_refuted : exists e tn j schema d, ordinary e /\ type_names tn /\
  schema_document e tn 9 TDate = GOk schema d /\ accepts schema j /\ whole_as_integers j = true /\ forall v, deserialize_throw e TDate j <> Returned v.
Proof.
  exists ex_records, ex_names, (JStr "2500-01-31"). do 2 eexists. split; [apply C51_example|]. split; [exact ex_type_names|].
  split; [vm_compute; reflexivity|]. split; [refute 5|]. split; [reflexivity|]. intros v E. vm_compute in E. discriminate.
Qed.
Print Assumptions C51_dates_refuted.

(** The other way round: unknown members are ignored by the deserializer, but the schema does
    not allow them. *)
Theorem C51_read_is_accepted_refuted : exists e tn t j schema d v, ordinary e /\ type_names tn /\ ordinary_type t /\ timeless_classes e /\ whole_as_integers j = true /\
  schema_document e tn 9 t = GOk schema d /\ deserialize_throw e t j = Returned v /\ rejects schema j.
Proof.
  exists ex_records, ex_names, (TClass 0), (JObj [("name", JStr "a"); ("level", JArr [JInt 3; JBool true]); ("note", JNull)]). do 3 eexists.
  split; [apply C51_example|]. split; [exact ex_type_names|]. split; [now split|]. split; [apply C51_example|]. split; [reflexivity|].
  split; [vm_compute; reflexivity|]. split; [vm_compute; reflexivity|]. refute 7.
Qed.
Print Assumptions C51_read_is_accepted_refuted.

(** C51: with variants and shared pointers, if no object of the document has a member $ref; both ways of
    deserializing succeed. *)
Theorem C51_all : forall e tn t n schema d j obj, real_classes e -> (0 < tick e)%Z -> named e -> type_names tn -> real_ints t = true ->
  no_pointer e t -> ~ reachable e TTime t -> ~ reachable e TDate t -> (forall u, ~ reachable e (TShared u) t) \/ no_refs j = true ->
  schema_document e tn n t = GOk schema d -> accepts schema j -> whole_as_integers j = true ->
  (exists v, deserialize_throw e t j = Returned v) /\ (exists st v, deserialize e t j obj = DRet true st v).
Proof.
  intros e tn t n schema d j obj Rc Tk Nm [Inj Ord] Ri Np Tt Td Sh G A W.
  pose proof (schema_read_all e tn Inj Ord Nm Rc Tk t n schema d j Ri Np (conj Tt Td) Sh G A W) as X. split.
  - destruct (X true (dinit e t)) as (st & v & E). exists v. unfold deserialize_throw. now rewrite E.
  - exact (X false obj).
Qed.
Print Assumptions C51_all.

Definition ex_leaf : cls := {|
  c_members := [{| m_name := "value"; m_kind := MRequired; m_ty := TVariant [TInt {| width := 8; is_signed := true |}; TString] |};
                {| m_name := "mark"; m_kind := MOptional; m_ty := TString |}];
  c_root := 2; c_default := []; c_value := [] |}.
Definition ex_tree : cls := {|
  c_members := [{| m_name := "first"; m_kind := MOptional; m_ty := TShared (TClass 0) |};
                {| m_name := "rest"; m_kind := MRequired; m_ty := TVariant [TVector (TInt int32); TClass 0; TVector (TClass 0)] |}];
  c_root := 2; c_default := []; c_value := [] |}.
Definition ex_trees : env := {|
  classes := [ex_leaf; ex_tree]; tick := 1000000000; endian := Base64Model.little; after := fun _ => []; less := fun _ _ _ => false; iteration := fun keys => seq 0 (List.length keys) |}.

Definition ex_tree_document : json :=
  JObj [("rest", JArr [JObj [("value", JInt (-5))]; JObj [("value", JStr "b")]]); ("first", JObj [("value", JStr "a")])].

Definition ex_tree_parts : list ty :=
  [TClass 1; TShared (TClass 0); TVariant [TVector (TInt int32); TClass 0; TVector (TClass 0)]; TClass 0; TVector (TInt int32); TVector (TClass 0); TInt int32;
   TVariant [TInt {| width := 8; is_signed := true |}; TString]; TInt {| width := 8; is_signed := true |}; TString].

Example C51_all_example : real_classes ex_trees /\ named ex_trees /\ no_pointer ex_trees (TClass 1) /\ ~ reachable ex_trees TTime (TClass 1) /\
  no_refs ex_tree_document = true /\ whole_as_integers ex_tree_document = true /\
  (exists schema d, schema_document ex_trees ex_names 9 (TClass 1) = GOk schema d /\ accepts schema ex_tree_document) /\
  exists a, deserialize_throw ex_trees (TClass 1) ex_tree_document =
    Returned (VObj [VSome (VShared a (VObj [VVariant 1 (VStr "a"); VNone]));
                    VVariant 2 (VList [VObj [VVariant 0 (VInt (-5)); VNone]; VObj [VVariant 1 (VStr "b"); VNone]])]).
Proof.
  assert (Cl : forall (P : cls -> Prop), P ex_leaf -> P ex_tree -> P no_class -> forall c, P (class_of ex_trees c)) by (intros P A B C [|[|[|c]]]; auto).
  split; [|split; [|split; [|split; [|split; [reflexivity|split; [reflexivity|split]]]]]].
  - intros c. apply (Cl (fun k => forallb (fun m => real_ints (m_ty m)) (c_members k) = true)); reflexivity.
  - intros c. apply (Cl (fun k => NoDup (map m_name (c_members k)))); cbn; repeat constructor; cbn; intuition discriminate.
  - intros u H. reaches ex_tree_parts.
  - intros H. reaches ex_tree_parts.
  - eexists. eexists. split; [vm_compute; reflexivity|]. refute 12.
  - eexists. vm_compute. reflexivity.
Qed.

(** A map may have a member $ref. *)
Theorem C51_references_refuted : exists e tn t j schema d, real_classes e /\ named e /\ type_names tn /\ real_ints t = true /\ no_pointer e t /\ whole_as_integers j = true /\
  schema_document e tn 9 t = GOk schema d /\ accepts schema j /\ deserialize_throw e t j = TUndef.
Proof.
  exists ex_trees, ex_names, (TShared (TMap true TBool)), (JObj [("$ref", JBool true)]). do 2 eexists. split; [apply C51_all_example|]. split; [apply C51_all_example|].
  split; [exact ex_type_names|]. split; [reflexivity|]. split; [|split; [reflexivity|split; [vm_compute; reflexivity|split; [refute 6|vm_compute; reflexivity]]]].
  intros u H. reaches [TShared (TMap true TBool); TMap true TBool; TBool].
Qed.
Print Assumptions C51_references_refuted.
