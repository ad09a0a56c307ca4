(** Properties C24 and C17: shared pointers. *)
From Coq Require Import List Arith ZArith NArith Ascii String Bool Lia Permutation Sorted.
From Verif Require Import Base Float NumericModel NumericSpec Json PathModel PathSpec Types SerializeModel DeserializeModel
  DenoteSpec RoundSpec DocSpec GraphSpec GraphProof DeserializeProps RoundProps.
Import ListNotations.
Local Open Scope string_scope.
Local Open Scope list_scope.

(** C24: what several shared pointers point to is written once and referred to elsewhere, and
    reading recreates the graph with the same sharing. *)
Theorem C24_sharing : forall e H T t v, real_classes e -> (0 < tick e)%Z -> named e -> iterates e -> printable e ->
  real_ints t = true -> holds e t v -> graph e H T t v ->
  exists tab j home, serialize_to_document e t v = SOk tab j /\ placed e home t v [] j /\
    exists r, distinct r v /\ deserialize_throw e t j = Returned (rename r v) /\ exists st, forall obj, deserialize e t j obj = DRet true st (rename r v).
Proof. exact shared_round_trip. Qed.
Print Assumptions C24_sharing.

(** A class of nodes with names and shared successors. *)
Definition ex_node : cls := {|
  c_members := [{| m_name := "name"; m_kind := MRequired; m_ty := TString |};
                {| m_name := "next"; m_kind := MRequired; m_ty := TVector (TShared (TClass 0)) |}];
  c_root := 2; c_default := [VStr ""; VList []]; c_value := [VStr ""; VList []] |}.
Definition ex_graph : env := {|
  classes := [ex_node]; tick := 1000000000; endian := Base64Model.little; after := fun _ => [];
  less := fun _ v w => match v, w with VShared a _, VShared b _ => Nat.ltb a b | _, _ => false end;
  iteration := fun keys => seq 0 (List.length keys) |}.

Ltac by_node c := destruct c as [|c]; [|unfold class_of; cbn; destruct c].

Example ex_graph_real : real_classes ex_graph.
Proof. intros c. by_node c; reflexivity. Qed.
Example ex_graph_named : named ex_graph.
Proof. intros c. by_node c; cbn; repeat (constructor; [cbn; intuition discriminate|]); constructor. Qed.
Example ex_graph_iterates : iterates ex_graph.
Proof. intros keys. cbn. apply Permutation_refl. Qed.
Example ex_graph_printable : printable ex_graph.
Proof.
  intros c m. by_node c; cbn; intros I; repeat (destruct I as [<-|I]; [split; [discriminate|]; cbn; repeat (constructor; [cbn; repeat split; discriminate|]); constructor|]); destruct I.
Qed.

(** A diamond, below it one node that is not shared but equal to another. *)
Definition ex_leaf : val := VObj [VStr "d"; VList []].
Definition ex_diamond : val :=
  VObj [VStr "a"; VList [VShared 7 (VObj [VStr "b"; VList [VShared 4 ex_leaf]]); VShared 9 (VObj [VStr "c"; VList [VShared 4 ex_leaf; VShared 5 ex_leaf]])]].

Definition ex_diamond_document : json :=
  JObj [("name", JStr "a"); ("next", JArr [
    JObj [("name", JStr "b"); ("next", JArr [JObj [("name", JStr "d"); ("next", JArr [])]])];
    JObj [("name", JStr "c"); ("next", JArr [JObj [("$ref", JStr "/next/0/next/0")]; JObj [("name", JStr "d"); ("next", JArr [])]])]])].

Example ex_diamond_holds : holds ex_graph (TClass 0) ex_diamond.
Proof. repeat first [(apply member_held; [discriminate|]) | (apply holds_class; cbn [c_members class_of classes ex_graph nth ex_node]) | constructor]. Qed.

Example ex_diamond_graph : graph ex_graph
  (fun a => match a with 7 => VObj [VStr "b"; VList [VShared 4 ex_leaf]] | 9 => VObj [VStr "c"; VList [VShared 4 ex_leaf; VShared 5 ex_leaf]] | _ => ex_leaf end)
  (fun _ => TClass 0) (TClass 0) ex_diamond.
Proof.
  unfold ex_diamond, ex_leaf. split; intros;
  repeat match goal with
  | _ => discriminate
  | I : In _ (_ :: _) |- _ => destruct I as [<-|I]
  | I : In _ [] |- _ => destruct I
  | E : nth_error (c_members _) ?i = Some _ |- _ => destruct i as [|[|i]]; cbn in E; [| |destruct i; discriminate]; injection E as <-; cbn in *
  | E : Some _ = Some _ |- _ => injection E as E; subst
  | P : vpart _ _ _ _ _ |- _ => inversion P; clear P; subst
  | O : occurs _ _ _ _ _ |- _ => inversion O; clear O; subst
  end; cbn; try (split; reflexivity); try tauto; try lia; intuition discriminate.
Qed.

Example C24_example : (exists tab, serialize_to_document ex_graph (TClass 0) ex_diamond = SOk tab ex_diamond_document) /\
  deserialize_throw ex_graph (TClass 0) ex_diamond_document =
    Returned (VObj [VStr "a"; VList [VShared 0 (VObj [VStr "b"; VList [VShared 1 ex_leaf]]); VShared 2 (VObj [VStr "c"; VList [VShared 1 ex_leaf; VShared 3 ex_leaf]])]]).
Proof. split; [eexists|]; vm_compute; reflexivity. Qed.

(** C24: a shared pointer to a shared pointer is registered in the place of what it points to;
    reading an alias of it is undefined. *)
Theorem C24_nested_pointers_refuted : exists e t v tab j, real_classes e /\ named e /\ iterates e /\ printable e /\ real_ints t = true /\ holds e t v /\
  serialize_to_document e t v = SOk tab j /\ deserialize_throw e t j = TUndef /\ forall obj, deserialize e t j obj = DUndef.
Proof.
  exists ex_graph, (TPair (TShared (TShared TBool)) (TShared (TShared TBool))), (VList [VShared 3 (VShared 5 (VBool true)); VShared 3 (VShared 5 (VBool true))]).
  eexists. eexists. split; [exact ex_graph_real|]. split; [exact ex_graph_named|]. split; [exact ex_graph_iterates|]. split; [exact ex_graph_printable|].
  split; [reflexivity|]. split; [repeat constructor|]. split; [vm_compute; reflexivity|]. split; [vm_compute; reflexivity|]. intros obj. destruct obj; vm_compute; reflexivity.
Qed.
Print Assumptions C24_nested_pointers_refuted.

(** C24: an object with a member "$ref" is taken for a reference. *)
Theorem C24_ref_member_refuted : exists e t v tab j, real_classes e /\ named e /\ iterates e /\ printable e /\ real_ints t = true /\ holds e t v /\
  serialize_to_document e t v = SOk tab j /\ deserialize_throw e t j = TUndef.
Proof.
  exists ex_graph, (TShared (TMap true TBool)), (VShared 3 (VMap [("$ref", VBool true)])).
  eexists. eexists. split; [exact ex_graph_real|]. split; [exact ex_graph_named|]. split; [exact ex_graph_iterates|]. split; [exact ex_graph_printable|].
  split; [reflexivity|]. split; [|split; [vm_compute; reflexivity|vm_compute; reflexivity]].
  apply holds_shared, holds_map; [|constructor; constructor]. constructor; [|constructor]. split; [reflexivity|constructor].
Qed.
Print Assumptions C24_ref_member_refuted.

(** C24: what a set points to is referred to by the path of the set; the reference is not
    found, and the reader that throws exceptions returns an object without it. *)
Theorem C24_sets_refuted : exists e t v tab j w, real_classes e /\ named e /\ iterates e /\ printable e /\ real_ints t = true /\ holds e t v /\
  serialize_to_document e t v = SOk tab j /\ deserialize_throw e t j = Returned w /\ (forall r, w <> rename r v) /\
  forall obj, exists st w', deserialize e t j obj = DRet false st w'.
Proof.
  exists ex_graph, (TPair (TSet (TShared TBool)) (TShared TBool)), (VList [VList [VShared 3 (VBool true)]; VShared 3 (VBool true)]).
  eexists. eexists. eexists. split; [exact ex_graph_real|]. split; [exact ex_graph_named|]. split; [exact ex_graph_iterates|]. split; [exact ex_graph_printable|].
  split; [reflexivity|]. split; [|split; [vm_compute; reflexivity|split; [vm_compute; reflexivity|split]]].
  - apply holds_pair; [|repeat constructor]. apply holds_set; repeat constructor.
  - intros r. cbn. discriminate.
  - intros obj. destruct obj as [| | | | | | | | |[|? [|? ?]]| | |[|? [|? ?]]| | | | |]; eexists; eexists; vm_compute; reflexivity.
Qed.
Print Assumptions C24_sets_refuted.

(** C24: nor is a reference found below a key with a slash. *)
Theorem C24_slash_refuted : exists e t v tab j w, real_classes e /\ named e /\ iterates e /\ printable e /\ real_ints t = true /\ holds e t v /\
  serialize_to_document e t v = SOk tab j /\ deserialize_throw e t j = Returned w /\ forall r, w <> rename r v.
Proof.
  exists ex_graph, (TMap true (TShared TBool)), (VMap [("a/b", VShared 3 (VBool true)); ("c", VShared 3 (VBool true))]).
  eexists. eexists. eexists. split; [exact ex_graph_real|]. split; [exact ex_graph_named|]. split; [exact ex_graph_iterates|]. split; [exact ex_graph_printable|].
  split; [reflexivity|]. split; [|split; [vm_compute; reflexivity|split; [vm_compute; reflexivity|]]].
  - apply holds_map; [|repeat constructor]. constructor; [|constructor; [|constructor]]; (split; [reflexivity|repeat constructor]).
  - intros r. cbn. discriminate.
Qed.
Print Assumptions C24_slash_refuted.

(** C17: shared pointers without aliases, whatever the names; the new addresses are different
    again. *)
Theorem C17_shared : forall e t v, real_classes e -> (0 < tick e)%Z -> named e -> iterates e ->
  real_ints t = true -> holds e t v -> simple e t v -> NoDup (addresses v) ->
  exists tab j, serialize_to_document e t v = SOk tab j /\ placed e homeless t v [] j /\
    exists r, distinct r v /\ deserialize_throw e t j = Returned (rename r v) /\ exists st, forall obj, deserialize e t j obj = DRet true st (rename r v).
Proof. exact unaliased_round_trip. Qed.
Print Assumptions C17_shared.

Example C17_shared_example : let t := TMap true (TVector (TShared TBool)) in let v := VMap [("a/b", VList [VShared 8 (VBool true); VShared 6 (VBool true)]); ("~", VList [])] in
  holds ex_graph t v /\ simple ex_graph t v /\ NoDup (addresses v) /\
  (exists tab, serialize_to_document ex_graph t v = SOk tab (JObj [("a/b", JArr [JBool true; JBool true]); ("~", JArr [])])) /\
  deserialize_throw ex_graph t (JObj [("a/b", JArr [JBool true; JBool true]); ("~", JArr [])]) = Returned (rename (fun a => if Nat.eqb a 8 then 0 else 1) v).
Proof.
  cbv zeta. split; [|split; [|split; [|split; [eexists|]; vm_compute; reflexivity]]].
  - apply holds_map; [|repeat constructor]. constructor; [|constructor; [|constructor]]; (split; [reflexivity|repeat constructor]).
  - split; intros; repeat match goal with
    | I : In _ (_ :: _) |- _ => destruct I as [I|I]; [first [injection I as <- <-|subst]|]
    | I : In _ [] |- _ => destruct I
    | P : vpart _ _ _ _ _ |- _ => inversion P; clear P; subst
    | O : occurs _ _ _ _ _ |- _ => inversion O; clear O; subst
    end; exact I.
  - cbn. constructor; [cbn; intuition discriminate|]. constructor; [easy|constructor].
Qed.
