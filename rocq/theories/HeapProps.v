(** Property C56: objects that point to each other. *)
From Coq Require Import List Arith ZArith NArith Ascii String Bool Lia Permutation.
From Verif Require Import Base Float Json PathModel Types SerializeModel Events WriteModel WriteSpec DenoteSpec RoundSpec DocSpec GraphSpec HeapModel HeapSpec HeapProof
  HeapWriteModel HeapWriteProof HeapWriteTree.
Import ListNotations.
Local Open Scope string_scope.
Local Open Scope list_scope.

(** C56: what contains only finitely much is serialized and written as the tree of its contents,
    whatever comes of it, if the stack is large enough. *)
Theorem C56_finite : forall e h t x v, tree h x v -> kinds e h t x -> exists n, forall m, n <= m ->
  heap_to_document e h m t x = HDone (serialize_to_document e t v) /\
  forall render str, heap_to_string render e h m t x str = match write_to_string render e t v str with Some (ok, s) => WString ok s | None => WStringUndef end.
Proof. exact tree_written. Qed.
Print Assumptions C56_finite.

(** Objects with a number and an optional raw pointer to another one. *)
Example C56_finite_example :
  let e := {| classes := [{| c_members := [{| m_name := "x"; m_kind := MRequired; m_ty := TDouble |}; {| m_name := "to"; m_kind := MOptional; m_ty := TPtr (TClass 0) |}];
                             c_root := 2; c_default := [VIndet; VNone]; c_value := [VIndet; VNone] |}];
    tick := 1; endian := Base64Model.little; after := fun _ => []; less := fun _ _ _ => false; iteration := fun keys => seq 0 (List.length keys) |} in
  let h := fun a => match a with 0 => HObj [HLeaf (VFlt (FZero false)); HSome (HRaw 1)] | _ => HObj [HLeaf (VFlt (FInf true)); HNone] end in
  (* the number of the second object cannot be written: left out in the document, and no text *)
  heap_to_document e h 9 (TClass 0) (h 0) = HDone (SOk [] (JObj [("x", JDbl (FZero false)); ("to", JObj [])])) /\
  (forall render, heap_to_string render e h 9 (TClass 0) (h 0) "old" = WString false "old") /\
  forall render, heap_to_string render e h 2 (TClass 0) (h 0) "old" = WStringOverflow.
Proof. repeat split. Qed.

(** C56: finitely many objects that point to each other without cycles are serialized, to a
    document and to a string. *)
Theorem C56_acyclic : forall e h T size t x, fair e -> sane e h T t x -> bounded h size e t x -> ~ cyclic e h t x ->
  exists v n tab j, tree h x v /\ serialize_to_document e t v = SOk tab j /\
    forall m, n <= m -> heap_to_document e h m t x = HDone (SOk tab j) /\
      forall render str, heap_to_string render e h m t x str = WString true (document_to_string render j).
Proof.
  intros e h T size t x Hi Sx B C. destruct (acyclic_serialized e h T Hi size t x Sx B C) as (v & n & tab & j & V & E & D). exists v, n, tab, j.
  split; [exact V|]. split; [exact E|]. intros m M. split; [now apply D|]. intros render str.
  pose proof (heap_string e h T Hi render t x m str Sx) as W. now rewrite (D m M) in W.
Qed.
Print Assumptions C56_acyclic.

(** C56: a cycle, of pointers of any kind, exhausts the stack however large it is; shared pointers
    are not detected. *)
Theorem C56_cyclic : forall e h T t x, fair e -> sane e h T t x -> cyclic e h t x ->
  forall n, heap_to_document e h n t x = HOverflow /\ forall render str, heap_to_string render e h n t x str = WStringOverflow.
Proof.
  intros e h T t x Hi Sx C n. pose proof (cycle_overflows e h T Hi t x Sx C n) as O. split; [exact O|]. intros render str.
  pose proof (heap_string e h T Hi render t x n str Sx) as W. now rewrite O in W.
Qed.
Print Assumptions C56_cyclic.

(** Nodes with a name, shared successors, and a raw pointer to a parent that may be absent. *)
Definition ex_vertex : cls := {|
  c_members := [{| m_name := "name"; m_kind := MRequired; m_ty := TString |};
                {| m_name := "next"; m_kind := MRequired; m_ty := TVector (TShared (TClass 0)) |};
                {| m_name := "parent"; m_kind := MOptional; m_ty := TPtr (TClass 0) |}];
  c_root := 3; c_default := [VStr ""; VList []; VNone]; c_value := [VStr ""; VList []; VNone] |}.
Definition ex_vertices : env := {|
  classes := [ex_vertex]; tick := 1000000000; endian := Base64Model.little; after := fun _ => [];
  less := fun _ _ _ => false; iteration := fun keys => seq 0 (List.length keys) |}.

Example ex_vertices_fair : fair ex_vertices.
Proof. intros keys. apply Permutation_refl. Qed.

Definition vertex (name : string) (next : list nat) (parent : hval) : hval := HObj [HLeaf (VStr name); HList (map HShared next); parent].

(** Objects of this class that point only to such objects. *)
Definition ex_closed (h : heap) : Prop := forall a, exists name next parent, h a = vertex name next parent /\ (parent = HNone \/ exists b, parent = HSome (HRaw b)).

(** What such objects lead to. *)
Definition ex_seen (h : heap) (t : ty) (x : hval) : Prop :=
  (exists a, t = TClass 0 /\ x = h a) \/ (exists s, t = TString /\ x = HLeaf (VStr s)) \/ (exists l, t = TVector (TShared (TClass 0)) /\ x = HList (map HShared l)) \/
  (exists a, t = TShared (TClass 0) /\ x = HShared a) \/ (exists a, t = TPtr (TClass 0) /\ x = HRaw a).

Lemma ex_led : forall h, ex_closed h -> forall t x u y, leads ex_vertices h t x u y -> ex_seen h t x -> ex_seen h u y.
Proof.
  intros h C t x u y L. induction L as [|t x u y w z P L IH]; intros V; [exact V|]. apply IH. clear L IH w z. unfold ex_seen in *.
  destruct V as [(a & -> & ->)|[(s & -> & ->)|[(l & -> & ->)|[(a & -> & ->)|(a & -> & ->)]]]].
  - destruct (C a) as (name & next & parent & E & Pa). rewrite E in P. inversion P as [| | | | | |? ? i m ? Nm Nx Km|? ? i m ? Nm Nx Km| | | |]; subst.
    + destruct i as [|[|[|i]]]; cbn in Nm, Nx; [| | |destruct i; discriminate]; injection Nm as <-; injection Nx as <-; eauto 9. now destruct Km.
    + destruct i as [|[|[|i]]]; cbn in Nm, Nx; [| | |destruct i; discriminate]; injection Nm as <-; injection Nx as Nx; try discriminate Km.
      destruct Pa as [-> |(b & ->)]; [discriminate|]. injection Nx as <-. eauto 9.
  - inversion P.
  - inversion P as [? ? ? I| | | | | | | | | | |]; subst. apply in_map_iff in I. destruct I as (a & <- & _). eauto 9.
  - inversion P; subst. eauto.
  - inversion P; subst. eauto.
Qed.

Lemma ex_sane : forall h, ex_closed h -> forall t x, ex_seen h t x -> sane ex_vertices h (fun _ => TClass 0) t x.
Proof.
  intros h C t x V u y L. apply (ex_led h C _ _ _ _ L) in V. destruct V as [(a & -> & ->)|[(s & -> & ->)|[(l & -> & ->)|[(a & -> & ->)|(a & -> & ->)]]]].
  - destruct (C a) as (name & next & parent & -> & Pa). apply shaped_class. cbn.
    constructor; [split; discriminate|]. constructor; [split; discriminate|]. constructor; [|constructor]. cbn. destruct Pa as [-> |(b & ->)]; eauto.
  - apply (shaped_leaf _ _ _ _ (JStr s)); reflexivity.
  - apply shaped_vector.
  - apply (shaped_shared _ (fun _ => TClass 0)).
  - apply (shaped_raw _ (fun _ => TClass 0)).
Qed.

(** A diamond: the object that is reached on two ways is referred to on the second. *)
Definition ex_diamond_heap : heap := fun a =>
  match a with 0 => vertex "a" [1; 2] HNone | 1 => vertex "b" [3] HNone | 2 => vertex "c" [3] HNone | _ => vertex "d" [] HNone end.

Example C56_acyclic_example : ex_closed ex_diamond_heap /\ (exists v, tree ex_diamond_heap (HShared 0) v) /\
  heap_to_document ex_vertices ex_diamond_heap 8 (TShared (TClass 0)) (HShared 0) = HOverflow /\
  exists tab, heap_to_document ex_vertices ex_diamond_heap 9 (TShared (TClass 0)) (HShared 0) = HDone (SOk tab
    (JObj [("name", JStr "a"); ("next", JArr [
       JObj [("name", JStr "b"); ("next", JArr [JObj [("name", JStr "d"); ("next", JArr [])]])];
       JObj [("name", JStr "c"); ("next", JArr [JObj [("$ref", JStr "/next/0/next/0")]])]])])).
Proof.
  split; [|split; [|split]].
  - intros [|[|[|[|a]]]]; cbn; eauto 9.
  - eexists. repeat (constructor; cbn [ex_diamond_heap vertex map]); now left.
  - vm_compute. reflexivity.
  - eexists. vm_compute. reflexivity.
Qed.

(** The conditions hold in this case. *)
Example C56_acyclic_sane : sane ex_vertices ex_diamond_heap (fun _ => TClass 0) (TShared (TClass 0)) (HShared 0) /\ ~ cyclic ex_vertices ex_diamond_heap (TShared (TClass 0)) (HShared 0).
Proof.
  destruct C56_acyclic_example as (C & _ & _ & tab & D). assert (V : ex_seen ex_diamond_heap (TShared (TClass 0)) (HShared 0)) by (unfold ex_seen; eauto 9).
  pose proof (ex_sane _ C _ _ V) as Sn. split; [exact Sn|]. intros Cy. destruct (C56_cyclic _ _ _ _ _ ex_vertices_fair Sn Cy 9) as [O _]. rewrite O in D. discriminate D.
Qed.

(** Two nodes, the second with a shared pointer back to the first. *)
Definition ex_ring : heap := fun a => match a with 0 => vertex "a" [1] HNone | _ => vertex "b" [0] HNone end.

Example C56_shared_cycle : forall n, heap_to_document ex_vertices ex_ring n (TShared (TClass 0)) (HShared 0) = HOverflow.
Proof.
  intros n. refine (proj1 (C56_cyclic ex_vertices ex_ring (fun _ => TClass 0) _ _ ex_vertices_fair _ _ n)).
  - apply ex_sane; [intros [|a]; cbn; eauto 9|unfold ex_seen; eauto 9].
  - exists (TShared (TClass 0)), (HShared 0), (TClass 0), (ex_ring 0). split; [apply leads_here|]. split; [constructor|].
    eapply leads_on; [eapply (hpart_member _ _ 0 _ 1); [reflexivity|reflexivity|discriminate]|]. eapply leads_on; [apply hpart_vector; left; reflexivity|].
    eapply leads_on; [apply hpart_shared|]. eapply leads_on; [eapply (hpart_member _ _ 0 _ 1); [reflexivity|reflexivity|discriminate]|].
    eapply leads_on; [apply hpart_vector; left; reflexivity|]. apply leads_here.
Qed.

(** A child with a raw pointer to its parent. *)
Definition ex_family : heap := fun a => match a with 0 => vertex "parent" [1] HNone | _ => vertex "child" [] (HSome (HRaw 0)) end.

Example C56_parent_cycle : forall n render str, heap_to_string render ex_vertices ex_family n (TClass 0) (ex_family 0) str = WStringOverflow.
Proof.
  intros n. refine (proj2 (C56_cyclic ex_vertices ex_family (fun _ => TClass 0) _ _ ex_vertices_fair _ _ n)).
  - apply ex_sane; [intros [|a]; cbn; eauto 9|unfold ex_seen; eauto 9].
  - exists (TClass 0), (ex_family 0), (TVector (TShared (TClass 0))), (HList [HShared 1]). split; [apply leads_here|].
    split; [apply (hpart_member ex_vertices ex_family 0 [HLeaf (VStr "parent"); HList [HShared 1]; HNone] 1 {| m_name := "next"; m_kind := MRequired; m_ty := TVector (TShared (TClass 0)) |}); [reflexivity|reflexivity|discriminate]|].
    eapply leads_on; [apply hpart_vector; left; reflexivity|]. eapply leads_on; [apply hpart_shared|].
    eapply leads_on; [eapply (hpart_optional _ _ 0 _ 2); [reflexivity|reflexivity|reflexivity]|]. eapply leads_on; [apply hpart_raw|]. apply leads_here.
Qed.

(** C56: that everything can be written is needed: a number that cannot be written ends the pair
    before the pointer that closes the cycle, and the member is left out. *)
Definition ex_cut : env := {|
  classes := [{| c_members := [{| m_name := "both"; m_kind := MRequired; m_ty := TPair TDouble (TPtr (TClass 0)) |}]; c_root := 1; c_default := [VIndet]; c_value := [VIndet] |}];
  tick := 1; endian := Base64Model.little; after := fun _ => []; less := fun _ _ _ => false; iteration := fun keys => seq 0 (List.length keys) |}.

Theorem C56_failure_first_refuted : exists e h t x n, fair e /\ cyclic e h t x /\ heap_to_document e h n t x = HDone (SOk [] (JObj [])).
Proof.
  exists ex_cut, (fun _ => HObj [HList [HLeaf (VFlt (FInf false)); HRaw 0]]), (TClass 0), (HObj [HList [HLeaf (VFlt (FInf false)); HRaw 0]]), 5.
  split; [intros keys; apply Permutation_refl|]. split; [|reflexivity]. eexists. eexists. eexists. eexists. split; [apply leads_here|].
  split; [eapply (hpart_member _ _ 0 _ 0); [reflexivity|reflexivity|discriminate]|].
  eapply leads_on; [eapply (hpart_pair _ _ _ _ _ 1); reflexivity|]. eapply leads_on; [apply hpart_raw|]. apply leads_here.
Qed.
Print Assumptions C56_failure_first_refuted.
