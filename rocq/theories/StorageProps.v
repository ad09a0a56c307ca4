(** Property C63: a serialized document does not depend on the object that it was made from, except
    where the object refers to texts that it does not own. *)
From Coq Require Import List Arith ZArith NArith Ascii String Bool.
From Verif Require Import Base Float Json PathModel Types SerializeModel StorageModel StorageSpec StorageProof WriteProps.
Import ListNotations.
Local Open Scope string_scope.
Local Open Scope list_scope.

(** C63: when serialize_to_document returns, the document reads as the JSON of the object. *)
Theorem C63_same : forall e view t v,
  (forall tab j, serialize_to_document e t v = SOk tab j -> exists d, stored_document e view t v = SOk tab d /\ reads (fun s => s) d j) /\
  (forall tab d, stored_document e view t v = SOk tab d -> exists j, serialize_to_document e t v = SOk tab j /\ reads (fun s => s) d j).
Proof.
  intros e view t v. pose proof (store_same e view v t) as H. split; intros tab x E; rewrite E in H;
    [destruct (stored_document e view t v) as [tab' y|tab'|]|destruct (serialize_to_document e t v) as [tab' y|tab'|]]; cbn in H; try contradiction; destruct H as [-> K];
    exists y; (split; [reflexivity|]); eapply keeps_reads; [|exact K| |exact K]; auto.
Qed.
Print Assumptions C63_same.

(** C63: if no text of the object is a view, the document reads the same whatever becomes of the
    object. *)
Theorem C63_owned : forall e view t v tab d, (forall ctx, view ctx = false) -> stored_document e view t v = SOk tab d ->
  exists j, serialize_to_document e t v = SOk tab j /\ forall now j', reads now d j' <-> j' = j.
Proof.
  intros e view t v tab d N E. pose proof (store_same e view v t) as H. rewrite E in H.
  destruct (serialize_to_document e t v) as [tab' j|tab'|]; cbn in H; try contradiction. destruct H as [-> K]. exists j. split; [reflexivity|]. intros now j'.
  assert (R : reads now d j) by (eapply keeps_reads; [|exact K]; cbn; intros c V; rewrite N in V; discriminate).
  split; [intros R'; eapply reads_one; eassumption|now intros ->].
Qed.
Print Assumptions C63_owned.

(** C63: in any case, all of the document can be read as long as the memory that the views refer
    to is there, and only the texts at the views are read anew. *)
Theorem C63_views : forall e view t v tab d, stored_document e view t v = SOk tab d ->
  exists j, serialize_to_document e t v = SOk tab j /\
  forall now, exists j', (forall j'', reads now d j'' <-> j'' = j') /\ but_texts (fun ctx => view ctx = true) [] j j'.
Proof.
  intros e view t v tab d E. pose proof (store_same e view v t) as H. rewrite E in H.
  destruct (serialize_to_document e t v) as [tab' j|tab'|]; cbn in H; try contradiction. destruct H as [-> K]. exists j. split; [reflexivity|]. intros now.
  destruct (keeps_later _ now _ _ _ K) as (j' & R & B). exists j'. split; [|exact B]. intros j''. split; [intros R'; eapply reads_one; eassumption|now intros ->].
Qed.
Print Assumptions C63_views.

(** C63: the texts at the views are indeed read anew: with views, the document depends on what
    they refer to. *)
Theorem C63_owned_refuted : forall e view s now, view [] = true -> s <> "" -> now s <> s -> exists d,
  stored_document e view TString (VStr s) = SOk [] d /\ serialize_to_document e TString (VStr s) = SOk [] (JStr s) /\
  reads now d (JStr (now s)) /\ ~ reads now d (JStr s).
Proof.
  intros e view s now V N D. exists (SStr Outside s). unfold stored_document. cbn. rewrite V. destruct (String.eqb_spec s ""); [contradiction|]. cbn.
  split; [reflexivity|]. split; [reflexivity|]. split; [repeat constructor|]. intros R. inversion R as [| | | |a x y T| |]; subst. inversion T. congruence.
Qed.
Print Assumptions C63_owned_refuted.

(** A map with a text that it owns and one that it does not own, whose memory is overwritten. *)
Definition at_b (ctx : list segment) : bool := match ctx with [s] => String.eqb (string_of_list_ascii (seg_name s)) "b" | _ => false end.

Example C63_example :
  let v := VMap [("a", VStr "one"); ("b", VStr "two")] in
  let now := fun _ : string => "xxx" in
  exists d, stored_document ex_env at_b (TMap true TString) v = SOk [] d /\
  reads (fun s => s) d (JObj [("a", JStr "one"); ("b", JStr "two")]) /\
  reads now d (JObj [("a", JStr "one"); ("b", JStr "xxx")]).
Proof.
  cbv zeta. eexists. split; [vm_compute; reflexivity|]. split; (constructor; constructor; [split; repeat constructor|constructor; [split; [constructor|]|constructor]]); cbn; constructor.
  - apply (reads_outside (fun s => s) "two").
  - apply (reads_outside (fun _ => "xxx") "two").
Qed.
