(** Property C76: how large the document of an object graph is. *)
From Coq Require Import List Arith ZArith NArith Ascii String Bool Lia Permutation Relations.
From Verif Require Import Base Float RefsModel Json PathModel Types SerializeModel DenoteSpec RoundSpec DocSpec GraphSpec SchemaGenSpec WriteSpec VisitSpec HeapModel
  SizeSpec SizeProof SafetyProps GraphProps.
Import ListNotations.
Local Open Scope string_scope.
Local Open Scope list_scope.

(** C76: each object that shared pointers point to adds its own size, however many pointers
    there are to it. [H] are the objects at the addresses. *)
Theorem C76_bound : forall e H t v tab j, fair e -> in_heap H v -> serialize_to_document e t v = SOk tab j ->
  values j <= cells v + list_sum (map (fun a => cells (H a)) (objects_of v)).
Proof. intros e H t v tab j F Hv E. apply (document_size e H t v tab j F Hv E). Qed.
Print Assumptions C76_bound.

(** C76: exactly so if nothing is left out: the object itself takes the place of the first
    reference to it. *)
Theorem C76_exact : forall e H t v tab j, fair e -> in_heap H v -> finite v = true -> no_dictionary e t -> serialize_to_document e t v = SOk tab j ->
  values j + 2 * List.length (objects_of v) = cells v + list_sum (map (fun a => cells (H a)) (objects_of v)).
Proof. intros e H t v tab j F Hv Fv D E. now apply (document_size e H t v tab j F Hv E). Qed.
Print Assumptions C76_exact.

(** The diamond of C24: five references would be ten values, four of them are objects. *)
Example C76_example : exists tab, serialize_to_document ex_graph (TClass 0) ex_diamond = SOk tab ex_diamond_document /\
  values ex_diamond_document = 17 /\ objects_of ex_diamond = [7; 9; 4; 5] /\ cells ex_diamond = 7 /\ cells ex_leaf = 3 /\
  no_dictionary ex_graph (TClass 0) /\ finite ex_diamond = true.
Proof.
  eexists. split; [vm_compute; reflexivity|]. do 4 (split; [reflexivity|]). split; [|reflexivity].
  intros u R. apply (reachable_in ex_graph [TClass 0; TString; TVector (TShared (TClass 0)); TShared (TClass 0)]) in R.
  - cbn in R. repeat (destruct R as [R|R]; try discriminate R); try contradiction. injection R as <-. reflexivity.
  - repeat constructor; cbn; tauto.
  - now left.
Qed.

(** * Ladders: each object points twice to the next *)

Definition ex_rung (pointer : ty -> ty) : cls := {|
  c_members := [{| m_name := "left"; m_kind := MOptional; m_ty := pointer (TClass 0) |}; {| m_name := "right"; m_kind := MOptional; m_ty := pointer (TClass 0) |}];
  c_root := 2; c_default := [VNone; VNone]; c_value := [VNone; VNone] |}.
Definition ex_ladder (pointer : ty -> ty) : env := {|
  classes := [ex_rung pointer]; tick := 1000000000; endian := Base64Model.little; after := fun _ => []; less := fun _ _ _ => false;
  iteration := fun keys => seq 0 (List.length keys) |}.

(** The objects at the addresses 0 to [n]. *)
Definition rungs (pointer : nat -> hval) (a : nat) : hval :=
  match a with O => HObj [HNone; HNone] | S b => HObj [HSome (pointer b); HSome (pointer b)] end.

Fixpoint unrolled (n : nat) : json :=
  match n with O => JObj [] | S k => JObj [("left", unrolled k); ("right", unrolled k)] end.

Lemma unrolled_values : forall n, S (values (unrolled n)) = 2 ^ S n.
Proof. induction n as [|n IH]; [reflexivity|]. cbn [unrolled values map list_sum fold_right snd]. cbn [Nat.pow] in *. lia. Qed.

(** C76: with raw pointers instead the document doubles with each
    object: n + 1 objects of constant size, and 2 ^ (n + 1) - 1 values. *)
Theorem C76_raw : forall n m, 2 * n < m -> exists j,
  heap_to_document (ex_ladder TPtr) (rungs HRaw) m (TClass 0) (rungs HRaw n) = HDone (SOk [] j) /\ S (values j) = 2 ^ S n.
Proof.
  assert (L : forall n m ctx tab, 2 * n < m -> hser (ex_ladder TPtr) (rungs HRaw) m (rungs HRaw n) (TClass 0) ctx tab = HDone (SOk tab (unrolled n))).
  { induction n as [|n IH]; intros [|m] ctx tab L; try lia; [reflexivity|]. destruct m as [|m]; [lia|].
    cbn [hser rungs class_of ex_ladder classes nth ex_rung c_members h_members h_member m_kind m_ty]. rewrite IH by lia. cbn [hser]. rewrite IH by lia. reflexivity. }
  intros n m M. exists (unrolled n). split; [now apply L|apply unrolled_values].
Qed.
Print Assumptions C76_raw.

(** C76: with shared pointers it is 3 n + 1 values. *)
Fixpoint ladder (n : nat) : val :=
  match n with O => VObj [VNone; VNone] | S k => VObj [VSome (VShared k (ladder k)); VSome (VShared k (ladder k))] end.

Lemma ladder_in_heap : forall n, in_heap ladder (ladder n).
Proof. induction n; cbn; tauto. Qed.

Lemma ladder_document : forall n ctx tab, exists tab' j, ser (ex_ladder TShared) (ladder n) (TClass 0) ctx tab = SOk tab' j.
Proof.
  induction n as [|n IH]; intros ctx tab; [exists tab, (JObj []); reflexivity|].
  assert (P : forall ctx tab, exists tab' j, ser (ex_ladder TShared) (VShared n (ladder n)) (TShared (TClass 0)) ctx tab = SOk tab' j).
  { intros c s. cbn [ser]. destruct (ref_get Nat.eqb s n); [eexists; eexists; reflexivity|]. destruct (IH c s) as (s' & j & E). rewrite E. eexists. eexists. reflexivity. }
  change (ser (ex_ladder TShared) (ladder (S n)) (TClass 0) ctx tab) with
    (smap JObj (ser_members ctx (c_members (ex_rung TShared)) [MPresent (ser (ex_ladder TShared) (VShared n (ladder n))); MPresent (ser (ex_ladder TShared) (VShared n (ladder n)))] tab)).
  cbn [ser_members ex_rung c_members to_write m_kind m_ty m_name]. destruct (P (name_segment (list_ascii_of_string "left") :: ctx) tab) as (s1 & j1 & ->).
  cbn [ser_members to_write m_kind m_ty m_name]. destruct (P (name_segment (list_ascii_of_string "right") :: ctx) s1) as (s2 & j2 & ->). eexists. eexists. reflexivity.
Qed.

Lemma ladder_addresses : forall n a, In a (addresses (ladder n)) <-> a < n.
Proof.
  induction n as [|n IH]; intros a; [cbn; lia|]. cbn [ladder addresses flat_map]. rewrite app_nil_r. rewrite in_app_iff. cbn [In]. rewrite IH. lia.
Qed.

Lemma ladder_finite : forall n, finite (ladder n) = true.
Proof. induction n as [|n IH]; [reflexivity|]. cbn. now rewrite IH. Qed.

Theorem C76_shared : forall n, exists tab j, serialize_to_document (ex_ladder TShared) (TClass 0) (ladder n) = SOk tab j /\ values j = 3 * n + 1.
Proof.
  intros n. destruct (ladder_document n [] []) as (tab & j & E). exists tab, j. split; [exact E|].
  assert (X : values j + 2 * List.length (objects_of (ladder n)) = cells (ladder n) + list_sum (map (fun a => cells (ladder a)) (objects_of (ladder n)))).
  { apply (C76_exact (ex_ladder TShared) ladder (TClass 0) (ladder n) tab j); [intros keys; apply Permutation_refl|apply ladder_in_heap|apply ladder_finite| |exact E].
    intros u R. apply (reachable_in (ex_ladder TShared) [TClass 0; TShared (TClass 0)]) in R; [|repeat constructor; cbn; tauto|now left].
    cbn in R. repeat (destruct R as [R|R]; try discriminate R); contradiction. }
  assert (S : forall n, list_sum (map (fun a => cells (ladder a)) (seq 0 n)) + 4 = 5 * n + (if Nat.eqb n 0 then 4 else 0)).
  { clear. induction n as [|n IH]; [reflexivity|]. rewrite seq_S, map_app, list_sum_app. cbn [map Nat.add]. destruct n; [reflexivity|]. cbn [Nat.eqb] in *. unfold list_sum at 2. cbn [fold_right ladder cells map list_sum]. lia. }
  destruct (same_sum (fun a => cells (ladder a)) (objects_of (ladder n)) (seq 0 n)) as [S1 S2]; [apply NoDup_nodup|apply seq_NoDup| |].
  { intros a. unfold objects_of. rewrite nodup_In, ladder_addresses, in_seq. lia. }
  rewrite S1, S2, seq_length in X. specialize (S n). destruct n as [|n]; cbn [Nat.eqb] in S; cbn [ladder cells map list_sum fold_right] in X; lia.
Qed.
Print Assumptions C76_shared.
