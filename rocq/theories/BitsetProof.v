(** Specification and proofs for the bit set. *)
From Coq Require Import List Arith Bool Lia.
From Verif Require Import BitsetModel.
Import ListNotations.

(** The bit set whose members below [n] are given by [f]. *)
Definition of_fun (n : nat) (f : nat -> bool) : bitset := map f (seq 0 n).

Lemma of_fun_length : forall n f, List.length (of_fun n f) = n.
Proof. intros. unfold of_fun. now rewrite map_length, seq_length. Qed.

Lemma of_fun_ext : forall n f g, (forall k, k < n -> f k = g k) -> of_fun n f = of_fun n g.
Proof. intros n f g H. apply map_ext_in. intros a Ha. apply in_seq in Ha. apply H. lia. Qed.

Lemma empty_of_fun : forall n, empty n = of_fun n (fun _ => false).
Proof.
  intros n. unfold empty, of_fun. generalize 0. induction n as [|n IH]; intros a; [reflexivity|].
  cbn. now rewrite <- IH.
Qed.

Lemma get_of_fun : forall n f k, get (of_fun n f) k = if k <? n then Some (f k) else None.
Proof.
  intros n f k. unfold get, of_fun. rewrite nth_error_map.
  destruct (Nat.ltb_spec k n) as [H|H].
  - rewrite nth_error_nth' with (d := 0) by (now rewrite seq_length). rewrite seq_nth by assumption. reflexivity.
  - rewrite (proj2 (nth_error_None (seq 0 n) k)) by (now rewrite seq_length). reflexivity.
Qed.

Lemma set_of_fun_from : forall n a f k, k < n ->
  set (map f (seq a n)) k = Some (map (fun j => (j =? a + k) || f j) (seq a n)).
Proof.
  induction n as [|n IH]; intros a f k H; [lia|]. cbn [seq map set].
  destruct k as [|k].
  - f_equal. f_equal.
    + replace (a =? a + 0) with true by (symmetry; apply Nat.eqb_eq; lia). reflexivity.
    + apply map_ext_in. intros j Hj. apply in_seq in Hj.
      replace (j =? a + 0) with false by (symmetry; apply Nat.eqb_neq; lia). reflexivity.
  - rewrite IH by lia. f_equal. f_equal.
    + replace (a =? a + S k) with false by (symmetry; apply Nat.eqb_neq; lia). reflexivity.
    + apply map_ext_in. intros j Hj. do 2 f_equal. lia.
Qed.

Lemma set_of_fun : forall n f k, k < n ->
  set (of_fun n f) k = Some (of_fun n (fun j => (j =? k) || f j)).
Proof. intros n f k H. unfold of_fun. now rewrite set_of_fun_from. Qed.

Lemma set_out : forall b k, List.length b <= k -> set b k = None.
Proof.
  induction b as [|x b IH]; intros k H; [reflexivity|]. cbn in H. destruct k; [lia|].
  cbn [set]. rewrite IH by lia. reflexivity.
Qed.

Lemma count_of_fun : forall n f, count (of_fun n f) = List.length (filter f (seq 0 n)).
Proof.
  intros n f. unfold of_fun. generalize 0. induction n as [|n IH]; intros a; [reflexivity|].
  cbn [seq map count filter]. destruct (f a); cbn [List.length]; now rewrite IH.
Qed.

Lemma first_set_of_fun_from : forall n a f,
  first_set_from a (map f (seq a n)) = hd_error (filter f (seq a n)).
Proof.
  induction n as [|n IH]; intros a f; [reflexivity|]. cbn [seq map first_set_from filter].
  destruct (f a); [reflexivity|apply IH].
Qed.

Lemma first_set_of_fun : forall n f, first_set (of_fun n f) = hd_error (filter f (seq 0 n)).
Proof. intros. apply first_set_of_fun_from. Qed.

Lemma first_unset_of_fun_from : forall n a f,
  first_unset_from a (map f (seq a n)) = hd_error (filter (fun k => negb (f k)) (seq a n)).
Proof.
  induction n as [|n IH]; intros a f; [reflexivity|]. cbn [seq map first_unset_from filter].
  destruct (negb (f a)); [reflexivity|apply IH].
Qed.

Lemma first_unset_of_fun : forall n f,
  first_unset (of_fun n f) = hd_error (filter (fun k => negb (f k)) (seq 0 n)).
Proof. intros. apply first_unset_of_fun_from. Qed.

Lemma pick_of_fun_from : forall n a i f x, i <= x ->
  pick_from a i (map f (seq a n)) x = nth_error (filter f (seq a n)) (x - i).
Proof.
  induction n as [|n IH]; intros a i f x H; cbn [seq map pick_from filter].
  - now destruct (x - i).
  - destruct (f a).
    + destruct (Nat.eqb_spec i x) as [->|N].
      * now rewrite Nat.sub_diag.
      * rewrite IH by lia. replace (x - i) with (S (x - S i)) by lia. reflexivity.
    + now apply IH.
Qed.

Lemma pick_of_fun : forall n f x, pick (of_fun n f) x = nth_error (filter f (seq 0 n)) x.
Proof. intros. unfold pick, of_fun. rewrite pick_of_fun_from by lia. now rewrite Nat.sub_0_r. Qed.

(** The positions set by a history, in increasing order. *)
Definition positions (n : nat) (ks : list nat) : list nat :=
  filter (fun k => existsb (Nat.eqb k) ks) (seq 0 n).
Definition free_positions (n : nat) (ks : list nat) : list nat :=
  filter (fun k => negb (existsb (Nat.eqb k) ks)) (seq 0 n).

Lemma replay_of_fun : forall n ks, Forall (fun k => k < n) ks ->
  replay n ks = Some (of_fun n (fun k => existsb (Nat.eqb k) ks)).
Proof.
  intros n ks H. unfold replay. rewrite empty_of_fun.
  assert (forall f, fold_left (fun ob k => match ob with Some b => set b k | None => None end) ks
    (Some (of_fun n f)) = Some (of_fun n (fun k => existsb (Nat.eqb k) ks || f k))) as G.
  { induction ks as [|k ks IH]; intros f; [reflexivity|].
    inversion H; subst. cbn [fold_left]. rewrite set_of_fun by assumption.
    rewrite IH by assumption. f_equal. apply of_fun_ext. intros j _. cbn [existsb].
    rewrite orb_assoc. f_equal. apply orb_comm. }
  rewrite G. f_equal. apply of_fun_ext. intros. apply orb_false_r.
Qed.

Lemma replay_out : forall n ks, ~ Forall (fun k => k < n) ks -> replay n ks = None.
Proof.
  intros n ks H. unfold replay.
  assert (forall b, List.length b = n ->
    fold_left (fun ob k => match ob with Some b => set b k | None => None end) ks (Some b) = None) as G.
  { clear -H. revert H. induction ks as [|k ks IH]; intros H b L; [now elim H|]. cbn [fold_left].
    destruct (Nat.lt_ge_cases k n) as [K|K].
    - assert (exists b', set b k = Some b' /\ List.length b' = n) as (b' & E & L').
      { clear -L K. revert n k L K. induction b as [|x b IHb]; intros n k L K; cbn in L; [lia|].
        destruct k as [|k].
        - exists (true :: b). split; [reflexivity|assumption].
        - destruct (IHb (pred n) k) as (b' & E & L'); [lia|lia|].
          exists (x :: b'). cbn [set]. rewrite E. split; [reflexivity|]. cbn. lia. }
      rewrite E. apply IH; [|assumption]. intros F. apply H. constructor; assumption.
    - rewrite set_out by lia. clear. induction ks; [reflexivity|assumption]. }
  apply G. apply repeat_length.
Qed.

Lemma bitset_ops : forall n ks, Forall (fun k => k < n) ks ->
  exists b, replay n ks = Some b /\
    (forall k, k < n -> get b k = Some (existsb (Nat.eqb k) ks)) /\
    (forall k, n <= k -> get b k = None) /\
    count b = List.length (positions n ks) /\
    first_set b = hd_error (positions n ks) /\
    first_unset b = hd_error (free_positions n ks) /\
    (forall i, pick b i = nth_error (positions n ks) i).
Proof.
  intros n ks H. eexists. split; [apply replay_of_fun; assumption|]. split; [|split; [|split; [|split; [|split]]]].
  - intros k K. rewrite get_of_fun. apply Nat.ltb_lt in K. now rewrite K.
  - intros k K. rewrite get_of_fun. apply Nat.ltb_ge in K. now rewrite K.
  - apply count_of_fun.
  - apply first_set_of_fun.
  - apply first_unset_of_fun.
  - intros i. apply pick_of_fun.
Qed.
