(** Names that the hash cannot tell apart. *)
From Coq Require Import List Arith NArith Ascii String Bool Lia.
From Verif Require Import Base HashModel HashProof DispatchProof.
Import ListNotations.
Local Open Scope N_scope.

Definition cong (k a b : N) : Prop := a mod 2 ^ k = b mod 2 ^ k.

Lemma pow_nz : forall k, 2 ^ k <> 0. Proof. intros. apply N.pow_nonzero. lia. Qed.

Lemma mod_mod_pow : forall a k n, k <= n -> (a mod 2 ^ n) mod 2 ^ k = a mod 2 ^ k.
Proof.
  intros a k n L. replace n with (n - k + k) by lia. rewrite N.pow_add_r, N.mul_comm.
  rewrite N.mod_mul_r by apply pow_nz. rewrite N.mul_comm, N.mod_add by apply pow_nz. apply N.mod_mod, pow_nz.
Qed.

Lemma cong_mod : forall k n a b, k <= n -> cong k a b -> cong k (a mod 2 ^ n) (b mod 2 ^ n).
Proof. unfold cong. intros. now rewrite !mod_mod_pow by auto. Qed.

Lemma cong_add : forall k a b c d, cong k a b -> cong k c d -> cong k (a + c) (b + d).
Proof. unfold cong. intros k a b c d E F. pose proof (pow_nz k). rewrite (N.add_mod a), (N.add_mod b) by auto. now rewrite E, F. Qed.

Lemma cong_shift : forall k a b n, cong k a b -> cong k (N.shiftl a n) (N.shiftl b n).
Proof. unfold cong. intros k a b n E. pose proof (pow_nz k). rewrite !N.shiftl_mul_pow2. rewrite (N.mul_mod a), (N.mul_mod b) by auto. now rewrite E. Qed.

Lemma mod_lxor : forall k a b, N.lxor a b mod 2 ^ k = N.lxor (a mod 2 ^ k) (b mod 2 ^ k).
Proof.
  intros k a b. apply N.bits_inj. intros n. rewrite N.lxor_spec. destruct (N.lt_ge_cases n k).
  - now rewrite !N.mod_pow2_bits_low, N.lxor_spec by auto.
  - now rewrite !N.mod_pow2_bits_high by auto.
Qed.

Lemma cong_lxor : forall k a b c d, cong k a b -> cong k c d -> cong k (N.lxor a c) (N.lxor b d).
Proof. unfold cong. intros. rewrite !mod_lxor. congruence. Qed.

Lemma cong_char : forall k c c', N_of_ascii c mod 2 ^ k = N_of_ascii c' mod 2 ^ k -> k <= 64 -> cong k (char_to_size c) (char_to_size c').
Proof.
  intros k c c' E L. destruct (N.lt_ge_cases k 9).
  - assert (X : forall v, cong k (if v <? 128 then v else v + two64 - 256) v).
    { intros v. destruct (N.ltb_spec v 128); [reflexivity|]. unfold cong, two64. replace (v + 2 ^ 64 - 256) with (v + (2 ^ 56 - 1) * 2 ^ 8) by (cbn; lia).
      replace 8 with (8 - k + k) by lia. rewrite N.pow_add_r, N.mul_assoc. apply N.mod_add, pow_nz. }
    unfold char_to_size. cbv zeta. unfold cong in *. now rewrite !X.
  - assert (B : forall c, N_of_ascii c < 2 ^ k).
    { intros x. eapply N.lt_le_trans; [apply N_ascii_bounded|]. change 256 with (2 ^ 8). apply N.pow_le_mono_r; lia. }
    rewrite !N.mod_small in E by auto. apply (f_equal ascii_of_N) in E. rewrite !ascii_N_embedding in E. subst. reflexivity.
Qed.

Lemma cong_step : forall k d d' c c', k <= 64 -> cong k d d' -> N_of_ascii c mod 2 ^ k = N_of_ascii c' mod 2 ^ k -> cong k (hash_step d c) (hash_step d' c').
Proof.
  intros k d d' c c' L D C. unfold hash_step. cbv zeta. unfold two64. apply cong_lxor; [|now apply cong_char].
  apply cong_mod; auto. repeat apply cong_add; auto; apply cong_mod; auto; now apply cong_shift.
Qed.

Definition alike (k : N) (s s' : list ascii) : Prop := Forall2 (fun c c' => N_of_ascii c mod 2 ^ k = N_of_ascii c' mod 2 ^ k) s s'.

Lemma cong_fold : forall k s s', k <= 64 -> alike k s s' -> forall d d', cong k d d' -> cong k (fold_left hash_step s d) (fold_left hash_step s' d').
Proof. intros k s s' L A. induction A; intros d d' D; cbn; auto. apply IHA. now apply cong_step. Qed.

Lemma alike_hash : forall k s s' d, k <= 63 -> alike k s s' -> hash d s mod 2 ^ k = hash d s' mod 2 ^ k.
Proof.
  intros k s s' d L A. unfold hash. cbv zeta. change 0x7fffffffffffffff with (N.ones 63). rewrite !N.land_ones, !mod_mod_pow by auto.
  apply cong_fold; auto; [lia|reflexivity].
Qed.

Lemma alike_slot : forall k size s s' d, N.of_nat size = 2 ^ k -> k <= 63 -> alike k s s' -> slot size d s = slot size d s'.
Proof. intros k size s s' d E L A. unfold slot. rewrite E, (alike_hash k s s' d L A). reflexivity. Qed.

Lemma alike_never : forall fuel names k i j s s', N.of_nat (List.length names) = 2 ^ k -> k <= 63 -> (i <> j)%nat ->
  nth_error names i = Some s -> nth_error names j = Some s' -> alike k s s' -> N.of_nat fuel < 2 ^ 63 -> build fuel names = Fuel.
Proof.
  intros fuel names k i j s s' E L N Hi Hj A F.
  assert (Ne : names <> []) by (destruct names; [destruct i; discriminate|discriminate]).
  assert (B : N.of_nat (List.length names) <= 2 ^ 63) by (rewrite E; apply N.pow_le_mono_r; lia).
  destruct (build fuel names) as [t| |] eqn:X; auto; [|exfalso; eapply build_not_bad; eauto].
  exfalso. destruct (build_good fuel names t Ne B F X) as [K _]. pose proof (K i s Hi) as G1. pose proof (K j s' Hj) as G2.
  unfold index in G1, G2. rewrite (alike_slot k _ s s' 0) in G1 by auto.
  destruct (slot (List.length names) 0 s') as [sl| |]; cbn [rbind of_opt] in G1, G2; try discriminate.
  destruct (nth_error (G t) sl) as [d|]; cbn [rbind of_opt] in G1, G2; try discriminate. destruct (2 ^ 63 <=? d); [congruence|].
  rewrite (alike_slot k _ s s' d) in G1 by auto. congruence.
Qed.
