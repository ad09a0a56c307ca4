(** When a double does not fit a float. *)
From Coq Require Import ZArith Bool Lia.
From Verif Require Import Base Float.
Local Open Scope Z_scope.

Lemma mk_bits : forall s n e b, 0 < b -> 2 ^ (b - 1) <= n < 2 ^ b ->
  exists o e', mk s n e = FFin s o e' /\ bits o + e' = b + e.
Proof.
  intros s n e b B H. destruct n as [|m|m].
  - pose proof (Z.pow_pos_nonneg 2 (b - 1)). lia.
  - cbn [mk]. destruct (strip m) as [o k] eqn:E. apply strip_spec in E. destruct E as (K & _ & _ & Bm).
    assert (bits m = b) by (apply bits_unique; lia). do 2 eexists. split; [reflexivity|]. lia.
  - pose proof (Z.pow_pos_nonneg 2 (b - 1)). lia.
Qed.

Lemma rsig_bits : forall m sh, 0 < sh -> 0 < bits m - sh ->
  2 ^ (bits m - sh - 1) <= rsig m sh <= 2 ^ (bits m - sh).
Proof.
  intros m sh S B. split; [|now apply rsig_le; try lia].
  unfold rsig. pose proof (bits_spec m) as Bm.
  assert (Q : 2 ^ (bits m - sh - 1) <= Zpos m / 2 ^ sh).
  { apply Z.div_le_lower_bound; [apply Z.pow_pos_nonneg; lia|]. rewrite <- Z.pow_add_r by lia.
    replace (sh + (bits m - sh - 1)) with (bits m - 1) by lia. lia. }
  destruct (_ <? _); [exact Q|]. destruct (_ <? _); [lia|]. destruct (Z.even _); lia.
Qed.

(** Rounding up to the next power of two. *)
Lemma rsig_carry : forall m sh, 0 < sh -> 1 < bits m - sh ->
  (rsig m sh = 2 ^ (bits m - sh) <-> (2 ^ (bits m - sh + 1) - 1) * 2 ^ (sh - 1) <= Zpos m).
Proof.
  intros m sh S B. set (p := bits m - sh) in *. pose proof (bits_spec m) as Bm. unfold rsig.
  assert (D : Zpos m = 2 ^ sh * (Zpos m / 2 ^ sh) + Zpos m mod 2 ^ sh) by (apply Z.div_mod; pose proof (Z.pow_pos_nonneg 2 sh); lia).
  pose proof (Z.mod_pos_bound (Zpos m) (2 ^ sh) ltac:(apply Z.pow_pos_nonneg; lia)) as R.
  assert (E : 2 ^ bits m = 2 ^ sh * 2 ^ p) by (rewrite <- Z.pow_add_r by lia; f_equal; lia).
  assert (H : 2 ^ sh = 2 * 2 ^ (sh - 1)) by (rewrite <- Z.pow_succ_r by lia; f_equal; lia).
  assert (P : 2 ^ (p + 1) = 2 * 2 ^ p) by (rewrite <- Z.pow_succ_r by lia; f_equal; lia).
  assert (V : 2 ^ p = 2 * 2 ^ (p - 1)) by (rewrite <- Z.pow_succ_r by lia; f_equal; lia).
  pose proof (Z.pow_pos_nonneg 2 (sh - 1)) as X. pose proof (Z.pow_pos_nonneg 2 (p - 1)) as Y.
  set (q := Zpos m / 2 ^ sh) in *. set (r := Zpos m mod 2 ^ sh) in *. set (h := 2 ^ (sh - 1)) in *. set (w := 2 ^ (p - 1)) in *.
  rewrite P, V, H in *. clearbody q r h w p. clear P V H.
  assert (q < 2 * w) by nia.
  assert (EV : q = 2 * w - 1 -> Z.even q = false).
  { intros ->. rewrite Z.even_sub, Z.even_mul. reflexivity. }
  destruct (Z.ltb_spec r h); [split; intros; [nia|]|].
  - assert (q <= 2 * w - 1) by lia. exfalso. nia.
  - destruct (Z.ltb_spec h r).
    + split; intros; [nia|]. assert (2 * w - 1 <= q) by nia. lia.
    + assert (r = h) by lia. destruct (Z.even q) eqn:Ev.
      * split; intros; [nia|]. assert (2 * w - 1 <= q) by nia. exfalso. assert (QE : q = 2 * w - 1) by lia. specialize (EV QE). congruence.
      * split; intros; [nia|]. assert (2 * w - 1 <= q) by nia. lia.
Qed.

Lemma overflow : forall s m e, odd_pos m = true -> - 1074 <= e ->
  (round binary32 (FFin s m e) = FInf s <-> (2 ^ 25 - 1) * 2 ^ (103 + 1074) <= Zpos m * 2 ^ (e + 1074)) /\
  (round binary32 (FFin s m e) <> FInf s -> is_finite (round binary32 (FFin s m e)) = true).
Proof.
  intros s m e O E. pose proof (bits_spec m) as B. pose proof (bits_pos m) as BP.
  cbn [round binary32 prec emin emax]. set (e' := Z.max (-149) (bits m + e - 24)).
  assert (F : forall r, match r with FFin s' _ _ => s' = s | FZero _ => True | _ => False end ->
    match r with FFin _ m' e'' => if 128 <? bits m' + e'' then FInf s else r | _ => r end <> FInf s ->
    is_finite (match r with FFin _ m' e'' => if 128 <? bits m' + e'' then FInf s else r | _ => r end) = true).
  { intros [s'|s'| |s' m' e''] S N; try contradiction; [reflexivity|]. destruct (128 <? bits m' + e''); [now elim N|reflexivity]. }
  assert (MK : forall n e, match mk s n e with FFin s' _ _ => s' = s | FZero _ => True | _ => False end).
  { intros [|p|p] e0; cbn; auto. destruct (strip p). reflexivity. }
  split; [|apply F; destruct (e' <=? e); apply MK].
  destruct (Z.leb_spec e' e) as [L|L].
  - (* exact *)
    rewrite mk_odd by assumption. destruct (Z.ltb_spec 128 (bits m + e)) as [H|H].
    + split; [intros _|reflexivity]. apply Z.le_trans with (2 ^ (bits m - 1) * 2 ^ (e + 1074)).
      * rewrite <- Z.pow_add_r by lia. apply Z.le_trans with (2 ^ (128 + 1074)); [vm_compute; discriminate|]. apply Z.pow_le_mono_r; lia.
      * apply Z.mul_le_mono_nonneg_r; [apply Z.pow_nonneg; lia|lia].
    + split; [discriminate|]. intros T. exfalso.
      assert (bits m <= 24) by lia.
      (* m <= 2^bits - 1 *)
      assert (U : Zpos m * 2 ^ (e + 1074) <= (2 ^ bits m - 1) * 2 ^ (e + 1074)) by (apply Z.mul_le_mono_nonneg_r; [apply Z.pow_nonneg; lia|lia]).
      assert (W : (2 ^ bits m - 1) * 2 ^ (e + 1074) <= (2 ^ 24 - 1) * 2 ^ (104 + 1074)).
      { rewrite !Z.mul_sub_distr_r, <- !Z.pow_add_r by lia.
        assert (2 ^ (bits m + (e + 1074)) = 2 ^ bits m * 2 ^ (e + 1074)) by (rewrite <- Z.pow_add_r by lia; reflexivity).
        destruct (Z.le_gt_cases (bits m + e) 127) as [Q|Q].
        - assert (2 ^ (bits m + (e + 1074)) <= 2 ^ (127 + 1074)) by (apply Z.pow_le_mono_r; lia).
          assert (0 < 2 ^ (e + 1074)) by (apply Z.pow_pos_nonneg; lia).
          assert (2 ^ (127 + 1074) <= 2 ^ (24 + (104 + 1074)) - 1 * 2 ^ (104 + 1074)) by (vm_compute; discriminate). lia.
        - replace (bits m + (e + 1074)) with (24 + (104 + 1074)) by lia.
          assert (2 ^ (104 + 1074) <= 2 ^ (e + 1074)) by (apply Z.pow_le_mono_r; lia). lia. }
      assert ((2 ^ 24 - 1) * 2 ^ (104 + 1074) < (2 ^ 25 - 1) * 2 ^ (103 + 1074)) by reflexivity. lia.
  - (* rounded *)
    set (sh := e' - e). fold (rsig m sh). assert (S : 0 < sh) by lia.
    assert (P : bits m - sh <= 24) by lia.
    destruct (Z.lt_trichotomy (bits m + e) 128) as [H|[H|H]].
    + (* small *)
      assert (R : rsig m sh <= 2 ^ 24) by (apply rsig_le; lia). pose proof (rsig_spec m sh S) as [R0 _].
      assert (T : ~ (2 ^ 25 - 1) * 2 ^ (103 + 1074) <= Zpos m * 2 ^ (e + 1074)).
      { assert (Zpos m * 2 ^ (e + 1074) < 2 ^ bits m * 2 ^ (e + 1074)) by (apply Z.mul_lt_mono_pos_r; [apply Z.pow_pos_nonneg; lia|lia]).
        rewrite <- Z.pow_add_r in * by lia. assert (2 ^ (bits m + (e + 1074)) <= 2 ^ (127 + 1074)) by (apply Z.pow_le_mono_r; lia).
        assert (2 ^ (127 + 1074) < (2 ^ 25 - 1) * 2 ^ (103 + 1074)) by reflexivity. lia. }
      split; [|intros; contradiction]. intros I. exfalso.
      destruct (rsig m sh) as [|n|n] eqn:Q; [discriminate| |lia]. pose proof (bits_spec n) as Bn. pose proof (bits_pos n).
      destruct (mk_bits s (Zpos n) e' (bits n) ltac:(lia) Bn) as (o & k & M & K). rewrite M in I.
      destruct (Z.ltb_spec 128 (bits o + k)); [|discriminate].
      assert (bits n <= 25) by (apply bits_le; [lia|]; assert (2 ^ 24 < 2 ^ 25) by reflexivity; lia).
      destruct (Z.eq_dec (bits n) 25) as [X|X]; [|lia].
      assert (e' <= 103) by lia.
      (* then n = 2^24, and e' = bits + e - 24 *)
      lia.
    + assert (e' = 104) by lia. assert (PB : bits m - sh = 24) by lia.
      pose proof (rsig_bits m sh S ltac:(lia)) as RB. pose proof (rsig_carry m sh S ltac:(lia)) as RC. rewrite PB in RB, RC.
      assert (TH : (2 ^ 25 - 1) * 2 ^ (103 + 1074) <= Zpos m * 2 ^ (e + 1074) <-> (2 ^ (24 + 1) - 1) * 2 ^ (sh - 1) <= Zpos m).
      { replace (103 + 1074) with ((sh - 1) + (e + 1074)) by lia. rewrite (Z.pow_add_r 2 (sh - 1)) by lia. rewrite Z.mul_assoc.
        assert (0 < 2 ^ (e + 1074)) by (apply Z.pow_pos_nonneg; lia). split; intros T.
        - apply Z.mul_le_mono_pos_r in T; [exact T|assumption].
        - apply Z.mul_le_mono_nonneg_r; [lia|exact T]. }
      rewrite TH, <- RC. destruct (Z.eq_dec (rsig m sh) (2 ^ 24)) as [Q|Q].
      * rewrite Q. destruct (mk_bits s (2 ^ 24) e' 25 ltac:(lia) ltac:(vm_compute; split; [discriminate|reflexivity])) as (o & k & -> & K).
        destruct (Z.ltb_spec 128 (bits o + k)); [tauto|lia].
      * destruct (mk_bits s (rsig m sh) e' 24 ltac:(lia) ltac:(cbn [Z.sub] in *; lia)) as (o & k & -> & K).
        destruct (Z.ltb_spec 128 (bits o + k)); [lia|]. split; [discriminate|intros; contradiction].
    + assert (PB : bits m - sh = 24) by lia. pose proof (rsig_bits m sh S ltac:(lia)) as RB. rewrite PB in RB.
      split; intros _.
      * apply Z.le_trans with (2 ^ (bits m - 1) * 2 ^ (e + 1074)).
        -- rewrite <- Z.pow_add_r by lia. apply Z.le_trans with (2 ^ (128 + 1074)); [vm_compute; discriminate|]. apply Z.pow_le_mono_r; lia.
        -- apply Z.mul_le_mono_nonneg_r; [apply Z.pow_nonneg; lia|lia].
      * destruct (Z.eq_dec (rsig m sh) (2 ^ 24)) as [Q|Q].
        -- rewrite Q. destruct (mk_bits s (2 ^ 24) e' 25 ltac:(lia) ltac:(vm_compute; split; [discriminate|reflexivity])) as (o & k & -> & K).
           destruct (Z.ltb_spec 128 (bits o + k)); [reflexivity|lia].
        -- destruct (mk_bits s (rsig m sh) e' 24 ltac:(lia) ltac:(cbn [Z.sub] in *; lia)) as (o & k & -> & K).
           destruct (Z.ltb_spec 128 (bits o + k)); [reflexivity|lia].
Qed.
