(** Proofs about the numeric range check. *)
From Coq Require Import List Arith NArith ZArith Bool Lia ZifyBool.
From Verif Require Import Float NumericModel NumericSpec.
Local Open Scope Z_scope.

Ltac Zify.zify_post_hook ::= Z.div_mod_to_equations.

Lemma wrap_id : forall t v, 0 < width t -> in_range t v -> wrap t v = v.
Proof.
  intros [w s] v Hw H. unfold wrap, in_range in *. cbn [width is_signed] in *. destruct s.
  - assert (2 ^ w = 2 * 2 ^ (w - 1)) as E.
    { replace w with (1 + (w - 1)) at 1 by lia. rewrite Z.pow_add_r by lia. reflexivity. }
    rewrite Z.mod_small by lia. lia.
  - apply Z.mod_small. lia.
Qed.

Ltac ity_cases T :=
  let w := fresh "w" in let s := fresh "s" in let H := fresh "H" in
  destruct T as [w s]; unfold valid_ity, int_widths in *; cbn [width In is_signed] in *;
  match goal with HT : _ = w \/ _ |- _ => destruct HT as [?|[?|[?|[?|[]]]]]; subst w; destruct s end.

Lemma width_pos : forall t, valid_ity t -> 0 < width t.
Proof. intros t H. ity_cases t; reflexivity. Qed.

Lemma valid_common : forall a b, valid_ity a -> valid_ity b -> valid_ity (common a b).
Proof. intros a b Ha Hb. ity_cases a; ity_cases b; vm_compute; tauto. Qed.

(** The operands keep their values when they have the same signedness or are not negative. *)
Lemma common_safe : forall a b x y, valid_ity a -> valid_ity b -> in_range a x -> in_range b y ->
  is_signed a = is_signed b \/ (0 <= x /\ 0 <= y) ->
  wrap (common a b) x = x /\ wrap (common a b) y = y.
Proof.
  intros a b x y Ha Hb Hx Hy H.
  assert (in_range (common a b) x /\ in_range (common a b) y) as [RX RY].
  { ity_cases a; ity_cases b;
    match goal with |- context [common ?p ?q] =>
      let c := eval vm_compute in (common p q) in change (common p q) with c end;
    unfold in_range in *; cbn [width is_signed] in *; lia. }
  split; apply wrap_id; auto using width_pos, valid_common.
Qed.

Lemma cle_safe : forall a b x y, valid_ity a -> valid_ity b -> in_range a x -> in_range b y ->
  is_signed a = is_signed b \/ (0 <= x /\ 0 <= y) -> cle a x b y = (x <=? y).
Proof. intros. unfold cle. now destruct (common_safe a b x y) as [-> ->]. Qed.

Lemma cge_safe : forall a b x y, valid_ity a -> valid_ity b -> in_range a x -> in_range b y ->
  is_signed a = is_signed b \/ (0 <= x /\ 0 <= y) -> cge a x b y = (y <=? x).
Proof. intros. unfold cge. now destruct (common_safe a b x y) as [-> ->]. Qed.

Lemma clt_safe : forall a b x y, valid_ity a -> valid_ity b -> in_range a x -> in_range b y ->
  is_signed a = is_signed b \/ (0 <= x /\ 0 <= y) -> clt a x b y = (x <? y).
Proof. intros. unfold clt. now destruct (common_safe a b x y) as [-> ->]. Qed.

Lemma pow_le : forall a b, a <= b -> 2 ^ a <= 2 ^ b.
Proof. intros a b H. apply Z.pow_le_mono_r; lia. Qed.

Lemma tmax_range : forall t, valid_ity t -> in_range t (tmax t) /\ in_range t (tmin t) /\ 0 <= tmax t.
Proof. intros t H. ity_cases t; unfold in_range, tmax, tmin; cbn [width is_signed]; lia. Qed.

Lemma int32_valid : valid_ity int32. Proof. vm_compute. tauto. Qed.

Lemma unsigned_valid : forall t, valid_ity t -> valid_ity (make_unsigned t).
Proof. intros [w s] H. exact H. Qed.

Lemma assignable_ii_exact : forall T V v, valid_ity T -> valid_ity V -> in_range V v ->
  (assignable_ii T V v = true <-> in_range T v).
Proof.
  intros T V v HT HV HR. pose proof (width_pos T HT). pose proof (width_pos V HV).
  destruct (tmax_range T HT) as (R1 & R2 & R3).
  assert (in_range int32 0) as R0 by (unfold in_range; cbn; lia).
  unfold assignable_ii. destruct (is_signed T) eqn:ST, (is_signed V) eqn:SV.
  - destruct (Z.leb_spec (width V) (width T)) as [L|L].
    + split; [intros _|reflexivity]. unfold in_range in *. rewrite ST. rewrite SV in HR.
      pose proof (pow_le (width V - 1) (width T - 1) ltac:(lia)). lia.
    + rewrite cge_safe, cle_safe by (auto; left; congruence).
      unfold tmin, tmax, in_range in *. rewrite ST in *. lia.
  - destruct (Z.ltb_spec (width V) (width T)) as [L|L].
    + split; [intros _|reflexivity]. unfold in_range in *. rewrite ST. rewrite SV in HR.
      pose proof (pow_le (width V) (width T - 1) ltac:(lia)). lia.
    + assert (in_range (make_unsigned T) (tmax T)) as RU.
      { unfold in_range in *. cbn [width is_signed make_unsigned]. rewrite ST in R1.
        pose proof (pow_le (width T - 1) (width T) ltac:(lia)). lia. }
      rewrite wrap_id by (cbn [make_unsigned width]; auto).
      rewrite cle_safe by (auto using unsigned_valid; left; cbn; congruence).
      unfold tmax, in_range in *. rewrite ST in *. rewrite SV in HR. lia.
  - destruct (Z.leb_spec (width V) (width T)) as [L|L].
    + rewrite cge_safe by (auto using int32_valid; left; cbn; congruence).
      unfold in_range in *. rewrite ST. rewrite SV in HR.
      pose proof (pow_le (width V - 1) (width T) ltac:(lia)). lia.
    + rewrite cge_safe by (auto using int32_valid; left; cbn; congruence).
      destruct (Z.leb_spec 0 v) as [P|P]; cbn [andb].
      * assert (in_range (make_unsigned V) v) as RU.
        { unfold in_range in *. cbn [width is_signed make_unsigned]. rewrite SV in HR.
          pose proof (pow_le (width V - 1) (width V) ltac:(lia)). lia. }
        rewrite wrap_id by (cbn [make_unsigned width]; auto).
        rewrite cle_safe by (auto using unsigned_valid; left; cbn; congruence).
        unfold tmax, in_range in *. rewrite ST in *. lia.
      * split; [discriminate|]. unfold in_range. rewrite ST. lia.
  - destruct (Z.leb_spec (width V) (width T)) as [L|L].
    + split; [intros _|reflexivity]. unfold in_range in *. rewrite ST. rewrite SV in HR.
      pose proof (pow_le (width V) (width T) ltac:(lia)). lia.
    + rewrite cle_safe by (auto; left; congruence).
      unfold tmax, in_range in *. rewrite ST in *. rewrite SV in HR. lia.
Qed.

(** An integer accepted by a floating-point type is stored exactly. *)
Lemma neg_limit : forall V F, valid_ity V -> is_signed V = true -> 1 < prec F < digits V ->
  wrap V (2 ^ prec F) = 2 ^ prec F /\ in_range V (2 ^ prec F) /\
  wrap (promote V) (- 2 ^ prec F) = - 2 ^ prec F /\ in_range (promote V) (- 2 ^ prec F) /\
  valid_ity (promote V) /\ is_signed (promote V) = true.
Proof.
  intros V F HV SV HP. unfold digits in HP. rewrite SV in HP.
  assert (in_range V (2 ^ prec F)) as R1.
  { unfold in_range. rewrite SV. pose proof (Z.pow_lt_mono_r 2 (prec F) (width V - 1)).
    pose proof (Z.pow_pos_nonneg 2 (prec F)). lia. }
  assert (valid_ity (promote V) /\ is_signed (promote V) = true /\ width V <= width (promote V)) as (P1 & P2 & P3).
  { unfold promote. destruct (Z.ltb_spec (width V) 32); cbn [int32 width is_signed].
    - split; [apply int32_valid|]. split; [reflexivity|lia].
    - split; [assumption|]. split; [assumption|lia]. }
  assert (in_range (promote V) (- 2 ^ prec F)) as R2.
  { unfold in_range. rewrite P2. pose proof (Z.pow_lt_mono_r 2 (prec F) (width (promote V) - 1)).
    pose proof (Z.pow_pos_nonneg 2 (prec F)). lia. }
  pose proof (width_pos V HV). pose proof (width_pos _ P1).
  repeat split; auto using wrap_id.
Qed.

Lemma assignable_fi_bound : forall F V v, good_format F -> valid_ity V -> in_range V v ->
  assignable_fi F V v = true -> Z.abs v < 2 ^ prec F \/ (v = - 2 ^ digits V /\ digits V <= prec F).
Proof.
  intros F V v G HV HR H. pose proof (gf_prec F G). unfold assignable_fi in H.
  pose proof (width_pos V HV) as HW.
  destruct (Z.leb_spec (digits V) (prec F)) as [L|L].
  - pose proof (pow_le (digits V) (prec F) L). unfold digits, in_range in *. destruct (is_signed V).
    + destruct (Z.eq_dec v (- 2 ^ (width V - 1))); [right; auto|left; lia].
    + left. lia.
  - left. destruct (is_signed V) eqn:SV.
    + destruct (neg_limit V F HV SV ltac:(lia)) as (R0 & R1 & R2 & R3 & R4 & R5).
      rewrite R0, R2 in H.
      rewrite !clt_safe in H by (auto; left; congruence). lia.
    + assert (in_range V (2 ^ prec F)) as R1.
      { unfold in_range, digits in *. rewrite SV in *. pose proof (Z.pow_lt_mono_r 2 (prec F) (width V)).
        pose proof (Z.pow_pos_nonneg 2 (prec F)). lia. }
      rewrite wrap_id in H by auto. rewrite clt_safe in H by auto.
      unfold in_range in HR. rewrite SV in HR. lia.
Qed.

Lemma assignable_fi_exact : forall F V v, good_format F -> prec F < emax F ->
  valid_ity V -> in_range V v ->
  assignable_fi F V v = true -> in_format F (fl_of_Z v) = true.
Proof.
  intros F V v G HE HV HR H. destruct (assignable_fi_bound F V v G HV HR H) as [B|[-> B]].
  - apply fl_of_Z_in_format; auto; lia.
  - pose proof (width_pos V HV). unfold digits in *. destruct (is_signed V).
    + pose proof (Z.pow_pos_nonneg 2 (width V - 1) ltac:(lia) ltac:(lia)) as P.
      pose proof (fl_of_pow2 F (width V - 1) true G ltac:(lia)) as FP.
      destruct (2 ^ (width V - 1)) as [|p|p]; try lia. exact FP.
    + unfold in_range in HR. pose proof (Z.pow_pos_nonneg 2 (width V) ltac:(lia) ltac:(lia)) as P.
      pose proof (fl_of_pow2 F (width V) true G ltac:(lia)) as FP.
      destruct (2 ^ width V) as [|p|p]; try lia. exact FP.
Qed.

(** Narrowing of floating-point values. *)
Lemma scale_le : forall k j x y, j <= k -> (x <= y <-> x * 2 ^ (k - j) <= y * 2 ^ (k - j)).
Proof. intros k j x y H. apply Z.mul_le_mono_pos_r. apply Z.pow_pos_nonneg; lia. Qed.

Lemma scaled_shift : forall k j f, j <= k -> above k f -> scaled j f = scaled k f * 2 ^ (k - j).
Proof.
  intros k j [s|s| |s m e] H A; try reflexivity. cbn [scaled above] in *.
  replace (e - j) with ((e - k) + (k - j)) by lia. rewrite Z.pow_add_r by lia. ring.
Qed.

Lemma fle_finite : forall a b k, is_finite a = true -> is_finite b = true -> above k a -> above k b ->
  (fle a b = true <-> scaled k a <= scaled k b).
Proof.
  intros a b k Fa Fb Aa Ab.
  assert (fle a b = (scaled (Z.min (expo a) (expo b)) a <=? scaled (Z.min (expo a) (expo b)) b)) as ->.
  { destruct a, b; try discriminate; reflexivity. }
  set (l := Z.min (expo a) (expo b)). rewrite Z.leb_le.
  assert (forall f j, above l f -> above k f -> j <= k -> j <= l ->
    scaled j f = scaled l f * 2 ^ (l - j) /\ scaled j f = scaled k f * 2 ^ (k - j)) as SH.
  { intros f j A1 A2 J1 J2. split; apply scaled_shift; assumption. }
  set (j := Z.min k l).
  assert (above l a) as La by (destruct a; cbn; auto; subst l; cbn [expo]; lia).
  assert (above l b) as Lb by (destruct b; cbn; auto; subst l; cbn [expo]; lia).
  destruct (SH a j La Aa ltac:(lia) ltac:(lia)) as [A1 A2].
  destruct (SH b j Lb Ab ltac:(lia) ltac:(lia)) as [B1 B2].
  rewrite (scale_le l j) by lia. rewrite <- A1, <- B1.
  rewrite A2, B2. rewrite <- (scale_le k j) by lia. reflexivity.
Qed.

Lemma fmax_form : forall F s, good_format F -> exists m e, fmax F s = FFin s m e /\ emax F - prec F <= e.
Proof.
  intros F s G. pose proof (gf_prec F G). unfold fmax.
  pose proof (Z.pow_gt_1 2 (prec F) ltac:(lia)) as [P _]. specialize (P ltac:(lia)).
  destruct (2 ^ prec F - 1) as [|p|p] eqn:EP; try lia. cbn [mk].
  destruct (strip p) as [o k] eqn:E. apply strip_spec in E. exists o, (emax F - prec F + k).
  split; [reflexivity|lia].
Qed.

Lemma assignable_ff_exact : forall T V v k, good_format T -> prec T < prec V ->
  above k v -> k <= emax T - prec T ->
  (assignable_ff T V v = true <->
   is_finite v = true /\ Z.abs (scaled k v) <= (2 ^ prec T - 1) * 2 ^ (emax T - prec T - k)).
Proof.
  intros T V v k G HP A HK. unfold assignable_ff.
  replace (prec V <=? prec T) with false by lia. pose proof (gf_prec T G).
  destruct (fmax_form T true G) as (m1 & e1 & E1 & L1). destruct (fmax_form T false G) as (m2 & e2 & E2 & L2).
  assert (0 <= 2 ^ prec T - 1) as PP by (pose proof (Z.pow_pos_nonneg 2 (prec T)); lia).
  pose proof (scaled_mk true (2 ^ prec T - 1) (emax T - prec T) k PP HK) as S1.
  pose proof (scaled_mk false (2 ^ prec T - 1) (emax T - prec T) k PP HK) as S2.
  fold (fmax T true) in S1. fold (fmax T false) in S2.
  destruct (is_finite v) eqn:FV.
  - rewrite andb_true_iff.
    rewrite (fle_finite (fmax T true) v k), (fle_finite v (fmax T false) k);
      try assumption; try (rewrite E1; first [reflexivity|cbn; lia]);
      try (rewrite E2; first [reflexivity|cbn; lia]).
    rewrite S1, S2. lia.
  - split; [|intros [D _]; discriminate]. rewrite E1, E2.
    destruct v as [s|s| |s m e]; try discriminate; cbn; try discriminate. destruct s; discriminate.
Qed.

Lemma assignable_fi_exact_std : forall F V v, F = binary32 \/ F = binary64 ->
  valid_ity V -> in_range V v ->
  assignable_fi F V v = true -> in_format F (fl_of_Z v) = true.
Proof.
  intros F V v [-> | ->]; apply assignable_fi_exact; try apply good32; try apply good64; reflexivity.
Qed.

Lemma assignable_if_never : forall T F v, assignable_if T F v = false.
Proof. reflexivity. Qed.

Lemma narrowing_exact : forall v k, above k v -> k <= 104 ->
  (assignable_ff binary32 binary64 v = true <-> is_finite v = true /\ within binary32 k v).
Proof.
  intros v k A H. apply assignable_ff_exact; try apply good32; try assumption. all: try reflexivity.
Qed.

Lemma widening_exact : forall v, in_format binary32 v = true ->
  assignable_ff binary64 binary32 v = true /\ in_format binary64 v = true.
Proof. intros v H. split; [reflexivity|]. now apply float_in_double. Qed.
