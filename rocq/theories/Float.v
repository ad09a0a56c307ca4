(** Binary floating-point values as exact dyadic numbers.

    A finite non-zero value is [sign * m * 2^e] with [m] odd, so every number has one
    representation, whatever the format; float values are literally double values.
    NaN payloads are not modelled. *)
From Coq Require Import List Arith NArith ZArith Bool Lia ZifyBool.
Local Open Scope Z_scope.

Inductive fl : Set :=
| FZero (s : bool)
| FInf (s : bool)
| FNan
| FFin (s : bool) (m : positive) (e : Z).

(** A format: bits of significand, smallest exponent of its last bit, and the exponent
    [emax] such that finite magnitudes are below 2^emax. *)
Record format : Set := { prec : Z; emin : Z; emax : Z }.

Definition binary32 : format := {| prec := 24; emin := -149; emax := 128 |}.
Definition binary64 : format := {| prec := 53; emin := -1074; emax := 1024 |}.

(** Number of bits. *)
Definition bits (m : positive) : Z := Zpos (Pos.size m).

Definition odd_pos (m : positive) : bool := match m with xO _ => false | _ => true end.

(** The value is in canonical form and belongs to the format. *)
Definition in_format (fm : format) (f : fl) : bool :=
  match f with
  | FFin _ m e => odd_pos m && (bits m <=? prec fm) && (emin fm <=? e) && (bits m + e <=? emax fm)
  | _ => true
  end.

Definition is_finite (f : fl) : bool :=
  match f with FZero _ | FFin _ _ _ => true | _ => false end.

(** Odd part and number of factors two. *)
Fixpoint strip (m : positive) : positive * Z :=
  match m with
  | xO q => let '(o, k) := strip q in (o, k + 1)
  | _ => (m, 0)
  end.

(** The value [s n * 2^e]. *)
Definition mk (s : bool) (n : Z) (e : Z) : fl :=
  match n with
  | Zpos m => let '(o, k) := strip m in FFin s o (e + k)
  | _ => FZero s
  end.

Definition fl_of_Z (z : Z) : fl :=
  match z with
  | 0 => FZero false
  | Zpos m => mk false (Zpos m) 0
  | Zneg m => mk true (Zpos m) 0
  end.

(** Conversion to a format: round to nearest, ties to even, overflow to infinity
    (IEC 60559 behaviour of C++ floating-point conversions). *)
Definition round (fm : format) (f : fl) : fl :=
  match f with
  | FFin s m e =>
    let e' := Z.max (emin fm) (bits m + e - prec fm) in
    let r :=
      if e' <=? e then mk s (Zpos m) e
      else
        let sh := e' - e in
        let q := Zpos m / 2 ^ sh in
        let r := Zpos m mod 2 ^ sh in
        let half := 2 ^ (sh - 1) in
        mk s (if r <? half then q else if half <? r then q + 1
              else if Z.even q then q else q + 1) e' in
    match r with
    | FFin _ m' e'' => if emax fm <? bits m' + e'' then FInf s else r
    | _ => r
    end
  | _ => f
  end.

(** Numeric value of a finite number in units of 2^k. *)
Definition scaled (k : Z) (f : fl) : Z :=
  match f with
  | FFin s m e => (if s then -1 else 1) * (Zpos m * 2 ^ (e - k))
  | _ => 0
  end.

Definition expo (f : fl) : Z := match f with FFin _ _ e => e | _ => 0 end.

(** Exponent not below [k], so that [scaled k] is exact. *)
Definition above (k : Z) (f : fl) : Prop := match f with FFin _ _ e => k <= e | _ => True end.

(** * Facts *)

Lemma bits_spec : forall m, 2 ^ (bits m - 1) <= Zpos m < 2 ^ bits m.
Proof.
  intros m. unfold bits. split.
  - pose proof (Pos.size_le m). 
    replace (2 ^ (Z.pos (Pos.size m) - 1)) with (2 ^ Z.pos (Pos.size m) / 2).
    + apply Z.div_le_upper_bound; [lia|]. rewrite <- Pos2Z.inj_pow.
      change (2 * Z.pos m) with (Z.pos m~0). lia.
    + rewrite Z.pow_sub_r by lia. reflexivity.
  - rewrite <- Pos2Z.inj_pow. apply Pos2Z.pos_lt_pos. apply Pos.size_gt.
Qed.

Lemma bits_pos : forall m, 1 <= bits m.
Proof. intros. unfold bits. lia. Qed.

Lemma bits_unique : forall m n, 0 < n -> 2 ^ (n - 1) <= Zpos m < 2 ^ n -> bits m = n.
Proof.
  intros m n Hn H. pose proof (bits_spec m) as B. pose proof (bits_pos m).
  destruct (Z.lt_trichotomy (bits m) n) as [L|[L|L]]; [|assumption|]; exfalso.
  - pose proof (Z.pow_le_mono_r 2 (bits m) (n - 1) ltac:(lia) ltac:(lia)). lia.
  - pose proof (Z.pow_le_mono_r 2 n (bits m - 1) ltac:(lia) ltac:(lia)). lia.
Qed.

Lemma bits_le : forall m n, 0 <= n -> Zpos m < 2 ^ n -> bits m <= n.
Proof.
  intros m n Hn H. pose proof (bits_spec m) as B. pose proof (bits_pos m).
  destruct (Z.le_gt_cases (bits m) n) as [|L]; [assumption|].
  pose proof (Z.pow_le_mono_r 2 n (bits m - 1) ltac:(lia) ltac:(lia)). lia.
Qed.

Lemma strip_spec : forall m o k, strip m = (o, k) ->
  0 <= k /\ odd_pos o = true /\ Zpos m = Zpos o * 2 ^ k /\ bits m = bits o + k.
Proof.
  induction m as [m IH|m IH|]; intros o k H; cbn [strip] in H.
  - injection H as <- <-. rewrite Z.pow_0_r. repeat split; try lia.
  - destruct (strip m) as [o' k']. injection H as <- <-.
    destruct (IH o' k' eq_refl) as (A & B & C & D). repeat split; try lia; try assumption.
    + rewrite Z.pow_add_r by lia. change (Z.pos m~0) with (2 * Z.pos m). rewrite C.
      change (2 ^ 1) with 2. ring.
    + unfold bits in *. cbn [Pos.size]. lia.
  - injection H as <- <-. repeat split; lia.
Qed.

Lemma strip_odd : forall m, odd_pos m = true -> strip m = (m, 0).
Proof. intros [m|m|] H; try reflexivity. discriminate. Qed.

Lemma mk_odd : forall s m e, odd_pos m = true -> mk s (Zpos m) e = FFin s m e.
Proof. intros s m e H. cbn [mk]. rewrite strip_odd by assumption. f_equal. lia. Qed.

Lemma scaled_mk : forall s n e k, 0 <= n -> k <= e ->
  scaled k (mk s n e) = (if s then -1 else 1) * (n * 2 ^ (e - k)).
Proof.
  intros s [|m|m] e k Hn Hk; [cbn; destruct s; reflexivity| |lia]. cbn [mk].
  destruct (strip m) as [o j] eqn:E. apply strip_spec in E. destruct E as (A & B & C & _).
  cbn [scaled]. rewrite C. replace (e + j - k) with (j + (e - k)) by lia.
  rewrite Z.pow_add_r by lia. ring.
Qed.

(** The round-trip fact: numbers of the format are not changed. *)
Lemma round_exact : forall fm f, in_format fm f = true -> round fm f = f.
Proof.
  intros fm [s|s| |s m e] H; try reflexivity. cbn [in_format] in H. cbn [round].
  apply andb_true_iff in H. destruct H as [H H4]. apply andb_true_iff in H. destruct H as [H H3].
  apply andb_true_iff in H. destruct H as [H1 H2].
  replace (Z.max (emin fm) (bits m + e - prec fm) <=? e) with true by lia.
  rewrite mk_odd by assumption. cbn iota.
  replace (emax fm <? bits m + e) with false by lia. reflexivity.
Qed.

Lemma float_in_double : forall f, in_format binary32 f = true -> in_format binary64 f = true.
Proof.
  intros [s|s| |s m e] H; try reflexivity. cbn [in_format binary32 binary64 prec emin emax] in *.
  destruct (odd_pos m); cbn [andb] in *; [lia|discriminate].
Qed.

(** Rounded significand. *)
Definition rsig (m : positive) (sh : Z) : Z :=
  let q := Zpos m / 2 ^ sh in
  let r := Zpos m mod 2 ^ sh in
  let half := 2 ^ (sh - 1) in
  if r <? half then q else if half <? r then q + 1 else if Z.even q then q else q + 1.

Lemma rsig_spec : forall m sh, 0 < sh ->
  0 <= rsig m sh /\ 2 * Z.abs (Zpos m - rsig m sh * 2 ^ sh) <= 2 ^ sh /\
  (2 * Z.abs (Zpos m - rsig m sh * 2 ^ sh) = 2 ^ sh -> Z.even (rsig m sh) = true).
Proof.
  intros m sh H. unfold rsig.
  assert (2 ^ sh = 2 * 2 ^ (sh - 1)) as E.
  { replace sh with (1 + (sh - 1)) at 1 by lia. rewrite Z.pow_add_r by lia. reflexivity. }
  pose proof (Z.pow_pos_nonneg 2 (sh - 1) ltac:(lia) ltac:(lia)) as P.
  pose proof (Z.div_mod (Zpos m) (2 ^ sh) ltac:(lia)) as D.
  pose proof (Z.mod_pos_bound (Zpos m) (2 ^ sh) ltac:(lia)) as B.
  pose proof (Z.div_pos (Zpos m) (2 ^ sh) ltac:(lia) ltac:(lia)) as Q.
  set (q := Zpos m / 2 ^ sh) in *. set (r := Zpos m mod 2 ^ sh) in *.
  set (u := 2 ^ sh) in *. set (h := 2 ^ (sh - 1)) in *. clearbody q r u h.
  destruct (Z.ltb_spec r h), (Z.ltb_spec h r); cbn iota; try lia.
  destruct (Z.even q) eqn:EQ.
  - split; [lia|]. replace (Zpos m - q * u) with r by lia. split; [lia|auto].
  - split; [lia|]. replace (Zpos m - (q + 1) * u) with (r - u) by lia. split; [lia|].
      intros _. rewrite Z.even_add, EQ. reflexivity.
Qed.

(** Bits of the rounded significand. *)
Lemma rsig_le : forall m sh p, 0 < sh -> 0 < p -> bits m - sh <= p ->
  rsig m sh <= 2 ^ p.
Proof.
  intros m sh p Hs Hp Hb.
  pose proof (bits_spec m) as B.
  pose proof (bits_pos m) as BP.
  destruct (rsig_spec m sh Hs) as (R0 & R1 & _).
  pose proof (Z.pow_le_mono_r 2 (bits m) (p + sh) ltac:(lia) ltac:(lia)) as M.
  rewrite Z.pow_add_r in M by lia.
  pose proof (Z.pow_pos_nonneg 2 sh ltac:(lia) ltac:(lia)) as P.
  set (u := 2 ^ sh) in *. set (x := rsig m sh) in *. set (y := 2 ^ p) in *. clearbody u x y.
  destruct (Z.le_gt_cases x y) as [|L]; [assumption|]. exfalso.
  assert ((y + 1) * u <= x * u) by (apply Z.mul_le_mono_nonneg_r; lia). lia.
Qed.

Record good_format (fm : format) : Prop :=
  { gf_prec : 1 < prec fm; gf_emin : emin fm + prec fm < emax fm; gf_zero : emin fm <= 0 < emax fm }.

Lemma good32 : good_format binary32. Proof. split; cbn; lia. Qed.
Lemma good64 : good_format binary64. Proof. split; cbn; lia. Qed.

Lemma mk_in_format : forall fm s n e, good_format fm -> 0 <= n <= 2 ^ prec fm -> emin fm <= e ->
  match mk s n e with
  | FFin s' m' e' => s' = s /\ odd_pos m' = true /\ bits m' <= prec fm /\ emin fm <= e'
  | FZero s' => s' = s
  | _ => False
  end.
Proof.
  intros fm s [|m|m] e G Hn He; [reflexivity| |lia]. cbn [mk].
  destruct (strip m) as [o k] eqn:E. apply strip_spec in E. destruct E as (A & B & C & D).
  repeat split; try assumption; try lia. pose proof (gf_prec fm G).
  destruct (Z.eq_dec (Zpos m) (2 ^ prec fm)) as [EQ|NE].
  - assert (bits m = prec fm + 1) as EB.
    { apply bits_unique; [lia|]. rewrite EQ. replace (prec fm + 1 - 1) with (prec fm) by lia.
      split; [lia|]. apply Z.pow_lt_mono_r; lia. }
    destruct (Z.eq_dec k 0) as [->|]; [|lia]. exfalso.
    rewrite Z.pow_0_r, Z.mul_1_r in C.
    assert (Z.even (Zpos m) = true) as EV.
    { rewrite EQ. replace (prec fm) with (1 + (prec fm - 1)) by lia.
      rewrite Z.pow_add_r by lia. change (2 ^ 1) with 2. now rewrite Z.even_mul. }
    injection C as <-. destruct m; cbn in EV, B; discriminate.
  - pose proof (bits_le m (prec fm) ltac:(lia) ltac:(lia)). lia.
Qed.

Lemma round_form : forall fm s m e, good_format fm -> odd_pos m = true ->
  exists n e', emin fm <= e' /\ 0 <= n <= 2 ^ prec fm /\
    round fm (FFin s m e) =
      match mk s n e' with
      | FFin _ m' e'' => if emax fm <? bits m' + e'' then FInf s else mk s n e'
      | _ => mk s n e'
      end /\
    ((e' = e /\ n = Zpos m /\ bits m <= prec fm) \/
     (e < e' /\ n = rsig m (e' - e) /\ e' = Z.max (emin fm) (bits m + e - prec fm))).
Proof.
  intros fm s m e G O. pose proof (gf_prec fm G). cbn [round].
  destruct (Z.leb_spec (Z.max (emin fm) (bits m + e - prec fm)) e) as [L|L].
  - exists (Zpos m), e. pose proof (bits_spec m) as B.
    pose proof (Z.pow_le_mono_r 2 (bits m) (prec fm) ltac:(lia) ltac:(lia)).
    repeat split; try lia.
  - set (e' := Z.max (emin fm) (bits m + e - prec fm)) in *.
    exists (rsig m (e' - e)), e'. split; [lia|]. split.
    + split; [apply rsig_spec; lia|]. apply rsig_le; lia.
    + split; [reflexivity|]. right. repeat split; lia.
Qed.

Lemma round_in_format : forall fm f, good_format fm ->
  match f with FFin _ m _ => odd_pos m = true | _ => True end ->
  in_format fm (round fm f) = true.
Proof.
  intros fm [s|s| |s m e] G O; try reflexivity.
  destruct (round_form fm s m e G O) as (n & e' & He & Hn & -> & _).
  pose proof (mk_in_format fm s n e' G Hn He) as M.
  destruct (mk s n e') as [s'|s'| |s' m' e'']; try reflexivity.
  destruct M as (_ & M1 & M2 & M3).
  destruct (Z.ltb_spec (emax fm) (bits m' + e'')); [reflexivity|].
  cbn [in_format]. rewrite M1. lia.
Qed.

(** Nearest. *)
Lemma nearest_units : forall u X q j, 0 < u -> 2 * Z.abs (X - q * u) <= u ->
  Z.abs (X - q * u) <= Z.abs (X - j * u) /\
  (Z.abs (X - q * u) = Z.abs (X - j * u) -> j <> q -> 2 * Z.abs (X - q * u) = u /\ Z.abs (j - q) = 1).
Proof.
  intros u X q j Hu H.
  destruct (Z.lt_trichotomy j q) as [L|[->|L]].
  - assert (j * u <= (q - 1) * u) by (apply Z.mul_le_mono_nonneg_r; lia).
    split; [lia|]. intros E _. split; [lia|].
    assert (~ j <= q - 2); [|lia]. intros L2.
    assert (j * u <= (q - 2) * u) by (apply Z.mul_le_mono_nonneg_r; lia). lia.
  - split; [lia|]. intros _ K. now elim K.
  - assert ((q + 1) * u <= j * u) by (apply Z.mul_le_mono_nonneg_r; lia).
    split; [lia|]. intros E _. split; [lia|].
    assert (~ q + 2 <= j); [|lia]. intros L2.
    assert ((q + 2) * u <= j * u) by (apply Z.mul_le_mono_nonneg_r; lia). lia.
Qed.

Lemma even_strip : forall n m, Z.even n = true -> n = Zpos m -> exists o k, strip m = (o, k) /\ 1 <= k.
Proof.
  intros n m H ->. destruct m as [m|m|]; cbn in H; try discriminate. cbn [strip].
  destruct (strip m) as [o k] eqn:E. apply strip_spec in E. exists o, (k + 1). split; [reflexivity|lia].
Qed.

Lemma round_nearest : forall fm x f k, good_format fm ->
  match x with FFin _ m _ => odd_pos m = true | _ => True end ->
  is_finite x = true -> is_finite (round fm x) = true ->
  is_finite f = true -> in_format fm f = true ->
  above k x -> above k f -> above k (round fm x) ->
  Z.abs (scaled k x - scaled k (round fm x)) <= Z.abs (scaled k x - scaled k f) /\
  (Z.abs (scaled k x - scaled k (round fm x)) = Z.abs (scaled k x - scaled k f) ->
   scaled k f <> scaled k (round fm x) ->
   scaled k (round fm x) = 0 \/ expo f < expo (round fm x)).
Proof.
  intros fm x f k G O FX FR FF IF AX AF AR.
  destruct x as [s|s| |s m e]; try discriminate.
  { cbn [round scaled]. split; [lia|]. cbn. lia. }
  destruct (round_form fm s m e G O) as (n & e' & He & Hn & ER & HC).
  rewrite ER in *. clear ER.
  pose proof (mk_in_format fm s n e' G Hn He) as MF.
  assert (match mk s n e' with
          | FFin _ m' e'' => if emax fm <? bits m' + e'' then FInf s else mk s n e'
          | _ => mk s n e'
          end = mk s n e') as ER.
  { destruct (mk s n e') as [s'|s'| |s' m' e'']; try reflexivity.
    destruct (emax fm <? bits m' + e''); [discriminate|reflexivity]. }
  rewrite ER in *. clear ER. cbn [above] in AX.
  destruct HC as [(-> & -> & HB)|(HL & -> & HE)].
  { rewrite scaled_mk by lia. cbn [scaled]. split; [lia|]. intros E NE. lia. }
  (* rounding happens *)
  clear MF FX FR AR.
  assert (0 < e' - e) as HS by lia.
  destruct (rsig_spec m (e' - e) HS) as (R0 & R1 & R2).
  rewrite scaled_mk by lia. cbn [scaled].
  set (sg := if s then -1 else 1).
  set (q := rsig m (e' - e)) in *.
  set (w := 2 ^ (e - k)).
  assert (0 < w) as Hw by (apply Z.pow_pos_nonneg; lia).
  set (u := 2 ^ (e' - k)).
  assert (u = 2 ^ (e' - e) * w) as Eu.
  { subst u w. rewrite <- Z.pow_add_r by lia. f_equal. lia. }
  set (X := Zpos m * w).
  assert (2 * Z.abs (X - q * u) <= u /\ (2 * Z.abs (X - q * u) = u -> Z.even q = true)) as [HN HEV].
  { replace (X - q * u) with ((Zpos m - q * 2 ^ (e' - e)) * w) by (subst X; rewrite Eu; ring).
    rewrite Z.abs_mul, (Z.abs_eq w) by lia.
    replace (2 * (Z.abs (Zpos m - q * 2 ^ (e' - e)) * w)) with (2 * Z.abs (Zpos m - q * 2 ^ (e' - e)) * w) by ring.
    rewrite Eu. split.
    - apply Z.mul_le_mono_nonneg_r; lia.
    - intros E. apply R2. apply Z.mul_reg_r in E; [assumption|lia]. }
  assert (0 < u) as Hu by (apply Z.pow_pos_nonneg; lia).
  (* the other number in units of 2^k, sign adjusted *)
  set (F := sg * scaled k f).
  assert (scaled k f = sg * F) as EF by (subst F sg; destruct s; lia).
  rewrite EF.
  replace (sg * X - sg * (q * u)) with (sg * (X - q * u)) by ring.
  replace (sg * X - sg * F) with (sg * (X - F)) by ring.
  rewrite !Z.abs_mul. assert (Z.abs sg = 1) as -> by (subst sg; destruct s; reflexivity).
  rewrite !Z.mul_1_l.
  assert (sg * F <> sg * (q * u) <-> F <> q * u) as -> by (subst sg; destruct s; lia).
  assert (sg * (q * u) = 0 <-> q = 0) as ->.
  { clear - Hu. subst sg. destruct (Z.mul_eq_0 q u) as [M _].
    destruct s; (split; intros H; [destruct M; lia|rewrite H; reflexivity]). }
  (* F is a multiple of u, or F < 2^(bits-1) <= X in those units, or negative *)
  assert ((exists j, F = j * u) \/
          (exists g, F < g * u <= X /\ 0 < g)) as [[j ->]|(g & [G1 G2] & G3)].
  { destruct f as [sf|sf| |sf mf ef]; try discriminate.
    - left. exists 0. subst F. cbn. lia.
    - cbn [in_format] in IF. cbn [above] in AF. clear FF HEV R2.
      apply andb_true_iff in IF. destruct IF as [IF I4]. apply andb_true_iff in IF. destruct IF as [IF I3].
      apply andb_true_iff in IF. destruct IF as [I1 I2]. apply Z.leb_le in I2, I3, I4.
      destruct (Z.le_gt_cases e' ef) as [LE|GT].
      + left. exists (sg * ((if sf then -1 else 1) * (Zpos mf * 2 ^ (ef - e')))).
        subst F u. cbn [scaled]. replace (ef - k) with ((ef - e') + (e' - k)) by lia.
        rewrite Z.pow_add_r by lia. ring.
      + right. pose proof (bits_spec m) as B. pose proof (bits_spec mf) as BF.
        assert (e' = bits m + e - prec fm) as E' by lia.
        pose proof (gf_prec fm G).
        exists (2 ^ (prec fm - 1)). split; [|apply Z.pow_pos_nonneg; lia]. split.
        * assert (F <= Zpos mf * 2 ^ (ef - k)) as LF.
          { subst F. cbn [scaled]. pose proof (Z.pow_pos_nonneg 2 (ef - k) ltac:(lia) ltac:(lia)).
            pose proof (Z.mul_nonneg_nonneg (Zpos mf) (2 ^ (ef - k)) ltac:(lia) ltac:(lia)) as NN.
            generalize dependent (Zpos mf * 2 ^ (ef - k)). clear. intros z NN.
            subst sg; destruct s, sf; lia. }
          assert (Zpos mf < 2 ^ prec fm) as LM.
          { apply Z.lt_le_trans with (2 ^ bits mf); [lia|]. apply Z.pow_le_mono_r; lia. }
          assert (Zpos mf * 2 ^ (ef - k) < 2 ^ prec fm * 2 ^ (ef - k)) as L2.
          { apply Z.mul_lt_mono_pos_r; [apply Z.pow_pos_nonneg; lia|assumption]. }
          assert (2 ^ prec fm * 2 ^ (ef - k) <= 2 ^ (prec fm - 1) * u) as L3.
          { subst u. rewrite <- !Z.pow_add_r by lia. apply Z.pow_le_mono_r; lia. }
          lia.
        * subst X u w. rewrite <- Z.pow_add_r by lia.
          replace (prec fm - 1 + (e' - k)) with ((bits m - 1) + (e - k)) by lia.
          rewrite Z.pow_add_r by lia. apply Z.mul_le_mono_nonneg_r; lia. }
  - destruct (nearest_units u X q j Hu HN) as [N1 N2]. split; [assumption|].
    intros E NE. assert (j <> q) as NJ by congruence.
    destruct (N2 E NJ) as [T1 T2]. specialize (HEV T1).
    destruct (Z.eq_dec q 0) as [|NQ]; [left; assumption|right].
    (* q even, so exponent of the result is above e'; j odd, so exponent of f is e' *)
    destruct q as [|qp|qp] eqn:Eq; [congruence| |lia].
    destruct (even_strip (Zpos qp) qp HEV eq_refl) as (o & kk & ES & KK).
    cbn [mk]. rewrite ES. cbn [expo].
    destruct f as [sf|sf| |sf mf ef]; try discriminate.
    { (* zero: then j = 0, q = 1 odd *)
      exfalso. cbn [scaled] in EF. assert (j = 0) as J0.
      { clear - EF Hu. destruct (Z.mul_eq_0 j u) as [M _]. subst sg. destruct s; destruct M; lia. }
      subst j. assert (Zpos qp = 1) as E1 by lia. rewrite E1 in HEV. discriminate. }
    cbn [expo]. destruct (Z.le_gt_cases ef e') as [|GT]; [lia|]. exfalso.
    assert (Z.even j = true) as EJ.
    { cbn [scaled] in EF.
      assert (sg * (if sf then -1 else 1) * (Zpos mf * 2 ^ (ef - e')) * u = j * u) as EJ.
      { transitivity (sg * ((if sf then -1 else 1) * (Zpos mf * 2 ^ (ef - k)))).
        - subst u. replace (ef - k) with ((ef - e') + (e' - k)) by lia.
          rewrite Z.pow_add_r by lia. ring.
        - rewrite EF. subst sg. destruct s; ring. }
      apply Z.mul_reg_r in EJ; [|lia]. rewrite <- EJ.
      rewrite Z.even_mul. apply orb_true_iff. right.
      rewrite Z.even_mul. apply orb_true_iff. right.
      replace (ef - e') with (1 + (ef - e' - 1)) by lia. rewrite Z.pow_add_r by lia.
      change (2 ^ 1) with 2. now rewrite Z.even_mul. }
    assert (j = Zpos qp + 1 \/ j = Zpos qp - 1) as [-> | ->] by lia;
      rewrite ?Z.even_add, ?Z.even_sub, HEV in EJ; discriminate.
  - destruct (nearest_units u X q g Hu HN) as [N1 _]. split; [lia|].
    intros E NE. exfalso. lia.
Qed.

(** Overflow is decided as in IEEE 754: the result rounded without a bound on the exponent
    has magnitude 2^emax or more. *)
Definition unbounded (fm : format) (emax' : Z) : format :=
  {| prec := prec fm; emin := emin fm; emax := emax' |}.

Lemma round_overflow : forall fm s m e emax', good_format fm -> odd_pos m = true ->
  is_finite (round (unbounded fm emax') (FFin s m e)) = true ->
  emax fm <= emax' ->
  round fm (FFin s m e) =
    match round (unbounded fm emax') (FFin s m e) with
    | FFin s' m' e' => if 2 ^ (emax fm - Z.min e' (emax fm)) <=? Zpos m' * 2 ^ (e' - Z.min e' (emax fm))
                       then FInf s else FFin s' m' e'
    | r => r
    end.
Proof.
  intros fm s m e emax' G O FR HE. cbn [round unbounded prec emin emax] in *.
  set (r := if Z.max (emin fm) (bits m + e - prec fm) <=? e then _ else _) in *.
  clearbody r. destruct r as [s'|s'| |s' m' e']; try reflexivity.
  destruct (Z.ltb_spec emax' (bits m' + e')); [discriminate|].
  pose proof (bits_spec m') as B. pose proof (bits_pos m') as BP.
  destruct (Z.ltb_spec (emax fm) (bits m' + e')) as [L|L].
  - replace (2 ^ (emax fm - Z.min e' (emax fm)) <=? Zpos m' * 2 ^ (e' - Z.min e' (emax fm))) with true; [reflexivity|].
    symmetry. apply Z.leb_le. 
    apply Z.le_trans with (2 ^ (bits m' - 1) * 2 ^ (e' - Z.min e' (emax fm))).
    + rewrite <- Z.pow_add_r by lia. apply Z.pow_le_mono_r; lia.
    + apply Z.mul_le_mono_nonneg_r; [apply Z.pow_nonneg; lia|lia].
  - replace (2 ^ (emax fm - Z.min e' (emax fm)) <=? Zpos m' * 2 ^ (e' - Z.min e' (emax fm))) with false; [reflexivity|].
    symmetry. apply Z.leb_gt.
    apply Z.lt_le_trans with (2 ^ bits m' * 2 ^ (e' - Z.min e' (emax fm))).
    + apply Z.mul_lt_mono_pos_r; [apply Z.pow_pos_nonneg; lia|lia].
    + rewrite <- Z.pow_add_r by lia. apply Z.pow_le_mono_r; lia.
Qed.

Lemma scaled_of_Z : forall z k, k <= 0 -> scaled k (fl_of_Z z) = z * 2 ^ (- k).
Proof.
  intros [|p|p] k H; unfold fl_of_Z; [reflexivity| |]; rewrite scaled_mk by lia;
    replace (0 - k) with (- k) by lia; [ring|].
  change (Z.neg p) with (- Z.pos p). ring.
Qed.

(** Integers of at most [prec] bits are exact. *)
Lemma fl_of_Z_in_format : forall fm z, good_format fm -> Z.abs z < 2 ^ prec fm -> prec fm <= emax fm ->
  in_format fm (fl_of_Z z) = true.
Proof.
  intros fm z G H HE. pose proof (gf_prec fm G). pose proof (gf_zero fm G).
  destruct z as [|p|p]; [reflexivity| |]; cbn [fl_of_Z mk Z.abs] in *;
  destruct (strip p) as [o k] eqn:E; apply strip_spec in E; destruct E as (A & B & C & D);
  pose proof (bits_le p (prec fm) ltac:(lia) H); cbn [in_format]; rewrite B; lia.
Qed.

Lemma fl_of_pow2 : forall fm n s, good_format fm -> 0 <= n < emax fm ->
  in_format fm (mk s (2 ^ n) 0) = true.
Proof.
  intros fm n s G H. pose proof (gf_prec fm G). pose proof (gf_zero fm G).
  destruct (2 ^ n) as [|p|p] eqn:E; [reflexivity| |reflexivity]. cbn [mk].
  destruct (strip p) as [o k] eqn:ES. apply strip_spec in ES. destruct ES as (A & B & C & D).
  assert (bits p = n + 1) as EB.
  { apply bits_unique; [lia|]. rewrite <- E. replace (n + 1 - 1) with n by lia.
    split; [lia|]. apply Z.pow_lt_mono_r; lia. }
  assert (o = 1%positive) as ->.
  { destruct (Z.le_gt_cases n k) as [L|L].
    - assert (bits o <= 1) as B1 by lia. destruct o as [o|o|]; [| |reflexivity]; unfold bits in B1;
        cbn [Pos.size] in B1; lia.
    - exfalso. rewrite C in E. replace n with (1 + (n - k - 1) + k) in E by lia.
      rewrite Z.pow_add_r in E by lia. apply Z.mul_reg_r in E; [|pose proof (Z.pow_pos_nonneg 2 k); lia].
      rewrite Z.pow_add_r in E by lia. change (2 ^ 1) with 2 in E.
      destruct o; cbn in B; try discriminate; lia. }
  cbn [in_format odd_pos]. change (bits 1) with 1 in *. lia.
Qed.

(** Comparison of numbers; false with NaN. *)
Definition fle (a b : fl) : bool :=
  match a, b with
  | FNan, _ | _, FNan => false
  | FInf true, _ | _, FInf false => true
  | FInf false, _ | _, FInf true => false
  | _, _ => let k := Z.min (expo a) (expo b) in scaled k a <=? scaled k b
  end.

(** numeric_limits<T>::max() *)
Definition fmax (fm : format) (s : bool) : fl := mk s (2 ^ prec fm - 1) (emax fm - prec fm).
