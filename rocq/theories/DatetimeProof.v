(** Proofs about dates and times. *)
From Coq Require Import List Arith NArith ZArith Ascii String Bool Lia ZifyBool ZifyNat ZifyN.
From Verif Require Import Base Decimal10 DatetimeModel DatetimeSpec.
Import ListNotations.
Local Open Scope Z_scope.

Ltac Zify.zify_post_hook ::= Z.div_mod_to_equations.

(** * Calendar *)

Lemma leapb_model : forall y, is_leap_year y = leapb y.
Proof.
  intros y. unfold is_leap_year, leapb.
  destruct (Z.eqb_spec (y mod 400) 0), (Z.eqb_spec (y mod 100) 0), (Z.eqb_spec (y mod 4) 0);
    cbn; try reflexivity; lia.
Qed.

Lemma valid_model : forall y m d, is_valid_date y m d = true <-> date_ok y m d.
Proof.
  intros y m d. unfold is_valid_date, date_ok, month_days. rewrite leapb_model.
  cbn [existsb]. destruct (leapb y);
  destruct (Z.ltb_spec d 1); [split; [discriminate|lia]| |split; [discriminate|lia]|];
  repeat match goal with
  | |- context [m =? ?k] => destruct (Z.eqb_spec m k); cbn [orb]
  end; try rewrite Z.leb_le; try lia; split; try discriminate; lia.
Qed.

Ltac months m :=
  let H := fresh in
  assert (m = 1 \/ m = 2 \/ m = 3 \/ m = 4 \/ m = 5 \/ m = 6 \/ m = 7 \/ m = 8 \/ m = 9 \/
          m = 10 \/ m = 11 \/ m = 12) as H by lia;
  destruct H as [?|[?|[?|[?|[?|[?|[?|[?|[?|[?|[?|?]]]]]]]]]]]; subst m.

Definition feb (y : Z) : Z := y / 4 - y / 100 + y / 400 - ((y - 1) / 4 - (y - 1) / 100 + (y - 1) / 400).

Lemma feb_leap : forall y, feb y = if leapb y then 1 else 0.
Proof.
  intros y. unfold feb, leapb.
  destruct (Z.eqb_spec (y mod 400) 0), (Z.eqb_spec (y mod 100) 0), (Z.eqb_spec (y mod 4) 0); lia.
Qed.

(** Number of days before a month within the year, for both kinds of year. *)
Lemma days_next : forall y m d y' m' d', date_ok y m d -> next_day y m d = (y', m', d') ->
  date_ok y' m' d' /\ days_from_civil y' m' d' = days_from_civil y m d + 1.
Proof.
  intros y m d y' m' d' [Hm Hd] H. unfold next_day in H.
  pose proof (feb_leap y) as HF. unfold feb in HF.
  unfold date_ok. unfold month_days in *. unfold days_from_civil.
  set (A := y / 4 - y / 100 + y / 400) in *.
  set (B := (y - 1) / 4 - (y - 1) / 100 + (y - 1) / 400) in *.
  destruct (leapb y) eqn:EL; months m; cbn [Z.eqb Pos.eqb orb Z.ltb Z.compare Pos.compare Pos.compare_cont] in *;
  match type of H with context [d <? ?k] => destruct (Z.ltb_spec d k) end;
  injection H as <- <- <-; cbn [Z.eqb Pos.eqb orb Z.leb Z.compare Pos.compare Pos.compare_cont];
  rewrite ?EL; try lia.
  all: replace (y + 1 - 1) with y by lia.
  all: lia.
Qed.

(** Start of a year, and the days of a year. *)
Lemma year_bounds : forall y m d, date_ok y m d ->
  days_from_civil y 1 1 <= days_from_civil y m d < days_from_civil (y + 1) 1 1.
Proof.
  intros y m d [Hm Hd]. pose proof (feb_leap y) as HF. unfold feb in HF.
  unfold month_days in *. unfold days_from_civil.
  replace (y + 1 - 1) with y by lia.
  set (A := y / 4 - y / 100 + y / 400) in *.
  set (B := (y - 1) / 4 - (y - 1) / 100 + (y - 1) / 400) in *.
  destruct (leapb y) eqn:EL; months m; cbn [Z.eqb Pos.eqb orb Z.leb Z.compare Pos.compare Pos.compare_cont] in *;
    lia.
Qed.

Lemma year_start_mono : forall y y', y <= y' -> days_from_civil y 1 1 <= days_from_civil y' 1 1.
Proof. intros y y' H. unfold days_from_civil. cbn [Z.leb Z.compare Pos.compare Pos.compare_cont]. lia. Qed.

Definition date_lt (y m d y' m' d' : Z) : Prop :=
  y < y' \/ (y = y' /\ (m < m' \/ (m = m' /\ d < d'))).

Lemma days_mono : forall y m d y' m' d', date_ok y m d -> date_ok y' m' d' ->
  date_lt y m d y' m' d' -> days_from_civil y m d < days_from_civil y' m' d'.
Proof.
  intros y m d y' m' d' H H' [L|[<- L]].
  - pose proof (year_bounds _ _ _ H). pose proof (year_bounds _ _ _ H').
    pose proof (year_start_mono (y + 1) y' ltac:(lia)). lia.
  - destruct L as [L|[<- L]]; [|unfold days_from_civil; destruct (m <=? 2); lia].
    destruct H as [Hm Hd], H' as [Hm' Hd']. pose proof (feb_leap y) as HF. unfold feb in HF.
    unfold month_days in *. unfold days_from_civil.
    set (A := y / 4 - y / 100 + y / 400) in *.
    set (B := (y - 1) / 4 - (y - 1) / 100 + (y - 1) / 400) in *.
    destruct (leapb y) eqn:EL; months m;
      cbn [Z.eqb Pos.eqb orb Z.leb Z.compare Pos.compare Pos.compare_cont] in *;
      destruct (Z.leb_spec m' 2); lia.
Qed.

Lemma date_lt_total : forall y m d y' m' d',
  date_lt y m d y' m' d' \/ (y, m, d) = (y', m', d') \/ date_lt y' m' d' y m d.
Proof.
  intros y m d y' m' d'. unfold date_lt.
  assert ((y = y' /\ m = m' /\ d = d') \/ ~ (y = y' /\ m = m' /\ d = d')) as [(-> & -> & ->)|H] by lia;
    [auto|lia].
Qed.

Lemma days_inj : forall y m d y' m' d', date_ok y m d -> date_ok y' m' d' ->
  days_from_civil y m d = days_from_civil y' m' d' -> (y, m, d) = (y', m', d').
Proof.
  intros y m d y' m' d' H H' E.
  destruct (date_lt_total y m d y' m' d') as [L|[L|L]]; [|assumption|].
  - pose proof (days_mono _ _ _ _ _ _ H H' L). lia.
  - pose proof (days_mono _ _ _ _ _ _ H' H L). lia.
Qed.

(** One era of 400 years, starting on the first of March. *)
Lemma era_ok : forall doe, 0 <= doe < 146097 ->
  let c := Z.min (doe / 36524) 3 in
  let q := (doe - c * 36524) / 1461 in
  let k := Z.min ((doe - c * 36524 - q * 1461) / 365) 3 in
  let yoe := 100 * c + 4 * q + k in
  let doy := doe - c * 36524 - q * 1461 - k * 365 in
  0 <= yoe < 400 /\ doe = 365 * yoe + yoe / 4 - yoe / 100 + doy /\
  0 <= doy < (if leapb (yoe + 1) then 366 else 365).
Proof.
  intros doe H c q k yoe doy.
  assert (0 <= c <= 3 /\ 36524 * c <= doe /\ (c < 3 -> doe < 36524 * (c + 1))) as (C1 & C2 & C3)
    by (subst c; lia).
  clearbody c.
  assert (0 <= q <= 24 /\ 0 <= doe - c * 36524 - q * 1461 < 1461) as (Q1 & Q2) by (subst q; lia).
  clearbody q.
  assert (0 <= k <= 3 /\ 0 <= doy /\ (k < 3 -> doy < 365)) as (K1 & K2 & K3) by (subst k doy; lia).
  clearbody k.
  assert (yoe / 4 = 25 * c + q /\ yoe / 100 = c) as [-> ->] by (subst yoe; lia).
  split; [subst yoe; lia|]. split; [subst yoe doy; lia|].
  split; [assumption|]. unfold leapb.
  destruct (Z.eqb_spec ((yoe + 1) mod 400) 0), (Z.eqb_spec ((yoe + 1) mod 100) 0),
    (Z.eqb_spec ((yoe + 1) mod 4) 0); subst yoe doy; lia.
Qed.

(** Month and day from the day of a year that starts in March. *)
Lemma month_ok : forall y doy, 0 <= doy < (if leapb (y + 1) then 366 else 365) ->
  let mp := (5 * doy + 2) / 153 in
  let d := doy - (153 * mp + 2) / 5 + 1 in
  let m := if mp <? 10 then mp + 3 else mp - 9 in
  0 <= mp < 12 /\ 1 <= d <= month_days (if m <=? 2 then y + 1 else y) m.
Proof.
  intros y doy H mp d m.
  assert (doy < 366) by (destruct (leapb (y + 1)); lia).
  assert (0 <= mp < 12) as HM by (subst mp; lia).
  assert (153 * mp <= 5 * doy + 2 < 153 * mp + 153) as HB by (subst mp; lia).
  split; [assumption|]. clearbody mp. subst m d. unfold month_days.
  assert (mp = 0 \/ mp = 1 \/ mp = 2 \/ mp = 3 \/ mp = 4 \/ mp = 5 \/ mp = 6 \/ mp = 7 \/ mp = 8 \/
          mp = 9 \/ mp = 10 \/ mp = 11) as HC by lia.
  destruct HC as [?|[?|[?|[?|[?|[?|[?|[?|[?|[?|[?|?]]]]]]]]]]]; subst mp;
    repeat match goal with |- context [if ?b then _ else _] =>
      match eval vm_compute in b with
      | true => change b with true; cbn iota
      | false => change b with false; cbn iota
      end end; try lia.
  destruct (leapb (y + 1)); lia.
Qed.

Lemma leapb_shift : forall y k, leapb (y + k * 400) = leapb y.
Proof.
  intros y k. unfold leapb.
  replace ((y + k * 400) mod 400) with (y mod 400) by lia.
  replace ((y + k * 400) mod 100) with (y mod 100) by lia.
  replace ((y + k * 400) mod 4) with (y mod 4) by lia. reflexivity.
Qed.

Lemma month_days_shift : forall y k m, month_days (y + k * 400) m = month_days y m.
Proof. intros. unfold month_days. now rewrite leapb_shift. Qed.

Lemma civil_ok : forall n y m d, civil_from_days n = (y, m, d) ->
  date_ok y m d /\ days_from_civil y m d = n.
Proof.
  intros n y m d H. unfold civil_from_days in H.
  set (z := n + 719468) in *. set (era := z / 146097) in *. set (doe := z mod 146097) in *.
  assert (z = 146097 * era + doe /\ 0 <= doe < 146097) as [Hz Hdoe] by (subst era doe; lia).
  pose proof (era_ok doe Hdoe) as C. cbn zeta in C.
  set (c := Z.min (doe / 36524) 3) in *.
  set (q := (doe - c * 36524) / 1461) in *.
  set (k := Z.min ((doe - c * 36524 - q * 1461) / 365) 3) in *.
  set (yoe := 100 * c + 4 * q + k) in *.
  set (doy := doe - c * 36524 - q * 1461 - k * 365) in *.
  destruct C as (CY & CD & CB). pose proof (month_ok yoe doy CB) as M. cbn zeta in M.
  clearbody era doe yoe doy. clear c q k.
  set (mp := (5 * doy + 2) / 153) in *. clearbody mp.
  destruct M as ((C3 & C4) & C5 & C6).
  apply pair_equal_spec in H. destruct H as [H Hd]. apply pair_equal_spec in H. destruct H as [Hy Hm].
  rewrite Hm in C6, Hy. rewrite Hd in C5, C6.
  assert (y = (if m <=? 2 then yoe + 1 else yoe) + era * 400) as Ey
    by (rewrite <- Hy; destruct (m <=? 2); lia).
  split.
  - unfold date_ok. rewrite Ey, month_days_shift. split; [|lia].
    destruct (Z.ltb_spec mp 10); lia.
  - unfold days_from_civil. rewrite Ey.
    replace (if m <=? 2 then m + 9 else m - 3) with mp
      by (rewrite <- Hm; destruct (Z.ltb_spec mp 10);
          match goal with |- context [?a <=? 2] => destruct (Z.leb_spec a 2) end; lia).
    set (Y := if m <=? 2 then (if m <=? 2 then yoe + 1 else yoe) + era * 400 - 1
              else (if m <=? 2 then yoe + 1 else yoe) + era * 400).
    assert (Y = yoe + era * 400) as -> by (subst Y; destruct (m <=? 2); lia).
    subst z. lia.
Qed.

Lemma civil_days : forall y m d, date_ok y m d -> civil_from_days (days_from_civil y m d) = (y, m, d).
Proof.
  intros y m d H. destruct (civil_from_days (days_from_civil y m d)) as [[y' m'] d'] eqn:E.
  apply civil_ok in E. destruct E as [H' E]. now apply days_inj.
Qed.

(** The model's day numbers are those of the calendar counted day by day. *)
Lemma cal_sound : forall y m d n, cal y m d n -> date_ok y m d /\ days_from_civil y m d = n.
Proof.
  induction 1 as [|y m d n y' m' d' H [IH1 IH2] E|y m d n y' m' d' H [IH1 IH2] O E].
  - split; [unfold date_ok; cbn; lia|reflexivity].
  - destruct (days_next _ _ _ _ _ _ IH1 E) as [A B]. split; [assumption|lia].
  - destruct (days_next _ _ _ _ _ _ O E) as [A B]. split; [assumption|lia].
Qed.

Definition cal_at (n : Z) : Prop := let '(y, m, d) := civil_from_days n in cal y m d n.

Lemma civil_next : forall n y m d, civil_from_days n = (y, m, d) ->
  next_day y m d = civil_from_days (n + 1).
Proof.
  intros n y m d E. apply civil_ok in E. destruct E as [H E].
  destruct (next_day y m d) as [[y' m'] d'] eqn:EN.
  destruct (days_next _ _ _ _ _ _ H EN) as [A B].
  rewrite <- E, <- B. now rewrite civil_days.
Qed.

Lemma cal_at_all : forall n, cal_at n.
Proof.
  assert (cal_at 0) as H0 by exact cal_epoch.
  assert (forall k, cal_at (Z.of_nat k)) as HP.
  { induction k as [|k IH]; [exact H0|]. replace (Z.of_nat (S k)) with (Z.of_nat k + 1) by lia.
    unfold cal_at in *. destruct (civil_from_days (Z.of_nat k)) as [[y m] d] eqn:E.
    apply civil_next in E. destruct (civil_from_days (Z.of_nat k + 1)) as [[y' m'] d'].
    econstructor; eassumption. }
  assert (forall k, cal_at (- Z.of_nat k)) as HN.
  { induction k as [|k IH]; [exact H0|]. replace (- Z.of_nat (S k)) with (- Z.of_nat k - 1) by lia.
    unfold cal_at in *. destruct (civil_from_days (- Z.of_nat k - 1)) as [[y m] d] eqn:E.
    pose proof E as EC. apply civil_next in E. apply civil_ok in EC.
    replace (- Z.of_nat k - 1 + 1) with (- Z.of_nat k) in E by lia.
    destruct (civil_from_days (- Z.of_nat k)) as [[y' m'] d'].
    eapply cal_prev; [eassumption|tauto|eassumption]. }
  intros n. destruct (Z.le_gt_cases 0 n).
  - replace n with (Z.of_nat (Z.to_nat n)) by lia. apply HP.
  - replace n with (- Z.of_nat (Z.to_nat (- n))) by lia. apply HN.
Qed.

Lemma cal_iff : forall y m d n, cal y m d n <-> date_ok y m d /\ days_from_civil y m d = n.
Proof.
  intros y m d n. split; [apply cal_sound|]. intros [H <-].
  pose proof (cal_at_all (days_from_civil y m d)) as C. unfold cal_at in C.
  now rewrite civil_days in C.
Qed.

Lemma instant_iff : forall y m d hh mi ss t,
  instant y m d hh mi ss t <->
  date_ok y m d /\ time_ok hh mi ss /\ t = utc_to_posix y m d hh mi ss.
Proof.
  intros. unfold instant, utc_to_posix. split.
  - intros [H (n & C & E)]. apply cal_iff in C. destruct C as [C <-]. auto.
  - intros (H & T & E). split; [assumption|]. exists (days_from_civil y m d).
    split; [|assumption]. apply cal_iff. auto.
Qed.

(** * Fixed-width fields *)

Lemma dig_digit : forall v, 0 <= v < 10 -> dig v = digit_char (Z.to_N v).
Proof. reflexivity. Qed.

Lemma some_inj : forall (A : Type) (x y : A), Some x = Some y -> x = y.
Proof. intros A x y H. congruence. Qed.

Lemma from_digits2 : forall a b v,
  from_digits [a; b] = Some v <-> 0 <= v <= 99 /\ [a; b] = pad2 v.
Proof.
  intros a b v. unfold from_digits, undec. cbn [forallb]. rewrite andb_true_r.
  split.
  - destruct (is_digit a) eqn:Ea, (is_digit b) eqn:Eb; cbn [andb]; try discriminate.
    apply is_digit_char in Ea, Eb. destruct Ea as [La Ea], Eb as [Lb Eb].
    unfold digits_val. cbn [fold_left]. intros H. apply some_inj in H.
    subst v. split; [lia|]. unfold pad2. rewrite !dig_digit by lia. f_equal; [|f_equal].
    + rewrite Ea at 1. f_equal. lia.
    + rewrite Eb at 1. f_equal. lia.
  - intros [L E]. unfold pad2 in E. rewrite !dig_digit in E by lia.
    injection E as -> ->.
    destruct (digit_char_small (Z.to_N (v / 10 mod 10)) ltac:(lia)) as [-> H1].
    destruct (digit_char_small (Z.to_N (v mod 10)) ltac:(lia)) as [-> H2]. cbn [andb].
    unfold digits_val. cbn [fold_left]. rewrite H1, H2. f_equal. lia.
Qed.

Lemma from_digits4 : forall a b c d v,
  from_digits [a; b; c; d] = Some v <-> 0 <= v <= 9999 /\ [a; b; c; d] = pad4 v.
Proof.
  intros a b c d v. unfold from_digits, undec. cbn [forallb]. rewrite andb_true_r.
  split.
  - destruct (is_digit a) eqn:Ea, (is_digit b) eqn:Eb, (is_digit c) eqn:Ec, (is_digit d) eqn:Ed;
      cbn [andb]; try discriminate.
    apply is_digit_char in Ea, Eb, Ec, Ed.
    destruct Ea as [La Ea], Eb as [Lb Eb], Ec as [Lc Ec], Ed as [Ld Ed].
    unfold digits_val. cbn [fold_left]. intros H. apply some_inj in H.
    subst v. split; [lia|]. unfold pad4. rewrite !dig_digit by lia.
    repeat f_equal; match goal with |- ?x = _ =>
      match goal with E : x = _ |- _ => rewrite E at 1 end end; f_equal; lia.
  - intros [L E]. unfold pad4 in E. rewrite !dig_digit in E by lia.
    injection E as -> -> -> ->.
    destruct (digit_char_small (Z.to_N (v / 1000 mod 10)) ltac:(lia)) as [-> H1].
    destruct (digit_char_small (Z.to_N (v / 100 mod 10)) ltac:(lia)) as [-> H2].
    destruct (digit_char_small (Z.to_N (v / 10 mod 10)) ltac:(lia)) as [-> H3].
    destruct (digit_char_small (Z.to_N (v mod 10)) ltac:(lia)) as [-> H4]. cbn [andb].
    unfold digits_val. cbn [fold_left]. rewrite H1, H2, H3, H4. f_equal. lia.
Qed.

Lemma decZ_nonneg : forall v, 0 <= v -> decZ v = dec (Z.to_N v).
Proof. intros [|p|p] H; try reflexivity. lia. Qed.

Lemma dec1 : forall v, 0 <= v < 10 -> decZ v = [dig v].
Proof. intros v H. rewrite decZ_nonneg, dec_small, dig_digit by lia. reflexivity. Qed.

Lemma dec_step : forall v, 10 <= v -> decZ v = decZ (v / 10) ++ [dig (v mod 10)].
Proof.
  intros v H. rewrite !decZ_nonneg, dec_big, dig_digit by lia.
  replace (Z.to_N v / 10)%N with (Z.to_N (v / 10)) by lia.
  replace (Z.to_N v mod 10)%N with (Z.to_N (v mod 10)) by lia. reflexivity.
Qed.

Lemma dig0 : forall v, v = 0 -> "0"%char = dig v.
Proof. intros v ->. reflexivity. Qed.

Lemma cons_eq : forall (x y : ascii) l l', x = y -> l = l' -> x :: l = y :: l'.
Proof. intros; subst; reflexivity. Qed.

Ltac cons_digits :=
  repeat (apply cons_eq; [first [apply dig0; lia | apply (f_equal dig); lia]|]); reflexivity.

Lemma aligned2_ok : forall v, 0 <= v <= 99 -> aligned2 (zeros 2) v = pad2 v.
Proof.
  intros v H. unfold aligned2, to_chars, pad2. destruct (Z.ltb_spec v 10).
  - rewrite dec1 by lia. cbn. cons_digits.
  - rewrite dec_step, dec1 by lia. cbn. cons_digits.
Qed.

Lemma aligned4_ok : forall v, 0 <= v <= 9999 -> aligned4 (zeros 4) v = pad4 v.
Proof.
  intros v H. unfold aligned4, to_chars, pad4. destruct (Z.ltb_spec v 10).
  { rewrite dec1 by lia. cbn. cons_digits. }
  rewrite dec_step by lia. destruct (Z.ltb_spec v 100).
  { rewrite dec1 by lia. cbn. cons_digits. }
  rewrite dec_step by lia. destruct (Z.ltb_spec v 1000).
  { rewrite dec1 by lia. cbn. cons_digits. }
  rewrite dec_step by lia. rewrite dec1 by lia. cbn.
  cons_digits.
Qed.

Lemma aligned4_outside : forall v, v < 0 \/ 9999 < v -> aligned4 (zeros 4) v = pad4 0.
Proof.
  intros v [H|H]; unfold aligned4, to_chars.
  - replace (v <? 10) with true by lia. destruct v as [|p|p]; try lia.
    cbn [decZ List.length zeros repeat]. pose proof (dec_nonempty (Npos p)).
    destruct (dec (N.pos p)) as [|c l]; [congruence|]. reflexivity.
  - replace (v <? 10) with false by lia. replace (v <? 100) with false by lia.
    replace (v <? 1000) with false by lia.
    assert (decZ v = dec (Z.to_N v)) as -> by (destruct v; try lia; reflexivity).
    pose proof (dec_length_lower 4 (Z.to_N v)) as L.
    change (10 ^ N.of_nat 4)%N with 10000%N in L. specialize (L ltac:(lia)).
    replace (Nat.leb (List.length (dec (Z.to_N v))) (List.length (zeros 4) - 0)) with false; [reflexivity|].
    symmetry. apply Nat.leb_gt. cbn [zeros repeat List.length Nat.sub]. lia.
Qed.

Lemma from_digits_pad2 : forall v, 0 <= v <= 99 -> from_digits (pad2 v) = Some v.
Proof. intros v H. apply from_digits2. auto. Qed.

Lemma from_digits_pad4 : forall v, 0 <= v <= 9999 -> from_digits (pad4 v) = Some v.
Proof. intros v H. apply from_digits4. auto. Qed.

(** * Parsing *)

Definition wf_datetime (text : list ascii) (sep : ascii) (y m d hh mi ss : Z) : Prop :=
  (sep = "T"%char \/ sep = " "%char) /\ year_ok y /\ date_ok y m d /\ time_ok hh mi ss /\
  text = iso_text sep y m d hh mi ss.

Definition wf_date (text : list ascii) (y m d : Z) : Prop :=
  year_ok y /\ date_ok y m d /\ text = date_text y m d.

Lemma month_days_le : forall y m, 28 <= month_days y m <= 31.
Proof. intros. unfold month_days. repeat match goal with |- context [if ?b then _ else _] => destruct b end; lia. Qed.

Lemma parse_datetime_wf : forall tps text sep y m d hh mi ss,
  wf_datetime text sep y m d hh mi ss ->
  parse_datetime tps text = (do! t <- make_datetime tps y m d hh mi ss; Some (Some t)).
Proof.
  intros tps text sep y m d hh mi ss (Hs & Hy & Hd & Ht & ->).
  pose proof Hd as [Hm HD]. pose proof (month_days_le y m). destruct Ht as (H1 & H2 & H3).
  unfold year_ok in Hy. unfold parse_datetime.
  change (List.length (iso_text sep y m d hh mi ss)) with 20%nat. cbn [Nat.eqb negb].
  change (char_at (iso_text sep y m d hh mi ss) 4) with "-"%char.
  change (char_at (iso_text sep y m d hh mi ss) 7) with "-"%char.
  change (char_at (iso_text sep y m d hh mi ss) 10) with sep.
  change (char_at (iso_text sep y m d hh mi ss) 13) with ":"%char.
  change (char_at (iso_text sep y m d hh mi ss) 16) with ":"%char.
  change (char_at (iso_text sep y m d hh mi ss) 19) with "Z"%char.
  replace (negb (Ascii.eqb sep "T") && negb (Ascii.eqb sep " ")) with false
    by (destruct Hs as [-> | ->]; reflexivity).
  cbn [Ascii.eqb Bool.eqb negb orb].
  change (sub (iso_text sep y m d hh mi ss) 0 4) with (pad4 y).
  change (sub (iso_text sep y m d hh mi ss) 5 7) with (pad2 m).
  change (sub (iso_text sep y m d hh mi ss) 8 10) with (pad2 d).
  change (sub (iso_text sep y m d hh mi ss) 11 13) with (pad2 hh).
  change (sub (iso_text sep y m d hh mi ss) 14 16) with (pad2 mi).
  change (sub (iso_text sep y m d hh mi ss) 17 19) with (pad2 ss).
  rewrite from_digits_pad4, !from_digits_pad2 by lia.
  apply valid_model in Hd. rewrite Hd.
  replace (24 <=? hh) with false by lia. replace (60 <=? mi) with false by lia.
  replace (60 <=? ss) with false by lia. reflexivity.
Qed.

Lemma parse_date_wf : forall tps text y m d, wf_date text y m d ->
  parse_date tps text = (do! t <- make_datetime tps y m d 0 0 0; Some (Some t)).
Proof.
  intros tps text y m d (Hy & Hd & ->).
  pose proof Hd as [Hm HD]. pose proof (month_days_le y m).
  unfold year_ok in Hy. unfold parse_date.
  change (List.length (date_text y m d)) with 10%nat. cbn [Nat.eqb negb].
  change (char_at (date_text y m d) 4) with "-"%char.
  change (char_at (date_text y m d) 7) with "-"%char.
  cbn [Ascii.eqb Bool.eqb negb orb].
  change (sub (date_text y m d) 0 4) with (pad4 y).
  change (sub (date_text y m d) 5 7) with (pad2 m).
  change (sub (date_text y m d) 8 10) with (pad2 d).
  rewrite from_digits_pad4, !from_digits_pad2 by lia.
  apply valid_model in Hd. rewrite Hd. reflexivity.
Qed.

Lemma negb_eqb : forall a b, negb (Ascii.eqb a b) = false -> a = b.
Proof. intros a b H. apply Ascii.eqb_eq. now destruct (Ascii.eqb a b). Qed.

Lemma parse_datetime_inv : forall tps text, parse_datetime tps text <> Some None ->
  exists sep y m d hh mi ss, wf_datetime text sep y m d hh mi ss.
Proof.
  intros tps text H. unfold parse_datetime in H.
  destruct (Nat.eqb (List.length text) 20) eqn:EL; cbn [negb] in H; [|congruence].
  apply Nat.eqb_eq in EL.
  do 20 (destruct text as [|? text]; [discriminate EL|]). destruct text; [|discriminate EL].
  clear EL. cbn [char_at nth sub Nat.sub firstn skipn] in H.
  match type of H with context [if ?b then _ else _] => destruct b eqn:EB; [congruence|] end.
  apply orb_false_iff in EB. destruct EB as [EB E6]. apply orb_false_iff in EB.
  destruct EB as [EB E5]. apply orb_false_iff in EB. destruct EB as [EB E4].
  apply orb_false_iff in EB. destruct EB as [EB E3]. apply orb_false_iff in EB.
  destruct EB as [E1 E2]. apply negb_eqb in E1, E2, E4, E5, E6. subst.
  match type of E3 with context [negb (Ascii.eqb ?x "T")] => rename x into sep end.
  assert (sep = "T"%char \/ sep = " "%char) as Hs.
  { apply andb_false_iff in E3. destruct E3 as [E3|E3]; apply negb_eqb in E3; auto. }
  unfold char_at in *. cbn [nth] in *. clear E3.
  destruct (from_digits [_; _; _; _]) as [y|] eqn:D1 in H; [|congruence].
  apply from_digits4 in D1. destruct D1 as [Ly E1].
  destruct (from_digits [_; _]) as [m|] eqn:D2 in H; [|congruence].
  apply from_digits2 in D2. destruct D2 as [Lm E2].
  destruct (from_digits [_; _]) as [d|] eqn:D3 in H; [|congruence].
  apply from_digits2 in D3. destruct D3 as [Ld E3].
  destruct (from_digits [_; _]) as [hh|] eqn:D4 in H; [|congruence].
  apply from_digits2 in D4. destruct D4 as [Lhh E4].
  destruct (from_digits [_; _]) as [mi|] eqn:D5 in H; [|congruence].
  apply from_digits2 in D5. destruct D5 as [Lmi E5].
  destruct (from_digits [_; _]) as [ss|] eqn:D6 in H; [|congruence].
  apply from_digits2 in D6. destruct D6 as [Lss E6].
  destruct (is_valid_date y m d) eqn:EV; cbn [negb] in H; [|congruence].
  apply valid_model in EV.
  destruct (Z.leb_spec 24 hh); cbn [orb] in H; [congruence|].
  destruct (Z.leb_spec 60 mi); cbn [orb] in H; [congruence|].
  destruct (Z.leb_spec 60 ss); [congruence|].
  exists sep, y, m, d, hh, mi, ss. unfold wf_datetime, year_ok, time_ok.
  repeat split; try lia; try assumption; try apply EV.
  unfold iso_text, date_text. rewrite <- E1, <- E2, <- E3, <- E4, <- E5, <- E6. reflexivity.
Qed.

Lemma parse_date_inv : forall tps text, parse_date tps text <> Some None ->
  exists y m d, wf_date text y m d.
Proof.
  intros tps text H. unfold parse_date in H.
  destruct (Nat.eqb (List.length text) 10) eqn:EL; cbn [negb] in H; [|congruence].
  apply Nat.eqb_eq in EL.
  do 10 (destruct text as [|? text]; [discriminate EL|]). destruct text; [|discriminate EL].
  clear EL. cbn [char_at nth sub Nat.sub firstn skipn] in H.
  match type of H with context [if ?b then _ else _] => destruct b eqn:EB; [congruence|] end.
  apply orb_false_iff in EB. destruct EB as [E1 E2]. apply negb_eqb in E1, E2. subst.
  unfold char_at in *. cbn [nth] in *.
  destruct (from_digits [_; _; _; _]) as [y|] eqn:D1 in H; [|congruence].
  apply from_digits4 in D1. destruct D1 as [Ly E1].
  destruct (from_digits [_; _]) as [m|] eqn:D2 in H; [|congruence].
  apply from_digits2 in D2. destruct D2 as [Lm E2].
  destruct (from_digits [_; _]) as [d|] eqn:D3 in H; [|congruence].
  apply from_digits2 in D3. destruct D3 as [Ld E3].
  destruct (is_valid_date y m d) eqn:EV; cbn [negb] in H; [|congruence].
  apply valid_model in EV.
  exists y, m, d. unfold wf_date, year_ok.
  repeat split; try lia; try assumption; try apply EV.
  unfold date_text. rewrite <- E1, <- E2, <- E3. reflexivity.
Qed.

Lemma make_some : forall tps y m d hh mi ss t,
  make_datetime tps y m d hh mi ss = Some t <->
  t = utc_to_posix y m d hh mi ss * tps /\ - 2 ^ 63 <= t < 2 ^ 63.
Proof.
  intros. unfold make_datetime, from_time_t, in_int64.
  set (k := utc_to_posix y m d hh mi ss * tps).
  destruct (Z.leb_spec (- 2 ^ 63) k), (Z.ltb_spec k (2 ^ 63)); cbn [andb]; split;
    intros A; try discriminate; try lia.
  - injection A as <-. auto.
  - destruct A as [-> A]. reflexivity.
Qed.

Lemma dig_inj : forall v w, 0 <= v < 10 -> 0 <= w < 10 -> dig v = dig w -> v = w.
Proof.
  intros v w Hv Hw H. rewrite !dig_digit in H by lia. apply digit_char_inj in H; lia.
Qed.

Lemma pad2_inj : forall v w, 0 <= v <= 99 -> 0 <= w <= 99 -> pad2 v = pad2 w -> v = w.
Proof.
  intros v w Hv Hw H. pose proof (from_digits_pad2 v Hv) as E. rewrite H, from_digits_pad2 in E by assumption.
  congruence.
Qed.

Lemma pad4_inj : forall v w, 0 <= v <= 9999 -> 0 <= w <= 9999 -> pad4 v = pad4 w -> v = w.
Proof.
  intros v w Hv Hw H. pose proof (from_digits_pad4 v Hv) as E. rewrite H, from_digits_pad4 in E by assumption.
  congruence.
Qed.

(** * Formatting *)

Definition sod_of (hh mi ss : Z) : Z := hh * 3600 + mi * 60 + ss.

Lemma gmtime_of : forall y m d hh mi ss t, instant y m d hh mi ss t ->
  gmtime t = if in_int32 (y - 1900) then Some (y - 1900, m - 1, d, hh, mi, ss) else None.
Proof.
  intros y m d hh mi ss t H. apply instant_iff in H. destruct H as (Hd & (H1 & H2 & H3) & E).
  unfold utc_to_posix in E. unfold gmtime.
  replace (t / 86400) with (days_from_civil y m d) by lia.
  rewrite civil_days by assumption.
  replace ((t mod 86400) / 3600) with hh by lia.
  replace (((t mod 86400) mod 3600) / 60) with mi by lia.
  replace ((t mod 86400) mod 60) with ss by lia. reflexivity.
Qed.

Lemma instant_exists : forall t, exists y m d hh mi ss, instant y m d hh mi ss t.
Proof.
  intros t. destruct (civil_from_days (t / 86400)) as [[y m] d] eqn:E.
  apply civil_ok in E. destruct E as [H E].
  exists y, m, d, ((t mod 86400) / 3600), (((t mod 86400) mod 3600) / 60), ((t mod 86400) mod 60).
  apply instant_iff. unfold time_ok, utc_to_posix. rewrite E.
  split; [assumption|]. lia.
Qed.

Definition year_field (y : Z) : list ascii := if (0 <=? y) && (y <=? 9999) then pad4 y else pad4 0.

Lemma aligned4_field : forall y, aligned4 (zeros 4) y = year_field y.
Proof.
  intros y. unfold year_field. destruct (Z.leb_spec 0 y), (Z.leb_spec y 9999); cbn [andb];
    [apply aligned4_ok|apply aligned4_outside..]; lia.
Qed.

Lemma format_datetime : forall tps v y m d hh mi ss,
  instant y m d hh mi ss (Z.quot v tps) -> - 2 ^ 31 + 1900 <= y < 2 ^ 31 ->
  to_iso_datetime tps v =
    Some (iso_text "T" (if (0 <=? y) && (y <=? 9999) then y else 0) m d hh mi ss).
Proof.
  intros tps v y m d hh mi ss H Hy. unfold to_iso_datetime, to_time_t.
  rewrite (gmtime_of _ _ _ _ _ _ _ H). unfold in_int32.
  replace ((- 2 ^ 31 <=? y - 1900) && (y - 1900 <? 2 ^ 31)) with true by lia.
  cbn [bind]. unfold full_year, in_int32.
  replace ((- 2 ^ 31 <=? y - 1900 + 1900) && (y - 1900 + 1900 <? 2 ^ 31)) with true by lia.
  cbn [bind]. replace (y - 1900 + 1900) with y by lia. replace (m - 1 + 1) with m by lia.
  apply instant_iff in H. destruct H as (Hd & (H1 & H2 & H3) & E).
  pose proof Hd as [Hm HD]. pose proof (month_days_le y m).
  rewrite aligned4_field, !aligned2_ok by lia.
  unfold iso_text, date_text, year_field. rewrite <- !app_assoc.
  destruct ((0 <=? y) && (y <=? 9999)); reflexivity.
Qed.

Lemma format_date : forall tps v y m d hh mi ss,
  instant y m d hh mi ss (Z.quot v tps) -> - 2 ^ 31 + 1900 <= y < 2 ^ 31 ->
  to_iso_date tps v = Some (date_text (if (0 <=? y) && (y <=? 9999) then y else 0) m d).
Proof.
  intros tps v y m d hh mi ss H Hy. unfold to_iso_date, to_time_t.
  rewrite (gmtime_of _ _ _ _ _ _ _ H). unfold in_int32.
  replace ((- 2 ^ 31 <=? y - 1900) && (y - 1900 <? 2 ^ 31)) with true by lia.
  cbn [bind]. unfold full_year, in_int32.
  replace ((- 2 ^ 31 <=? y - 1900 + 1900) && (y - 1900 + 1900 <? 2 ^ 31)) with true by lia.
  cbn [bind]. replace (y - 1900 + 1900) with y by lia. replace (m - 1 + 1) with m by lia.
  apply instant_iff in H. destruct H as (Hd & (H1 & H2 & H3) & E).
  pose proof Hd as [Hm HD]. pose proof (month_days_le y m).
  rewrite aligned4_field, !aligned2_ok by lia.
  unfold date_text, year_field.
  destruct ((0 <=? y) && (y <=? 9999)); reflexivity.
Qed.

Lemma year_range : forall y m d hh mi ss t, instant y m d hh mi ss t ->
  (year_ok y <-> first_second <= t <= last_second).
Proof.
  intros y m d hh mi ss t H. apply instant_iff in H. destruct H as (Hd & (H1 & H2 & H3) & E).
  unfold utc_to_posix in E. pose proof (year_bounds _ _ _ Hd) as B.
  unfold year_ok, first_second, last_second.
  change (-62167219200) with (days_from_civil 0 1 1 * 86400).
  change 253402300799 with (days_from_civil 10000 1 1 * 86400 - 1).
  split.
  - intros Hy. pose proof (year_start_mono 0 y ltac:(lia)). pose proof (year_start_mono (y + 1) 10000 ltac:(lia)).
    lia.
  - intros Ht. assert (~ y < 0) as N1.
    { intros L. pose proof (year_start_mono (y + 1) 0 ltac:(lia)). lia. }
    assert (~ 9999 < y) as N2.
    { intros L. pose proof (year_start_mono 10000 y ltac:(lia)). lia. }
    lia.
Qed.

(** * The properties *)

Lemma datetime_text_round : forall tps text t, 0 < tps ->
  parse_datetime tps text = Some (Some t) ->
  to_iso_datetime tps t = Some (firstn 10 text ++ ["T"%char] ++ skipn 11 text).
Proof.
  intros tps text t Ht H.
  destruct (parse_datetime_inv tps text ltac:(congruence)) as (sep & y & m & d & hh & mi & ss & W).
  rewrite (parse_datetime_wf tps _ _ _ _ _ _ _ _ W) in H.
  destruct (make_datetime tps y m d hh mi ss) as [t'|] eqn:EM; cbn [bind] in H; [|discriminate].
  injection H as ->. apply make_some in EM. destruct EM as [-> EM].
  destruct W as (Hs & Hy & Hd & HT & ->). unfold year_ok in Hy.
  rewrite (format_datetime tps _ y m d hh mi ss).
  - replace ((0 <=? y) && (y <=? 9999)) with true by lia. reflexivity.
  - rewrite Z.quot_mul by lia. apply instant_iff. auto.
  - lia.
Qed.

Lemma date_text_round : forall tps text t, 0 < tps ->
  parse_date tps text = Some (Some t) -> to_iso_date tps t = Some text.
Proof.
  intros tps text t Ht H.
  destruct (parse_date_inv tps text ltac:(congruence)) as (y & m & d & W).
  rewrite (parse_date_wf tps _ _ _ _ W) in H.
  destruct (make_datetime tps y m d 0 0 0) as [t'|] eqn:EM; cbn [bind] in H; [|discriminate].
  injection H as ->. apply make_some in EM. destruct EM as [-> EM].
  destruct W as (Hy & Hd & ->). unfold year_ok in Hy.
  rewrite (format_date tps _ y m d 0 0 0).
  - replace ((0 <=? y) && (y <=? 9999)) with true by lia. reflexivity.
  - rewrite Z.quot_mul by lia. apply instant_iff. split; [assumption|]. split; [unfold time_ok; lia|reflexivity].
  - lia.
Qed.

Lemma quot_bound : forall v tps, 0 < tps -> - 2 ^ 63 <= v < 2 ^ 63 ->
  - 2 ^ 63 <= Z.quot v tps * tps < 2 ^ 63 /\ Z.abs (v - Z.quot v tps * tps) < tps /\
  Z.abs (Z.quot v tps * tps) <= Z.abs v.
Proof.
  intros v tps Ht Hv. pose proof (Z.quot_rem' v tps) as Q.
  destruct (Z.le_gt_cases 0 v).
  - pose proof (Z.rem_bound_pos v tps ltac:(lia) ltac:(lia)).
    pose proof (Z.quot_pos v tps ltac:(lia) ltac:(lia)). nia.
  - pose proof (Z.rem_bound_abs v tps ltac:(lia)) as R. pose proof (Z.rem_nonpos v tps ltac:(lia) ltac:(lia)).
    pose proof (Z.quot_pos (- v) tps ltac:(lia) ltac:(lia)) as P.
    rewrite Z.quot_opp_l in P by lia. nia.
Qed.

Lemma datetime_time_round : forall tps v, 0 < tps -> - 2 ^ 63 <= v < 2 ^ 63 ->
  first_second <= Z.quot v tps <= last_second ->
  exists text, to_iso_datetime tps v = Some text /\
    parse_datetime tps text = Some (Some (Z.quot v tps * tps)).
Proof.
  intros tps v Ht Hv HR.
  destruct (instant_exists (Z.quot v tps)) as (y & m & d & hh & mi & ss & I).
  pose proof (proj2 (year_range _ _ _ _ _ _ _ I) HR) as Hy. unfold year_ok in Hy.
  exists (iso_text "T" y m d hh mi ss). split.
  - rewrite (format_datetime _ _ _ _ _ _ _ _ I) by lia.
    replace ((0 <=? y) && (y <=? 9999)) with true by lia. reflexivity.
  - apply instant_iff in I. destruct I as (Hd & HT & E).
    rewrite (parse_datetime_wf tps _ "T" y m d hh mi ss)
      by (unfold wf_datetime; repeat split; auto; try apply Hd; try apply HT; lia).
    replace (make_datetime tps y m d hh mi ss) with (Some (Z.quot v tps * tps)); [reflexivity|].
    symmetry. apply make_some. rewrite <- E. split; [reflexivity|]. now apply quot_bound.
Qed.

(** Time point with a fraction of a second: less than one second towards the epoch. *)
Lemma datetime_time_trunc : forall tps v, 0 < tps -> - 2 ^ 63 <= v < 2 ^ 63 ->
  first_second <= Z.quot v tps <= last_second ->
  exists text v', to_iso_datetime tps v = Some text /\
    parse_datetime tps text = Some (Some v') /\
    (tps | v') /\ Z.abs v' <= Z.abs v /\ Z.abs (v - v') < tps.
Proof.
  intros tps v Ht Hv HR. destruct (datetime_time_round tps v Ht Hv HR) as (text & A & B).
  exists text, (Z.quot v tps * tps). pose proof (quot_bound v tps Ht Hv).
  repeat split; try assumption; try tauto. exists (Z.quot v tps). reflexivity.
Qed.

Lemma datetime_time_exact : forall tps s, 0 < tps -> - 2 ^ 63 <= s * tps < 2 ^ 63 ->
  first_second <= s <= last_second ->
  exists text, to_iso_datetime tps (s * tps) = Some text /\
    parse_datetime tps text = Some (Some (s * tps)).
Proof.
  intros tps s Ht Hv HR.
  destruct (datetime_time_round tps (s * tps) Ht Hv) as (text & A & B);
    rewrite Z.quot_mul in * by lia; [assumption|]. eauto.
Qed.

(** Grammar. *)
Lemma parse_datetime_iff : forall tps text t,
  parse_datetime tps text = Some (Some t) <->
  exists sep y m d hh mi ss s, (sep = "T"%char \/ sep = " "%char) /\ year_ok y /\
    text = iso_text sep y m d hh mi ss /\ instant y m d hh mi ss s /\
    t = s * tps /\ - 2 ^ 63 <= t < 2 ^ 63.
Proof.
  intros tps text t. split.
  - intros H. destruct (parse_datetime_inv tps text ltac:(congruence)) as (sep & y & m & d & hh & mi & ss & W).
    rewrite (parse_datetime_wf tps _ _ _ _ _ _ _ _ W) in H.
    destruct (make_datetime tps y m d hh mi ss) as [t'|] eqn:EM; cbn [bind] in H; [|discriminate].
    injection H as ->. apply make_some in EM. destruct EM as [-> EM].
    destruct W as (Hs & Hy & Hd & HT & ->).
    exists sep, y, m, d, hh, mi, ss, (utc_to_posix y m d hh mi ss).
    repeat (split; [solve [auto|apply instant_iff; auto]|]). assumption.
  - intros (sep & y & m & d & hh & mi & ss & s & Hs & Hy & -> & I & -> & R).
    apply instant_iff in I. destruct I as (Hd & HT & ->).
    rewrite (parse_datetime_wf tps _ sep y m d hh mi ss)
      by (unfold wf_datetime; auto).
    rewrite (proj2 (make_some tps y m d hh mi ss _) (conj eq_refl R)). reflexivity.
Qed.

Lemma parse_datetime_reject : forall tps text,
  parse_datetime tps text = Some None <->
  ~ exists sep y m d hh mi ss s, (sep = "T"%char \/ sep = " "%char) /\ year_ok y /\
    text = iso_text sep y m d hh mi ss /\ instant y m d hh mi ss s.
Proof.
  intros tps text. split.
  - intros H (sep & y & m & d & hh & mi & ss & s & Hs & Hy & -> & I).
    apply instant_iff in I. destruct I as (Hd & HT & ->).
    rewrite (parse_datetime_wf tps _ sep y m d hh mi ss) in H
      by (unfold wf_datetime; auto).
    destruct (make_datetime tps y m d hh mi ss); discriminate.
  - intros H. destruct (parse_datetime tps text) as [[t|]|] eqn:E; [exfalso..|reflexivity|exfalso];
    apply H; destruct (parse_datetime_inv tps text ltac:(congruence))
      as (sep & y & m & d & hh & mi & ss & (Hs & Hy & Hd & HT & ->));
    exists sep, y, m, d, hh, mi, ss, (utc_to_posix y m d hh mi ss);
    repeat (split; [solve [auto]|]); apply instant_iff; auto.
Qed.

Lemma parse_date_iff : forall tps text t,
  parse_date tps text = Some (Some t) <->
  exists y m d s, year_ok y /\ text = date_text y m d /\ instant y m d 0 0 0 s /\
    t = s * tps /\ - 2 ^ 63 <= t < 2 ^ 63.
Proof.
  intros tps text t. split.
  - intros H. destruct (parse_date_inv tps text ltac:(congruence)) as (y & m & d & W).
    rewrite (parse_date_wf tps _ _ _ _ W) in H.
    destruct (make_datetime tps y m d 0 0 0) as [t'|] eqn:EM; cbn [bind] in H; [|discriminate].
    injection H as ->. apply make_some in EM. destruct EM as [-> EM].
    destruct W as (Hy & Hd & ->).
    exists y, m, d, (utc_to_posix y m d 0 0 0).
    assert (time_ok 0 0 0) as HT by (unfold time_ok; lia).
    repeat (split; [solve [auto|apply instant_iff; auto]|]). assumption.
  - intros (y & m & d & s & Hy & -> & I & -> & R).
    apply instant_iff in I. destruct I as (Hd & HT & ->).
    rewrite (parse_date_wf tps _ y m d) by (unfold wf_date; auto).
    rewrite (proj2 (make_some tps y m d _ _ _ _) (conj eq_refl R)). reflexivity.
Qed.

Lemma parse_date_reject : forall tps text,
  parse_date tps text = Some None <->
  ~ exists y m d s, year_ok y /\ text = date_text y m d /\ instant y m d 0 0 0 s.
Proof.
  intros tps text. split.
  - intros H (y & m & d & s & Hy & -> & I).
    apply instant_iff in I. destruct I as (Hd & HT & ->).
    rewrite (parse_date_wf tps _ y m d) in H by (unfold wf_date; auto).
    destruct (make_datetime tps y m d _ _ _); discriminate.
  - intros H. destruct (parse_date tps text) as [[t|]|] eqn:E; [exfalso..|reflexivity|exfalso];
    apply H; destruct (parse_date_inv tps text ltac:(congruence)) as (y & m & d & (Hy & Hd & ->));
    exists y, m, d, (utc_to_posix y m d 0 0 0);
    repeat (split; [solve [auto]|]); apply instant_iff;
    repeat (split; [solve [auto|unfold time_ok; lia]|]); reflexivity.
Qed.

(** Order. *)
Lemma text_lt_app : forall a b c d, List.length a = List.length b ->
  (text_lt a b \/ (a = b /\ text_lt c d)) <-> text_lt (a ++ c) (b ++ d).
Proof.
  induction a as [|x a IH]; intros [|y b] c d H; cbn [List.length] in H; try discriminate.
  - cbn. tauto.
  - injection H as H. cbn [text_lt app]. rewrite <- (IH b c d H). split.
    + intros [[L|[-> L]]|[E L]]; [tauto|tauto|]. injection E as -> ->. tauto.
    + intros [L|[-> [L|[-> L]]]]; tauto.
Qed.

Lemma dig_N : forall v, 0 <= v < 10 -> N_of_ascii (dig v) = (48 + Z.to_N v)%N.
Proof. intros v H. unfold dig. apply N_ascii_embedding. lia. Qed.

Lemma pad2_lt : forall v w, 0 <= v <= 99 -> 0 <= w <= 99 -> text_lt (pad2 v) (pad2 w) <-> v < w.
Proof.
  intros v w Hv Hw. unfold pad2. cbn [text_lt]. rewrite !dig_N by lia. split.
  - intros [H|[E [H|[_ []]]]]; [lia|]. apply dig_inj in E; lia.
  - intros H. destruct (Z.eq_dec (v / 10) (w / 10)) as [E|E]; [|left; lia].
    right. split; [f_equal; lia|]. left. lia.
Qed.

Lemma pad4_lt : forall v w, 0 <= v <= 9999 -> 0 <= w <= 9999 -> text_lt (pad4 v) (pad4 w) <-> v < w.
Proof.
  intros v w Hv Hw. unfold pad4. cbn [text_lt]. rewrite !dig_N by lia. split.
  - intros [H|[E [H|[E2 [H|[E3 [H|[_ []]]]]]]]]; [lia|..];
      repeat match goal with E : dig _ = dig _ |- _ => apply dig_inj in E; [|lia..] end; lia.
  - intros H. destruct (Z.eq_dec (v / 1000) (w / 1000)) as [E|E]; [|left; lia].
    right. split; [f_equal; lia|].
    destruct (Z.eq_dec (v / 100) (w / 100)) as [E2|E2]; [|left; lia].
    right. split; [f_equal; lia|].
    destruct (Z.eq_dec (v / 10) (w / 10)) as [E3|E3]; [|left; lia].
    right. split; [f_equal; lia|]. left. lia.
Qed.

Lemma text_lt_irrefl : forall a, ~ text_lt a a.
Proof. induction a as [|x a IH]; cbn; [tauto|]. intros [H|[_ H]]; [lia|tauto]. Qed.

Lemma iso_text_lt : forall y m d hh mi ss t y' m' d' hh' mi' ss' t',
  year_ok y -> year_ok y' -> instant y m d hh mi ss t -> instant y' m' d' hh' mi' ss' t' ->
  (text_lt (iso_text "T" y m d hh mi ss) (iso_text "T" y' m' d' hh' mi' ss') <-> t < t').
Proof.
  intros y m d hh mi ss t y' m' d' hh' mi' ss' t' Hy Hy' I I'. unfold year_ok in *.
  apply instant_iff in I, I'. destruct I as (Hd & (H1 & H2 & H3) & E).
  destruct I' as (Hd' & (H1' & H2' & H3') & E').
  pose proof Hd as [Hm HD]. pose proof Hd' as [Hm' HD'].
  pose proof (month_days_le y m). pose proof (month_days_le y' m').
  unfold iso_text, date_text. rewrite <- !app_assoc.
  rewrite <- !text_lt_app by reflexivity.
  rewrite pad4_lt, !pad2_lt by lia. cbn [text_lt].
  assert (days_from_civil y m d < days_from_civil y' m' d' -> t < t') as A
    by (unfold utc_to_posix in *; lia).
  assert (days_from_civil y' m' d' < days_from_civil y m d -> t' < t) as A'
    by (unfold utc_to_posix in *; lia).
  split.
  - intros [L|[F L]].
    { apply A. apply days_mono; try assumption. left. assumption. }
    apply pad4_inj in F; [|lia..]. subst y'.
    destruct L as [L|[_ L]]; [exfalso; cbn in L; lia|].
    destruct L as [L|[F L]].
    { apply A. apply days_mono; try assumption. right. auto. }
    apply pad2_inj in F; [|lia..]. subst m'.
    destruct L as [L|[_ L]]; [exfalso; cbn in L; lia|].
    destruct L as [L|[F L]].
    { apply A. apply days_mono; try assumption. right. auto. }
    apply pad2_inj in F; [|lia..]. subst d'.
    destruct L as [L|[_ L]]; [exfalso; cbn in L; lia|].
    unfold utc_to_posix in *.
    destruct L as [L|[F L]]; [lia|]. apply pad2_inj in F; [|lia..]. subst hh'.
    destruct L as [L|[_ L]]; [exfalso; cbn in L; lia|].
    destruct L as [L|[F L]]; [lia|]. apply pad2_inj in F; [|lia..]. subst mi'.
    destruct L as [L|[_ L]]; [exfalso; cbn in L; lia|].
    destruct L as [L|[F L]]; [lia|]. exfalso. cbn in L. lia.
  - intros L. destruct (date_lt_total y m d y' m' d') as [[D|[-> [D|[-> D]]]]|[D|D]].
    + auto.
    + right. split; [reflexivity|]. right. split; [reflexivity|]. auto.
    + right. split; [reflexivity|]. right. split; [reflexivity|].
      right. split; [reflexivity|]. right. split; [reflexivity|]. auto.
    + injection D as -> -> ->. do 5 (right; split; [reflexivity|]). right. split; [reflexivity|].
      unfold utc_to_posix in *.
      destruct (Z.eq_dec hh hh') as [->|]; [|left; lia]. do 2 (right; split; [reflexivity|]).
      destruct (Z.eq_dec mi mi') as [->|]; [|left; lia]. do 2 (right; split; [reflexivity|]).
      left. lia.
    + pose proof (days_mono _ _ _ _ _ _ Hd' Hd D). lia.
Qed.

Lemma format_order : forall tps v w x y, 0 < tps ->
  first_second <= Z.quot v tps <= last_second -> first_second <= Z.quot w tps <= last_second ->
  to_iso_datetime tps v = Some x -> to_iso_datetime tps w = Some y ->
  (text_lt x y <-> Z.quot v tps < Z.quot w tps).
Proof.
  intros tps v w x y Ht Hv Hw EX EY.
  destruct (instant_exists (Z.quot v tps)) as (y1 & m1 & d1 & h1 & i1 & s1 & I).
  destruct (instant_exists (Z.quot w tps)) as (y2 & m2 & d2 & h2 & i2 & s2 & J).
  pose proof (proj2 (year_range _ _ _ _ _ _ _ I) Hv) as Hy1.
  pose proof (proj2 (year_range _ _ _ _ _ _ _ J) Hw) as Hy2.
  pose proof Hy1 as Ly1. pose proof Hy2 as Ly2. unfold year_ok in Ly1, Ly2.
  rewrite (format_datetime _ _ _ _ _ _ _ _ I) in EX by lia.
  rewrite (format_datetime _ _ _ _ _ _ _ _ J) in EY by lia.
  replace ((0 <=? y1) && (y1 <=? 9999)) with true in EX by lia.
  replace ((0 <=? y2) && (y2 <=? 9999)) with true in EY by lia.
  apply some_inj in EX, EY. subst x y. now apply iso_text_lt.
Qed.

Lemma quot_lt : forall v w tps, 0 < tps -> Z.quot v tps < Z.quot w tps -> v < w.
Proof.
  intros v w tps Ht H. destruct (Z.lt_ge_cases v w) as [|L]; [assumption|].
  pose proof (Z.quot_le_mono w v tps Ht L). lia.
Qed.

Lemma quot_sep : forall v w tps, 0 < tps ->
  (tps <= w - v /\ (0 <= v \/ w <= 0)) \/ 2 * tps <= w - v -> Z.quot v tps < Z.quot w tps.
Proof.
  intros v w tps Ht H.
  assert (forall z, Z.quot z tps = if 0 <=? z then z / tps else - ((- z) / tps)) as Q.
  { intros z. destruct (Z.leb_spec 0 z); [apply Z.quot_div_nonneg; lia|].
    rewrite <- Z.quot_div_nonneg by lia. rewrite Z.quot_opp_l by lia. lia. }
  rewrite !Q.
  assert (forall a b, tps <= b - a -> a / tps < b / tps) as S.
  { intros a b L. pose proof (Z.div_le_mono (a + 1 * tps) b tps Ht ltac:(lia)) as M.
    rewrite Z.div_add in M by lia. generalize dependent (a / tps).
    generalize (b / tps). intros. lia. }
  destruct (Z.leb_spec 0 v), (Z.leb_spec 0 w).
  - apply S. lia.
  - lia.
  - pose proof (Z.div_pos w tps ltac:(lia) Ht) as P1.
    pose proof (Z.div_pos (- v) tps ltac:(lia) Ht) as P2.
    destruct (Z.le_gt_cases tps w) as [L|L]; [pose proof (S 0 w ltac:(lia)) as K|
      pose proof (S 0 (- v) ltac:(lia)) as K]; rewrite Z.div_0_l in K by lia;
      generalize dependent (w / tps); generalize dependent (- v / tps); intros; lia.
  - pose proof (S (- w) (- v) ltac:(lia)) as K.
    generalize dependent (- w / tps); generalize dependent (- v / tps); intros; lia.
Qed.

Lemma datetime_order : forall tps v w x y, 0 < tps ->
  first_second <= Z.quot v tps <= last_second -> first_second <= Z.quot w tps <= last_second ->
  to_iso_datetime tps v = Some x -> to_iso_datetime tps w = Some y ->
  (text_lt x y -> v < w) /\
  ((tps <= w - v /\ (0 <= v \/ w <= 0)) \/ 2 * tps <= w - v -> text_lt x y) /\
  (v <= w -> text_le x y).
Proof.
  intros tps v w x y Ht Hv Hw EX EY.
  pose proof (format_order tps v w x y Ht Hv Hw EX EY) as F. split; [|split].
  - intros L. apply F in L. now apply quot_lt in L.
  - intros L. apply F. now apply quot_sep.
  - intros L. pose proof (Z.quot_le_mono v w tps Ht L) as Q. unfold text_le.
    destruct (Z.eq_dec (Z.quot v tps) (Z.quot w tps)) as [E|E]; [left|right; apply F; lia].
    unfold to_iso_datetime, to_time_t in EX, EY. rewrite E in EX. congruence.
Qed.

(** Years that do not fit. *)
Lemma year_outside : forall tps v y m d hh mi ss, 0 < tps ->
  instant y m d hh mi ss (Z.quot v tps) -> - 2 ^ 31 + 1900 <= y < 2 ^ 31 -> ~ year_ok y ->
  exists text, to_iso_datetime tps v = Some text /\
    text = iso_text "T" 0 m d hh mi ss /\
    forall t, parse_datetime tps text = Some (Some t) -> t <> Z.quot v tps * tps.
Proof.
  intros tps v y m d hh mi ss Ht I Hy HN. unfold year_ok in HN.
  exists (iso_text "T" 0 m d hh mi ss). split; [|split; [reflexivity|]].
  - rewrite (format_datetime _ _ _ _ _ _ _ _ I Hy).
    replace ((0 <=? y) && (y <=? 9999)) with false by lia. reflexivity.
  - intros t P E. pose proof (datetime_text_round tps _ _ Ht P) as R.
    apply parse_datetime_iff in P.
    destruct P as (sep & y' & m' & d' & hh' & mi' & ss' & s & Hs & Hy' & ET & I' & -> & RR).
    pose proof (proj1 (year_range _ _ _ _ _ _ _ I') Hy') as K.
    assert (s = Z.quot v tps) by nia. subst s.
    apply (year_range _ _ _ _ _ _ _ I) in K. exact (HN K).
Qed.

Lemma one_second_order_false : exists tps v w x,
  0 < tps /\ tps <= w - v /\ to_iso_datetime tps v = Some x /\ to_iso_datetime tps w = Some x.
Proof.
  exists 1000000000, (-900000000), 900000000, (iso_text "T" 1970 1 1 0 0 0).
  repeat split; lia || reflexivity.
Qed.

Lemma range_quot : forall tps v, 0 < tps -> first_second * tps <= v < (last_second + 1) * tps ->
  first_second <= Z.quot v tps <= last_second.
Proof.
  intros tps v Ht [H1 H2]. split.
  - pose proof (Z.quot_le_mono (first_second * tps) v tps Ht H1) as Q.
    rewrite Z.quot_mul in Q by lia. exact Q.
  - destruct (Z.le_gt_cases 0 v) as [L|L].
    + pose proof (Z.quot_lt_upper_bound v tps (last_second + 1) L Ht ltac:(lia)). lia.
    + pose proof (Z.quot_le_mono v 0 tps Ht ltac:(lia)) as Q. rewrite Z.quot_0_l in Q by lia.
      unfold last_second. lia.
Qed.

Lemma datetime_time_trunc_range : forall tps v, 0 < tps -> - 2 ^ 63 <= v < 2 ^ 63 ->
  first_second * tps <= v < (last_second + 1) * tps ->
  exists text v', to_iso_datetime tps v = Some text /\
    parse_datetime tps text = Some (Some v') /\
    (tps | v') /\ Z.abs v' <= Z.abs v /\ Z.abs (v - v') < tps.
Proof. intros. apply datetime_time_trunc; auto using range_quot. Qed.

Lemma datetime_order_range : forall tps v w x y, 0 < tps ->
  first_second * tps <= v < (last_second + 1) * tps ->
  first_second * tps <= w < (last_second + 1) * tps ->
  to_iso_datetime tps v = Some x -> to_iso_datetime tps w = Some y ->
  (text_lt x y -> v < w) /\
  ((tps <= w - v /\ (0 <= v \/ w <= 0)) \/ 2 * tps <= w - v -> text_lt x y) /\
  (v <= w -> text_le x y).
Proof. intros. apply (datetime_order tps); auto using range_quot. Qed.
