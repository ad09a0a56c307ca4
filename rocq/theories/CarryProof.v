From Coq Require Import List ZArith Ascii Lia Bool.
From Verif Require Import Base DatetimeModel DatetimeSpec DatetimeProof CarryModel CarrySpec.
Import ListNotations.
Local Open Scope Z_scope.

Lemma to_int_reads : forall u v, unsigned u -> reads (-2147483648) u v -> to_int u = v.
Proof.
  unfold unsigned, reads, to_int. intros u v U [L H].
  change (2 ^ 32) with 4294967296. change (2 ^ 31) with 2147483648.
  rewrite Z.mod_small by lia. destruct (u <? 2147483648) eqn:E.
  - apply Z.ltb_lt in E. lia.
  - apply Z.ltb_ge in E. lia.
Qed.

Lemma to_int_shift : forall k u v, unsigned u -> 0 <= k < 2147483648 ->
  reads (k - 2147483648) u v -> to_int (u - k) = v - k.
Proof.
  unfold unsigned, reads, to_int. intros k u v U K [L H].
  change (2 ^ 32) with 4294967296. change (2 ^ 31) with 2147483648.
  assert (M : (u - k) mod 4294967296 = if u <? k then u - k + 4294967296 else u - k).
  { destruct (u <? k) eqn:E; [apply Z.ltb_lt in E | apply Z.ltb_ge in E].
    - symmetry. apply Z.mod_unique with (q := -1); lia.
    - apply Z.mod_small. lia. }
  rewrite M. destruct (u <? k) eqn:E; [apply Z.ltb_lt in E | apply Z.ltb_ge in E];
    match goal with |- context [if ?b then _ else _] => destruct b eqn:F end;
    [apply Z.ltb_lt in F | apply Z.ltb_ge in F | apply Z.ltb_lt in F | apply Z.ltb_ge in F]; lia.
Qed.

Lemma reads_exists : forall low u, -4294967296 <= low <= 0 -> unsigned u -> exists v, reads low u v.
Proof.
  unfold unsigned, reads. intros low u L U.
  destruct (Z_lt_ge_dec u (low + 4294967296)); [exists u | exists (u - 4294967296)]; lia.
Qed.

Lemma reads_same : forall low u, low <= 0 -> 0 <= u < low + 4294967296 -> reads low u u.
Proof. unfold reads. lia. Qed.

(** The number of seconds before the check of the year. *)
Definition seconds_of (y m d hh mi ss : Z) : Z :=
  (days_from_civil (y + (m - 1) / 12) ((m - 1) mod 12 + 1) 1 + (d - 1)) * 86400 +
  hh * 3600 + mi * 60 + ss.

Lemma first_ok : forall y m, 1 <= m <= 12 -> date_ok y m 1.
Proof. intros y m M. split; [exact M|]. pose proof (month_days_le y m). lia. Qed.

Lemma carried_iff : forall y m d hh mi ss s, carried y m d hh mi ss s <-> s = seconds_of y m d hh mi ss.
Proof.
  intros y m d hh mi ss s. unfold carried, seconds_of. split.
  - intros (y' & m' & n & M & E & C & ->). apply cal_iff in C. destruct C as [_ <-].
    assert (Q : (m - 1) / 12 = y' - y /\ (m - 1) mod 12 = m' - 1).
    { split; symmetry; [apply Z.div_unique with (r := m' - 1) | apply Z.mod_unique with (q := y' - y)]; lia. }
    destruct Q as [-> ->].
    replace (y + (y' - y)) with y' by lia. replace (m' - 1 + 1) with m' by lia. lia.
  - intros ->. pose proof (Z.mod_pos_bound (m - 1) 12 ltac:(lia)) as B.
    pose proof (Z.div_mod (m - 1) 12 ltac:(lia)) as D.
    exists (y + (m - 1) / 12), ((m - 1) mod 12 + 1),
      (days_from_civil (y + (m - 1) / 12) ((m - 1) mod 12 + 1) 1).
    split; [lia|]. split; [lia|]. split; [|lia].
    apply cal_iff. split; [apply first_ok; lia | reflexivity].
Qed.

Lemma carried_unique : forall y m d hh mi ss s s', carried y m d hh mi ss s ->
  carried y m d hh mi ss s' -> s = s'.
Proof. intros * A B. apply carried_iff in A, B. congruence. Qed.

Lemma carried_exists : forall y m d hh mi ss, exists s, carried y m d hh mi ss s.
Proof. intros. exists (seconds_of y m d hh mi ss). apply carried_iff. reflexivity. Qed.

Lemma days_first : forall y m d, days_from_civil y m 1 + (d - 1) = days_from_civil y m d.
Proof. intros. unfold days_from_civil. lia. Qed.

(** On dates and times carrying does nothing. *)
Lemma carried_instant : forall y m d hh mi ss s, date_ok y m d -> time_ok hh mi ss ->
  carried y m d hh mi ss s <-> instant y m d hh mi ss s.
Proof.
  intros y m d hh mi ss s D T. rewrite carried_iff, instant_iff. unfold seconds_of, utc_to_posix.
  pose proof (proj1 D) as M. rewrite (Z.div_small (m - 1)), (Z.mod_small (m - 1)) by lia.
  replace (y + 0) with y by lia. replace (m - 1 + 1) with m by lia.
  rewrite days_first. intuition.
Qed.

Lemma make_any : forall tps y m d hh mi ss y' m' d' hh' mi' ss',
  unsigned y -> unsigned m -> unsigned d -> unsigned hh -> unsigned mi -> unsigned ss ->
  reads (1900 - 2147483648) y y' -> reads (1 - 2147483648) m m' -> reads (-2147483648) d d' ->
  reads (-2147483648) hh hh' -> reads (-2147483648) mi mi' -> reads (-2147483648) ss ss' ->
  make_datetime_any tps y m d hh mi ss =
  from_time_t tps (match gmtime (seconds_of y' m' d' hh' mi' ss') with
                   | Some _ => seconds_of y' m' d' hh' mi' ss' | None => -1 end).
Proof.
  intros * Uy Um Ud Uh Ui Us Ry Rm Rd Rh Ri Rs. unfold make_datetime_any.
  rewrite (to_int_shift 1900 y y'), (to_int_shift 1 m m'), (to_int_reads d d'),
    (to_int_reads hh hh'), (to_int_reads mi mi'), (to_int_reads ss ss') by (assumption || lia).
  unfold timegm. replace (y' - 1900 + 1900 + (m' - 1) / 12) with (y' + (m' - 1) / 12) by lia.
  reflexivity.
Qed.

Lemma gmtime_some : forall y m d hh mi ss s, instant y m d hh mi ss s ->
  (exists c, gmtime s = Some c) <-> tm_year_ok y.
Proof.
  intros y m d hh mi ss s I. pose proof (gmtime_of _ _ _ _ _ _ _ I) as G. unfold tm_year_ok.
  rewrite G. destruct (in_int32 (y - 1900)) eqn:E; unfold in_int32 in E;
    change (2 ^ 31) with 2147483648 in E.
  - apply andb_prop in E. destruct E as [E F]. apply Z.leb_le in E. apply Z.ltb_lt in F.
    split; [intros _; lia | intros _; eexists; reflexivity].
  - split; [intros [c C]; discriminate|]. intros B. apply andb_false_iff in E.
    destruct E as [E|E]; [apply Z.leb_gt in E | apply Z.ltb_ge in E]; lia.
Qed.

Lemma from_time_t_some : forall tps s t, from_time_t tps s = Some t <->
  t = s * tps /\ - 2 ^ 63 <= t < 2 ^ 63.
Proof.
  intros tps s t. unfold from_time_t, in_int64.
  destruct ((- 2 ^ 63 <=? s * tps) && (s * tps <? 2 ^ 63)) eqn:E.
  - apply andb_prop in E. destruct E as [E F]. apply Z.leb_le in E. apply Z.ltb_lt in F. split.
    + intros H. injection H as <-. split; [reflexivity | split; assumption].
    + intros [-> _]. reflexivity.
  - split; [discriminate|]. intros [-> [A B]]. apply Z.leb_le in A. apply Z.ltb_lt in B.
    rewrite A, B in E. discriminate.
Qed.
