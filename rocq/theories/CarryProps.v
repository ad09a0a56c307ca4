(** Property C69: make_datetime with arguments that are no date or no time of day. *)
From Coq Require Import List ZArith Ascii String Lia Bool.
From Verif Require Import Base DatetimeModel DatetimeSpec DatetimeProof CarryModel CarrySpec CarryProof.
Import ListNotations.
Local Open Scope Z_scope.

(** The time point for any six arguments: fields that are out of range carry over to the
    next larger field, and the result is the time point of the date and time that this gives,
    if its year fits. *)
Theorem C69_carries : forall tps y m d hh mi ss y' m' d' hh' mi' ss' s t cy cm cd ch ci cs,
  unsigned y -> unsigned m -> unsigned d -> unsigned hh -> unsigned mi -> unsigned ss ->
  reads (1900 - 2147483648) y y' -> reads (1 - 2147483648) m m' -> reads (-2147483648) d d' ->
  reads (-2147483648) hh hh' -> reads (-2147483648) mi mi' -> reads (-2147483648) ss ss' ->
  carried y' m' d' hh' mi' ss' s -> instant cy cm cd ch ci cs s -> tm_year_ok cy ->
  make_datetime_any tps y m d hh mi ss = Some t <-> t = s * tps /\ - 2 ^ 63 <= t < 2 ^ 63.
Proof.
  intros * Uy Um Ud Uh Ui Us Ry Rm Rd Rh Ri Rs C I Y.
  rewrite (make_any tps y m d hh mi ss y' m' d' hh' mi' ss') by assumption.
  apply carried_iff in C. rewrite <- C.
  apply (proj2 (gmtime_some _ _ _ _ _ _ _ I)) in Y. destruct Y as [c ->].
  apply from_time_t_some.
Qed.
Print Assumptions C69_carries.

(** If the year does not fit, the result is the second before the epoch, and nothing tells
    that something went wrong. *)
Theorem C69_year_too_far : forall tps y m d hh mi ss y' m' d' hh' mi' ss' s cy cm cd ch ci cs,
  0 < tps <= 2 ^ 62 ->
  unsigned y -> unsigned m -> unsigned d -> unsigned hh -> unsigned mi -> unsigned ss ->
  reads (1900 - 2147483648) y y' -> reads (1 - 2147483648) m m' -> reads (-2147483648) d d' ->
  reads (-2147483648) hh hh' -> reads (-2147483648) mi mi' -> reads (-2147483648) ss ss' ->
  carried y' m' d' hh' mi' ss' s -> instant cy cm cd ch ci cs s -> ~ tm_year_ok cy ->
  make_datetime_any tps y m d hh mi ss = Some (- tps) /\
  to_iso_datetime tps (- tps) = Some (iso_text "T" 1969 12 31 23 59 59).
Proof.
  intros * P Uy Um Ud Uh Ui Us Ry Rm Rd Rh Ri Rs C I Y.
  rewrite (make_any tps y m d hh mi ss y' m' d' hh' mi' ss') by assumption.
  apply carried_iff in C. rewrite <- C. split.
  - destruct (gmtime s) as [c|] eqn:G.
    + exfalso. apply Y. apply (proj1 (gmtime_some _ _ _ _ _ _ _ I)). eauto.
    + apply from_time_t_some. split; [lia|].
      assert (2 ^ 62 < 2 ^ 63) by (apply Z.pow_lt_mono_r; lia). lia.
  - unfold to_iso_datetime, to_time_t. replace (Z.quot (- tps) tps) with (-1).
    + reflexivity.
    + rewrite Z.quot_opp_l by lia. rewrite Z.quot_same by lia. reflexivity.
Qed.
Print Assumptions C69_year_too_far.

(** The arguments of a date and time that exists are the fields of the text of the result. *)
Theorem C69_shown : forall tps y m d hh mi ss t, 0 < tps -> year_ok y -> date_ok y m d ->
  time_ok hh mi ss -> make_datetime_any tps y m d hh mi ss = Some t ->
  instant y m d hh mi ss (t / tps) /\ to_iso_datetime tps t = Some (iso_text "T" y m d hh mi ss).
Proof.
  intros * P Y D T M. pose proof D as [Dm Dd]. pose proof (month_days_le y m) as L.
  pose proof T as (Th & Ti & Ts). unfold year_ok in Y.
  assert (I : instant y m d hh mi ss (seconds_of y m d hh mi ss)).
  { apply carried_instant; try assumption. apply carried_iff. reflexivity. }
  apply (proj1 (C69_carries tps y m d hh mi ss y m d hh mi ss _ t _ _ _ _ _ _
     ltac:(unfold unsigned; lia) ltac:(unfold unsigned; lia) ltac:(unfold unsigned; lia)
     ltac:(unfold unsigned; lia) ltac:(unfold unsigned; lia) ltac:(unfold unsigned; lia)
     ltac:(apply reads_same; lia) ltac:(apply reads_same; lia) ltac:(apply reads_same; lia)
     ltac:(apply reads_same; lia) ltac:(apply reads_same; lia) ltac:(apply reads_same; lia)
     (proj2 (carried_iff _ _ _ _ _ _ _) eq_refl) I ltac:(unfold tm_year_ok; lia))) in M.
  destruct M as [-> R]. rewrite Z.div_mul by lia. split; [exact I|].
  rewrite (format_datetime tps _ y m d hh mi ss); [|rewrite Z.quot_mul by lia; exact I | lia].
  replace ((0 <=? y) && (y <=? 9999)) with true by lia. reflexivity.
Qed.
Print Assumptions C69_shown.

(** No arguments are refused: whatever they are, there is a date and time that exists for
    which the function gives the same time point, or year and clock are too small for it. *)
Theorem C69_same_as_valid : forall tps y m d hh mi ss y' m' d' hh' mi' ss' s cy cm cd ch ci cs,
  unsigned y -> unsigned m -> unsigned d -> unsigned hh -> unsigned mi -> unsigned ss ->
  reads (1900 - 2147483648) y y' -> reads (1 - 2147483648) m m' -> reads (-2147483648) d d' ->
  reads (-2147483648) hh hh' -> reads (-2147483648) mi mi' -> reads (-2147483648) ss ss' ->
  carried y' m' d' hh' mi' ss' s -> instant cy cm cd ch ci cs s -> 0 <= cy <= 2147485547 ->
  make_datetime_any tps y m d hh mi ss = make_datetime_any tps cy cm cd ch ci cs.
Proof.
  intros * Uy Um Ud Uh Ui Us Ry Rm Rd Rh Ri Rs C I Y.
  pose proof (proj1 (instant_iff _ _ _ _ _ _ _) I) as (D & T & E).
  pose proof D as [Dm Dd]. pose proof (month_days_le cy cm) as L. pose proof T as (Th & Ti & Ts).
  rewrite (make_any tps y m d hh mi ss y' m' d' hh' mi' ss') by assumption.
  rewrite (make_any tps cy cm cd ch ci cs cy cm cd ch ci cs)
    by ((unfold unsigned; lia) || (apply reads_same; lia)).
  apply carried_iff in C. rewrite <- C.
  apply (carried_instant cy cm cd ch ci cs s D T) in I. apply carried_iff in I. rewrite <- I.
  reflexivity.
Qed.
Print Assumptions C69_same_as_valid.

(** On the arguments that the parsers pass, the function is the one of C06 to C10. *)
Theorem C69_parsers : forall tps y m d hh mi ss, year_ok y -> is_valid_date y m d = true ->
  0 <= hh < 24 -> 0 <= mi < 60 -> 0 <= ss < 60 ->
  make_datetime_any tps y m d hh mi ss = make_datetime tps y m d hh mi ss.
Proof.
  intros * Y D Th Ti Ts. apply valid_model in D. pose proof D as [Dm Dd]. unfold year_ok in Y.
  pose proof (month_days_le y m) as L.
  assert (T : time_ok hh mi ss) by (repeat split; lia).
  assert (I : instant y m d hh mi ss (seconds_of y m d hh mi ss)).
  { apply carried_instant; try assumption. apply carried_iff. reflexivity. }
  rewrite (make_any tps y m d hh mi ss y m d hh mi ss)
    by ((unfold unsigned; lia) || (apply reads_same; lia)).
  destruct (proj2 (gmtime_some _ _ _ _ _ _ _ I) ltac:(unfold tm_year_ok; lia)) as [c ->].
  apply instant_iff in I. destruct I as (_ & _ & ->). reflexivity.
Qed.
Print Assumptions C69_parsers.

(** Not true: a call that succeeds had a date that exists. *)
Theorem C69_only_dates_refuted : exists tps y m d hh mi ss t,
  unsigned y /\ unsigned m /\ unsigned d /\ make_datetime_any tps y m d hh mi ss = Some t /\
  is_valid_date y m d = false /\ to_iso_datetime tps t = Some (iso_text "T" 2023 3 2 0 0 0).
Proof.
  exists 1000000000, 2023, 2, 30, 0, 0, 0, 1677715200000000000.
  unfold unsigned. repeat split; lia || reflexivity.
Qed.
Print Assumptions C69_only_dates_refuted.

(** Month 0 is December of the year before, day 0 the last day of the month before, hour 25
    one o'clock on the next day, and -1 as an unsigned number is one less. *)
Example C69_example :
  make_datetime_any 1000000000 2024 0 1 0 0 0 = make_datetime_any 1000000000 2023 12 1 0 0 0 /\
  make_datetime_any 1000000000 2024 3 0 0 0 0 = make_datetime_any 1000000000 2024 2 29 0 0 0 /\
  make_datetime_any 1000000000 2024 12 31 25 61 61 = make_datetime_any 1000000000 2025 1 1 2 2 1 /\
  make_datetime_any 1000000000 2024 3 1 0 0 4294967295 = make_datetime_any 1000000000 2024 2 29 23 59 59 /\
  make_datetime_any 1000000000 2024 3 1 0 0 0 = Some 1709251200000000000.
Proof. vm_compute. auto. Qed.

Example C69_example_carried : carried 2024 14 31 0 0 0 1740960000 /\ instant 2025 3 3 0 0 0 1740960000.
Proof.
  split; [apply carried_iff; reflexivity|]. apply instant_iff.
  split; [|split; [|reflexivity]]; repeat split; try lia; vm_compute; discriminate.
Qed.

(** The last month of the last year that fits is beyond the clock, which is undefined
    behaviour; the month after it is the second before the epoch. *)
Example C69_example_too_far :
  make_datetime_any 1000000000 2147485547 12 1 0 0 0 = None /\
  make_datetime_any 1000000000 2147485547 13 1 0 0 0 = Some (-1000000000).
Proof. vm_compute. auto. Qed.
