(** Properties C06 to C10: ISO 8601 dates and times. *)
From Coq Require Import List NArith ZArith Ascii String Bool.
From Verif Require Import Base Decimal10 DatetimeModel DatetimeSpec DatetimeProof.
Import ListNotations.
Local Open Scope Z_scope.

(** C06: an accepted text comes back, with T as the separator. *)
Theorem C06_datetime_text_round_trip : forall tps text t, 0 < tps ->
  parse_datetime tps text = Some (Some t) ->
  to_iso_datetime tps t = Some (firstn 10 text ++ ["T"%char] ++ skipn 11 text).
Proof. exact datetime_text_round. Qed.
Print Assumptions C06_datetime_text_round_trip.

Theorem C06_date_text_round_trip : forall tps text t, 0 < tps ->
  parse_date tps text = Some (Some t) -> to_iso_date tps t = Some text.
Proof. exact date_text_round. Qed.
Print Assumptions C06_date_text_round_trip.

Example C06_example :
  parse_datetime 1000000000 (list_ascii_of_string "2000-02-29 23:59:59Z") =
    Some (Some 951868799000000000) /\
  parse_date 1000000000 (list_ascii_of_string "1900-02-28") = Some (Some (-2203977600000000000)).
Proof. vm_compute. auto. Qed.

(** C07: a time point on a whole second comes back. *)
Theorem C07_time_round_trip : forall tps s, 0 < tps -> - 2 ^ 63 <= s * tps < 2 ^ 63 ->
  first_second <= s <= last_second ->
  exists text, to_iso_datetime tps (s * tps) = Some text /\
    parse_datetime tps text = Some (Some (s * tps)).
Proof. exact datetime_time_exact. Qed.
Print Assumptions C07_time_round_trip.

(** Any other time point loses its fraction of a second, towards the epoch. *)
Theorem C07_fraction_truncated : forall tps v, 0 < tps -> - 2 ^ 63 <= v < 2 ^ 63 ->
  first_second * tps <= v < (last_second + 1) * tps ->
  exists text v', to_iso_datetime tps v = Some text /\
    parse_datetime tps text = Some (Some v') /\
    (tps | v') /\ Z.abs v' <= Z.abs v /\ Z.abs (v - v') < tps.
Proof. exact datetime_time_trunc_range. Qed.
Print Assumptions C07_fraction_truncated.

(** The range is that of the years 0000 to 9999. *)
Theorem C07_range_is_four_digit_years : forall y m d hh mi ss t, instant y m d hh mi ss t ->
  (year_ok y <-> first_second <= t <= last_second).
Proof. exact year_range. Qed.
Print Assumptions C07_range_is_four_digit_years.

Example C07_example :
  to_iso_datetime 1000000000 (-1500000000) = Some (list_ascii_of_string "1969-12-31T23:59:59Z") /\
  parse_datetime 1000000000 (list_ascii_of_string "1969-12-31T23:59:59Z") = Some (Some (-1000000000)).
Proof. vm_compute. auto. Qed.

(** C08: the accepted texts and their instants. *)
Theorem C08_datetime_accepts : forall tps text t,
  parse_datetime tps text = Some (Some t) <->
  exists sep y m d hh mi ss s, (sep = "T"%char \/ sep = " "%char) /\ year_ok y /\
    text = iso_text sep y m d hh mi ss /\ instant y m d hh mi ss s /\
    t = s * tps /\ - 2 ^ 63 <= t < 2 ^ 63.
Proof. exact parse_datetime_iff. Qed.
Print Assumptions C08_datetime_accepts.

Theorem C08_datetime_rejects : forall tps text,
  parse_datetime tps text = Some None <->
  ~ exists sep y m d hh mi ss s, (sep = "T"%char \/ sep = " "%char) /\ year_ok y /\
    text = iso_text sep y m d hh mi ss /\ instant y m d hh mi ss s.
Proof. exact parse_datetime_reject. Qed.
Print Assumptions C08_datetime_rejects.

Theorem C08_date_accepts : forall tps text t,
  parse_date tps text = Some (Some t) <->
  exists y m d s, year_ok y /\ text = date_text y m d /\ instant y m d 0 0 0 s /\
    t = s * tps /\ - 2 ^ 63 <= t < 2 ^ 63.
Proof. exact parse_date_iff. Qed.
Print Assumptions C08_date_accepts.

Theorem C08_date_rejects : forall tps text,
  parse_date tps text = Some None <->
  ~ exists y m d s, year_ok y /\ text = date_text y m d /\ instant y m d 0 0 0 s.
Proof. exact parse_date_reject. Qed.
Print Assumptions C08_date_rejects.

Example C08_example :
  iso_text "T" 2004 2 29 1 2 3 = list_ascii_of_string "2004-02-29T01:02:03Z" /\
  parse_datetime 1 (list_ascii_of_string "2004-02-29T01:02:03Z") = Some (Some 1078016523) /\
  parse_datetime 1 (list_ascii_of_string "2001-02-29T01:02:03Z") = Some None /\
  parse_datetime 1 (list_ascii_of_string "2001-02-28T24:00:00Z") = Some None /\
  parse_datetime 1 (list_ascii_of_string "2001-02-+8T14:00:00Z") = Some None.
Proof. vm_compute. auto 6. Qed.

(** The calendar relation has exactly one date for each day number. *)
Example C08_calendar_example : exists n, cal 1970 1 2 n /\ n = 1.
Proof. exists 1. split; [|reflexivity]. exact (cal_next _ _ _ _ _ _ _ cal_epoch eq_refl). Qed.

(** C09: texts sort like time points. *)
Theorem C09_text_order : forall tps v w x y, 0 < tps ->
  first_second * tps <= v < (last_second + 1) * tps ->
  first_second * tps <= w < (last_second + 1) * tps ->
  to_iso_datetime tps v = Some x -> to_iso_datetime tps w = Some y ->
  (text_lt x y -> v < w) /\
  ((tps <= w - v /\ (0 <= v \/ w <= 0)) \/ 2 * tps <= w - v -> text_lt x y) /\
  (v <= w -> text_le x y).
Proof. exact datetime_order_range. Qed.
Print Assumptions C09_text_order.

(** A second apart is not enough around the epoch: truncation towards zero makes the
    two texts equal. *)
Theorem C09_one_second_apart_refuted : exists tps v w x,
  0 < tps /\ tps <= w - v /\ to_iso_datetime tps v = Some x /\ to_iso_datetime tps w = Some x.
Proof. exact one_second_order_false. Qed.
Print Assumptions C09_one_second_apart_refuted.

Example C09_example :
  text_lt (list_ascii_of_string "1999-12-31T23:59:59Z") (list_ascii_of_string "2000-01-01T00:00:00Z").
Proof. cbn. left. reflexivity. Qed.

(** C10: a year outside 0 to 9999 is written as 0000 without an error, and the text never
    reads back as the same time point. *)
Theorem C10_year_outside_silently_wrong : forall tps v y m d hh mi ss, 0 < tps ->
  instant y m d hh mi ss (Z.quot v tps) -> - 2 ^ 31 + 1900 <= y < 2 ^ 31 -> ~ year_ok y ->
  exists text, to_iso_datetime tps v = Some text /\
    text = iso_text "T" 0 m d hh mi ss /\
    forall t, parse_datetime tps text = Some (Some t) -> t <> Z.quot v tps * tps.
Proof. exact year_outside. Qed.
Print Assumptions C10_year_outside_silently_wrong.

Example C10_example :
  to_iso_datetime 1 253402300800 = Some (list_ascii_of_string "0000-01-01T00:00:00Z") /\
  parse_datetime 1 (list_ascii_of_string "0000-01-01T00:00:00Z") = Some (Some (-62167219200)).
Proof. vm_compute. auto. Qed.
