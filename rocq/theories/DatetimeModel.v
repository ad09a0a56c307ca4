(** Model of include/persistence/datetime.hpp.

    A time point is the number of clock ticks since the epoch; [tps] is the number
    of ticks per second of std::chrono::system_clock (10^9 for libstdc++).
    [None] is undefined behaviour (overflow of the 64-bit tick count, or use of the
    null pointer that gmtime returns when the year does not fit an int). *)
From Coq Require Import List NArith ZArith Ascii String Bool.
From Verif Require Import Base Decimal10.
Import ListNotations.
Local Open Scope Z_scope.

Definition in_int64 (z : Z) : bool := (- 2 ^ 63 <=? z) && (z <? 2 ^ 63).
Definition in_int32 (z : Z) : bool := (- 2 ^ 31 <=? z) && (z <? 2 ^ 31).

(** Days since 1970-01-01 of a proleptic Gregorian date; what libc's timegm computes.
    Trusted: libc is outside the repository. *)
Definition days_from_civil (y m d : Z) : Z :=
  let y' := if m <=? 2 then y - 1 else y in
  let mp := if m <=? 2 then m + 9 else m - 3 in
  y' * 365 + y' / 4 - y' / 100 + y' / 400 + (153 * mp + 2) / 5 + d - 1 - 719468.

(** Date of a day number; what libc's gmtime computes. *)
Definition civil_from_days (n : Z) : Z * Z * Z :=
  let z := n + 719468 in
  let era := z / 146097 in
  let doe := z mod 146097 in
  let c := Z.min (doe / 36524) 3 in
  let q := (doe - c * 36524) / 1461 in
  let k := Z.min ((doe - c * 36524 - q * 1461) / 365) 3 in
  let yoe := 100 * c + 4 * q + k in
  let doy := doe - c * 36524 - q * 1461 - k * 365 in
  let mp := (5 * doy + 2) / 153 in
  let d := doy - (153 * mp + 2) / 5 + 1 in
  let m := if mp <? 10 then mp + 3 else mp - 9 in
  let y := yoe + era * 400 in
  (if m <=? 2 then y + 1 else y, m, d).

(** datetime.hpp:27-29 and timegm. *)
Definition utc_to_posix (y m d hh mm ss : Z) : Z :=
  days_from_civil y m d * 86400 + hh * 3600 + mm * 60 + ss.

(** std::chrono::system_clock::from_time_t: multiplication in the clock's 64-bit count. *)
Definition from_time_t (tps : Z) (t : Z) : option Z :=
  if in_int64 (t * tps) then Some (t * tps) else None.

(** std::chrono::system_clock::to_time_t: duration_cast truncates towards zero. *)
Definition to_time_t (tps : Z) (t : Z) : Z := Z.quot t tps.

(** datetime.hpp:41-52. The unsigned subtractions wrap and convert back to the
    intended int (tm_year = year - 1900, tm_mon = month - 1). *)
Definition make_datetime (tps y m d hh mm ss : Z) : option Z :=
  from_time_t tps (utc_to_posix y m d hh mm ss).

(** datetime.hpp:54-57. *)
Definition is_leap_year (y : Z) : bool :=
  ((y mod 4 =? 0) && negb (y mod 100 =? 0)) || (y mod 400 =? 0).

(** datetime.hpp:59-90. *)
Definition is_valid_date (y m d : Z) : bool :=
  if d <? 1 then false
  else if existsb (Z.eqb m) [1; 3; 5; 7; 8; 10; 12] then d <=? 31
  else if existsb (Z.eqb m) [4; 6; 9; 11] then d <=? 30
  else if m =? 2 then (if is_leap_year y then d <=? 29 else d <=? 28)
  else false.

Definition char_at (text : list ascii) (i : nat) : ascii := nth i text Ascii.zero.

Definition sub (text : list ascii) (first last : nat) : list ascii :=
  firstn (last - first) (skipn first text).

(** datetime.hpp:94-98: std::from_chars on an unsigned; it accepts digits only. The
    ranges are at most four characters, so no overflow. *)
Definition from_digits (ds : list ascii) : option Z :=
  match undec ds with
  | Some n => Some (Z.of_N n)
  | None => None
  end.

(** Outcome of a parse function: [Some None] is the result false. *)
Definition presult := option (option Z).

(** datetime.hpp:104-130. *)
Definition parse_date (tps : Z) (text : list ascii) : presult :=
  if negb (Nat.eqb (List.length text) 10) then Some None
  else if negb (Ascii.eqb (char_at text 4) "-") || negb (Ascii.eqb (char_at text 7) "-") then Some None
  else
    match from_digits (sub text 0 4), from_digits (sub text 5 7), from_digits (sub text 8 10) with
    | Some year, Some month, Some day =>
      if negb (is_valid_date year month day) then Some None
      else do! t <- make_datetime tps year month day 0 0 0; Some (Some t)
    | _, _, _ => Some None
    end.

(** datetime.hpp:135-171. *)
Definition parse_datetime (tps : Z) (text : list ascii) : presult :=
  if negb (Nat.eqb (List.length text) 20) then Some None
  else if negb (Ascii.eqb (char_at text 4) "-") || negb (Ascii.eqb (char_at text 7) "-") ||
          (negb (Ascii.eqb (char_at text 10) "T") && negb (Ascii.eqb (char_at text 10) " ")) ||
          negb (Ascii.eqb (char_at text 13) ":") || negb (Ascii.eqb (char_at text 16) ":") ||
          negb (Ascii.eqb (char_at text 19) "Z")
  then Some None
  else
    match from_digits (sub text 0 4), from_digits (sub text 5 7), from_digits (sub text 8 10),
          from_digits (sub text 11 13), from_digits (sub text 14 16), from_digits (sub text 17 19) with
    | Some year, Some month, Some day, Some hour, Some minute, Some second =>
      if negb (is_valid_date year month day) then Some None
      else if (24 <=? hour) || (60 <=? minute) || (60 <=? second) then Some None
      else do! t <- make_datetime tps year month day hour minute second; Some (Some t)
    | _, _, _, _, _, _ => Some None
    end.

(** std::to_chars into the rest of a field: nothing is written if the numeral is too long
    (libstdc++; the standard leaves the content unspecified). *)
Definition to_chars (field : list ascii) (first : nat) (value : Z) : list ascii :=
  let ds := decZ value in
  if Nat.leb (List.length ds) (List.length field - first) then
    firstn first field ++ ds ++ skipn (first + List.length ds) field
  else field.

(** datetime.hpp:181-193, AlignedDigitWriter<4> on the field it writes. *)
Definition aligned4 (field : list ascii) (value : Z) : list ascii :=
  let first := if value <? 10 then 3%nat else if value <? 100 then 2%nat
               else if value <? 1000 then 1%nat else 0%nat in
  to_chars field first value.

(** datetime.hpp:196-204, AlignedDigitWriter<2>. *)
Definition aligned2 (field : list ascii) (value : Z) : list ascii :=
  let first := if value <? 10 then 1%nat else 0%nat in
  to_chars field first value.

Definition zeros (n : nat) : list ascii := repeat "0"%char n.

(** gmtime: [None] is the null pointer. *)
Definition gmtime (t : Z) : option (Z * Z * Z * Z * Z * Z) :=
  let days := t / 86400 in
  let sod := t mod 86400 in
  let '(y, m, d) := civil_from_days days in
  if in_int32 (y - 1900) then Some (y - 1900, m - 1, d, sod / 3600, (sod mod 3600) / 60, sod mod 60)
  else None.

(** datetime.hpp:254 and 278: signed addition, overflow is undefined. *)
Definition full_year (tm_year : Z) : option Z :=
  if in_int32 (tm_year + 1900) then Some (tm_year + 1900) else None.

(** datetime.hpp:216-225 and 247-266. *)
Definition to_iso_date (tps : Z) (value : Z) : option (list ascii) :=
  do! cal <- gmtime (to_time_t tps value);
  let '(tm_year, tm_mon, d, _, _, _) := cal in
  do! y <- full_year tm_year;
  let m := tm_mon + 1 in
  Some (aligned4 (zeros 4) y ++ ["-"%char] ++ aligned2 (zeros 2) m ++ ["-"%char] ++
        aligned2 (zeros 2) d).

(** datetime.hpp:230-242 and 271-296. *)
Definition to_iso_datetime (tps : Z) (value : Z) : option (list ascii) :=
  do! cal <- gmtime (to_time_t tps value);
  let '(tm_year, tm_mon, d, hh, mi, ss) := cal in
  do! y <- full_year tm_year;
  let m := tm_mon + 1 in
  Some (aligned4 (zeros 4) y ++ ["-"%char] ++ aligned2 (zeros 2) m ++ ["-"%char] ++
        aligned2 (zeros 2) d ++ ["T"%char] ++ aligned2 (zeros 2) hh ++ [":"%char] ++
        aligned2 (zeros 2) mi ++ [":"%char] ++ aligned2 (zeros 2) ss ++ ["Z"%char]).
