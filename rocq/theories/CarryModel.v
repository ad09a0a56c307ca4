(** Model of make_datetime (include/persistence/datetime.hpp:37-52) for arguments of any
    size, also those that are no date or no time of day. DatetimeModel has the same
    function for the arguments that the parsers pass. *)
From Coq Require Import ZArith Bool.
From Verif Require Import Base DatetimeModel.
Local Open Scope Z_scope.

(** Conversion of an unsigned int to int (modulo 2^32, as every compiler does before C++20
    and the standard demands since). *)
Definition to_int (u : Z) : Z :=
  let r := u mod 2 ^ 32 in if r <? 2 ^ 31 then r else r - 2 ^ 32.

(** libc's timegm on the fields of a std::tm. Months carry into the year, and days, hours,
    minutes and seconds into the date. The function fails with -1 if the year of the result
    does not fit the field tm_year. Trusted: libc is outside the repository. *)
Definition timegm (tm_year tm_mon tm_mday tm_hour tm_min tm_sec : Z) : Z :=
  let year := tm_year + 1900 + tm_mon / 12 in
  let month := tm_mon mod 12 + 1 in
  let t := (days_from_civil year month 1 + (tm_mday - 1)) * 86400 +
           tm_hour * 3600 + tm_min * 60 + tm_sec in
  match gmtime t with
  | Some _ => t
  | None => -1
  end.

(** datetime.hpp:41-52. The differences are taken in unsigned arithmetic. *)
Definition make_datetime_any (tps year month day hour minute second : Z) : option Z :=
  from_time_t tps
    (timegm (to_int (year - 1900)) (to_int (month - 1)) (to_int day) (to_int hour)
            (to_int minute) (to_int second)).
