(** Dates and times whose fields are out of range. *)
From Coq Require Import ZArith.
From Verif Require Import DatetimeSpec.
Local Open Scope Z_scope.

(** The values of an unsigned int. *)
Definition unsigned (u : Z) : Prop := 0 <= u < 4294967296.

(** [reads u v]: the unsigned argument [u] stands for the number [v], which is [u] itself or
    the negative number that became [u]; [v] is at least [low]. *)
Definition reads (low u v : Z) : Prop :=
  low <= v < low + 4294967296 /\ (v = u \/ v = u - 4294967296).

(** [carried y m d hh mi ss s]: [s] is the number of seconds from the epoch to the date and
    time, where twelve months are a year, a day after the last of a month is a day of the next
    month, and so on: begin with the first day of the month and go on by days, hours, minutes
    and seconds (or back, for negative numbers). *)
Definition carried (y m d hh mi ss s : Z) : Prop :=
  exists y' m' n, 1 <= m' <= 12 /\ 12 * y' + m' = 12 * y + m /\ cal y' m' 1 n /\
    s = n * 86400 + (d - 1) * 86400 + hh * 3600 + mi * 60 + ss.

(** The years that a std::tm can hold. *)
Definition tm_year_ok (y : Z) : Prop := -2147481748 <= y <= 2147485547.
