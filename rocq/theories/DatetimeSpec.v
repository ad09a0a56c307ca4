(** The Gregorian calendar counted day by day, and ISO 8601 texts. *)
From Coq Require Import List NArith ZArith Ascii String Bool.
Import ListNotations.
Local Open Scope Z_scope.

Definition leap (y : Z) : Prop := (y mod 4 = 0 /\ y mod 100 <> 0) \/ y mod 400 = 0.

Definition leapb (y : Z) : bool :=
  if y mod 400 =? 0 then true else if y mod 100 =? 0 then false else y mod 4 =? 0.

Definition month_days (y m : Z) : Z :=
  if m =? 2 then (if leapb y then 29 else 28)
  else if (m =? 4) || (m =? 6) || (m =? 9) || (m =? 11) then 30
  else 31.

Definition date_ok (y m d : Z) : Prop := 1 <= m <= 12 /\ 1 <= d <= month_days y m.

(** The day after a date. *)
Definition next_day (y m d : Z) : Z * Z * Z :=
  if d <? month_days y m then (y, m, d + 1)
  else if m <? 12 then (y, m + 1, 1)
  else (y + 1, 1, 1).

(** [cal y m d n]: counting days from 1970-01-01 (day 0), forwards or backwards, the
    date [y]-[m]-[d] has number [n]. *)
Inductive cal : Z -> Z -> Z -> Z -> Prop :=
| cal_epoch : cal 1970 1 1 0
| cal_next : forall y m d n y' m' d', cal y m d n -> next_day y m d = (y', m', d') ->
    cal y' m' d' (n + 1)
| cal_prev : forall y m d n y' m' d', cal y' m' d' n -> date_ok y m d ->
    next_day y m d = (y', m', d') -> cal y m d (n - 1).

Definition time_ok (hh mi ss : Z) : Prop := 0 <= hh < 24 /\ 0 <= mi < 60 /\ 0 <= ss < 60.

(** [instant y m d hh mi ss t]: the UTC date and time is [t] seconds after the epoch. *)
Definition instant (y m d hh mi ss t : Z) : Prop :=
  time_ok hh mi ss /\ exists n, cal y m d n /\ t = n * 86400 + hh * 3600 + mi * 60 + ss.

Definition dig (v : Z) : ascii := ascii_of_N (48 + Z.to_N v).

(** Fixed-width decimal fields. *)
Definition pad2 (v : Z) : list ascii := [dig (v / 10 mod 10); dig (v mod 10)].
Definition pad4 (v : Z) : list ascii :=
  [dig (v / 1000 mod 10); dig (v / 100 mod 10); dig (v / 10 mod 10); dig (v mod 10)].

Definition date_text (y m d : Z) : list ascii :=
  pad4 y ++ ["-"%char] ++ pad2 m ++ ["-"%char] ++ pad2 d.

Definition iso_text (sep : ascii) (y m d hh mi ss : Z) : list ascii :=
  date_text y m d ++ [sep] ++ pad2 hh ++ [":"%char] ++ pad2 mi ++ [":"%char] ++ pad2 ss ++ ["Z"%char].

Definition year_ok (y : Z) : Prop := 0 <= y <= 9999.

(** Lexicographic order of byte strings. *)
Fixpoint text_lt (a b : list ascii) : Prop :=
  match a, b with
  | [], _ :: _ => True
  | _, [] => False
  | x :: a', y :: b' => (N_of_ascii x < N_of_ascii y)%N \/ (x = y /\ text_lt a' b')
  end.

Definition text_le (a b : list ascii) : Prop := a = b \/ text_lt a b.

(** First and last second of the four-digit years. *)
Definition first_second : Z := -62167219200.
Definition last_second : Z := 253402300799.
