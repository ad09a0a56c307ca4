(** Decimal numerals. *)
From Coq Require Import List Arith ZArith NArith Ascii String Bool.
From Verif Require Import Base Float.
Import ListNotations.
Local Open Scope Z_scope.

Definition digit_value (c : ascii) (d : Z) : Prop := 0 <= d <= 9 /\ Z.of_N (N_of_ascii c) = 48 + d.

(** Digits and the natural number they write; leading zeros are allowed. *)
Inductive decimal : list ascii -> Z -> Prop :=
| decimal_one : forall c d, digit_value c d -> decimal [c] d
| decimal_more : forall l n c d, decimal l n -> digit_value c d -> decimal (l ++ [c]) (10 * n + d).

(** An integer, with or without the possibility of a minus sign. *)
Inductive integer_numeral (signed : bool) : list ascii -> Z -> Prop :=
| numeral_plain : forall l n, decimal l n -> integer_numeral signed l n
| numeral_minus : forall l n, signed = true -> decimal l n -> integer_numeral signed ("-"%char :: l) (- n).

(** std::strtof and its like: the longest nonempty beginning of the text that is a numeral, and
    its value; nothing, and zero, if there is none. The numerals are those of the locale. *)
Definition reads_numerals (numeral : list ascii -> fl -> Prop) (strto : list ascii -> nat * fl) : Prop :=
  forall s n v, strto s = (n, v) ->
    (n <= List.length s)%nat /\
    match n with
    | O => v = FZero false /\ forall m w, (0 < m <= List.length s)%nat -> ~ numeral (firstn m s) w
    | _ => numeral (firstn n s) v /\ forall m w, (n < m <= List.length s)%nat -> ~ numeral (firstn m s) w
    end.
