(** Model of number.hpp: numbers from literals. *)
From Coq Require Import List Arith ZArith NArith Ascii String Bool.
From Verif Require Import Base Float NumericModel.
Import ListNotations.

(** std::from_chars, base 10: the digits at the beginning of a text, their number, and the rest. *)
Fixpoint leading_digits (l : list ascii) (acc : Z) : Z * list ascii :=
  match l with
  | c :: l' =>
    let n := Z.of_N (N_of_ascii c) in
    if ((48 <=? n) && (n <=? 57))%Z then leading_digits l' (10 * acc + (n - 48))%Z else (acc, l)
  | [] => (acc, [])
  end.

(** std::from_chars for integers: error code, value, what is left of the text. The value is
    that before the call unless the error code is zero. A minus sign belongs to the number if
    the type is signed; a plus sign never does. Without digits nothing is read; a number out of
    range is read but not stored. *)
Inductive errc : Type := ENone | EInvalid | ERange.

Definition from_chars (k : ity) (l : list ascii) (value : Z) : errc * Z * list ascii :=
  let '(negative, digits) :=
    match l with
    | c :: l' => if is_signed k && Ascii.eqb c "-" then (true, l') else (false, l)
    | [] => (false, [])
    end in
  let '(n, rest) := leading_digits digits 0 in
  if Nat.eqb (List.length rest) (List.length digits) then (EInvalid, value, l)
  else
    let z := if negative then (- n)%Z else n in
    if ((tmin k <=? z) && (z <=? tmax k))%Z then (ENone, z, rest) else (ERange, value, rest).

(** number.hpp:11-17 and 26-33, 79-84: parse_number for integers, with the value before. *)
Definition parse_integer (k : ity) (l : list ascii) (value : Z) : bool * Z :=
  match from_chars k l value with
  | (ENone, z, []) => (true, z)
  | (_, z, _) => (false, z)
  end.

(** number.hpp:44-75, 79-84: parse_number for floating-point types. [strto] is std::strtof,
    strtod or strtold: how many characters of a text it reads, and the value. The end of the
    text [l] is not passed to it; [beyond] is what follows in memory up to a NUL. *)
Definition parse_floating (strto : list ascii -> nat * fl) (l beyond : list ascii) : bool * fl :=
  let '(n, v) := strto (l ++ beyond) in (Nat.eqb n (List.length l), v).
