(** Model of the choice of member made by the object parsers of parse_object.hpp. *)
From Coq Require Import List Arith NArith Ascii String Bool.
From Verif Require Import Base HashModel.
Import ListNotations.

(** Comparison of two std::string_view objects. *)
Fixpoint same (a b : list ascii) : bool :=
  match a, b with
  | [], [] => true
  | x :: a', y :: b' => Ascii.eqb x y && same a' b'
  | _, _ => false
  end.

(** parse_object.hpp:10-37: visit_at tries the positions 0, 1, ... in turn; an index beyond
    the last position does nothing. *)
Fixpoint visit (left here idx : nat) : option nat :=
  match left with
  | O => None
  | S left' => if Nat.eqb idx here then Some here else visit left' (S here) idx
  end.

Definition visit_at (size idx : nat) : option nat := visit size 0 idx.

(** The member to which a key is routed; [Ok None] is the report of an unknown member.
    One name: parse_object.hpp:102-112. Two names: 139-152. Otherwise 181-193, with the hash
    table of line 205 built from the names. A parser that reports success without having
    pushed a handler for a member does not arise; it would be [Bad]. *)
Definition dispatch (fuel : nat) (names : list (list ascii)) (key : list ascii) : res (option nat) :=
  match names with
  | [a] => Ok (if same a key then Some 0 else None)
  | [a; b] => Ok (if same key a then Some 0 else if same key b then Some 1 else None)
  | _ =>
    let size := List.length names in
    let* hash_map <- build fuel names;
    let* k <- index size hash_map key;
    let* found <- of_opt (nth_error names k);
    if negb (same found key) then Ok None
    else match visit_at size k with
         | Some m => Ok (Some m)
         | None => Bad
         end
  end.
