(** Model of include/persistence/detail/bitset.hpp. A bit set of N bits is a list of N
    booleans. Indexing outside the array is undefined behaviour ([Bad]); throwing
    std::out_of_range is [Bad] as well where the caller cannot catch it, and [None] in
    the searching functions. *)
From Coq Require Import List Arith Bool.
Import ListNotations.

Definition bitset := list bool.

(** bitset.hpp:14: all bits false. *)
Definition empty (n : nat) : bitset := repeat false n.

(** bitset.hpp:17-26. *)
Fixpoint count (b : bitset) : nat :=
  match b with
  | [] => 0
  | x :: b' => if x then S (count b') else count b'
  end.

(** bitset.hpp:29-32; [None] is undefined behaviour. *)
Definition get (b : bitset) (k : nat) : option bool := nth_error b k.

(** bitset.hpp:35-38; [None] is undefined behaviour. *)
Fixpoint set (b : bitset) (k : nat) : option bitset :=
  match b, k with
  | [], _ => None
  | _ :: b', O => Some (true :: b')
  | x :: b', S k' => match set b' k' with Some r => Some (x :: r) | None => None end
  end.

(** bitset.hpp:41-49, the loop from position [k]; [None] is the exception. *)
Fixpoint first_set_from (k : nat) (b : bitset) : option nat :=
  match b with
  | [] => None
  | x :: b' => if x then Some k else first_set_from (S k) b'
  end.
Definition first_set (b : bitset) : option nat := first_set_from 0 b.

(** bitset.hpp:52-60. *)
Fixpoint first_unset_from (k : nat) (b : bitset) : option nat :=
  match b with
  | [] => None
  | x :: b' => if negb x then Some k else first_unset_from (S k) b'
  end.
Definition first_unset (b : bitset) : option nat := first_unset_from 0 b.

(** bitset.hpp:66-78: loop at position [k] having seen [i] set bits. *)
Fixpoint pick_from (k i : nat) (b : bitset) (index : nat) : option nat :=
  match b with
  | [] => None
  | x :: b' =>
    if x then (if Nat.eqb i index then Some k else pick_from (S k) (S i) b' index)
    else pick_from (S k) i b' index
  end.
Definition pick (b : bitset) (index : nat) : option nat := pick_from 0 0 b index.

(** A history of set operations on a fresh bit set; [None] if one is out of bounds. *)
Definition replay (n : nat) (ks : list nat) : option bitset :=
  fold_left (fun ob k => match ob with Some b => set b k | None => None end) ks (Some (empty n)).
