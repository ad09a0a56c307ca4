(** Property C40: the fixed-size bit set. *)
From Coq Require Import List Arith Bool.
From Verif Require Import BitsetModel BitsetProof.
Import ListNotations.

(** After any history of set operations within bounds, every query agrees with the sorted
    list of positions set: [positions n ks] filters 0 .. n-1 by membership in the history. *)
Theorem C40_bitset_operations : forall n ks, Forall (fun k => k < n) ks ->
  exists b, replay n ks = Some b /\
    (forall k, k < n -> get b k = Some (existsb (Nat.eqb k) ks)) /\
    (forall k, n <= k -> get b k = None) /\
    count b = List.length (positions n ks) /\
    first_set b = hd_error (positions n ks) /\
    first_unset b = hd_error (free_positions n ks) /\
    (forall i, pick b i = nth_error (positions n ks) i).
Proof. exact bitset_ops. Qed.
Print Assumptions C40_bitset_operations.

(** A history with an index out of bounds is undefined. *)
Theorem C40_out_of_bounds_undefined : forall n ks, ~ Forall (fun k => k < n) ks -> replay n ks = None.
Proof. exact replay_out. Qed.
Print Assumptions C40_out_of_bounds_undefined.

Example C40_example :
  exists b, replay 6 [4; 1; 4] = Some b /\ positions 6 [4; 1; 4] = [1; 4] /\
    count b = 2 /\ pick b 1 = Some 4 /\ pick b 2 = None /\ first_unset b = Some 0.
Proof. eexists. repeat split. Qed.
