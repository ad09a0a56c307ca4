(** How large a value is. *)
From Coq Require Import List Arith String.
From Verif Require Import Base Json Types GraphSpec RoundSpec SchemaGenSpec.
Import ListNotations.

(** The number of JSON values that a value takes, a shared pointer counted as a reference and
    not with the object that it points to: an object with one string. *)
Fixpoint cells (v : val) : nat :=
  match v with
  | VList l | VObj l => S (list_sum (map cells l))
  | VMap l => S (list_sum (map (fun p => cells (snd p)) l))
  | VVariant _ x | VSome x | VPtr x => cells x
  | VNone => 0
  | VShared _ _ => 2
  | _ => 1
  end.

(** The addresses of the shared objects in a value, each once. *)
Definition objects_of (v : val) : list nat := nodup Nat.eq_dec (addresses v).

(** No vectors of pairs with a string, which are written as objects with less values than
    there are in the vector. *)
Definition no_dictionary (e : env) (t : ty) : Prop := forall u, reachable e (TVector u) t -> string_pair u = false.
