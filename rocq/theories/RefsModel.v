(** Model of include/persistence/detail/references.hpp: a std::map from keys to values, here
    the list of entries in the order of insertion. *)
From Coq Require Import List.
Import ListNotations.

Section Table.
Variables (K V : Type) (eqb : K -> K -> bool).

Definition rtable := list (K * V).

(** references.hpp:10-18 *)
Fixpoint ref_get (t : rtable) (key : K) : option V :=
  match t with
  | [] => None
  | (k, v) :: t' => if eqb k key then Some v else ref_get t' key
  end.

(** references.hpp:20-28: std::map::insert leaves an entry that exists as it is. *)
Definition ref_put (t : rtable) (key : K) (value : V) : rtable :=
  match ref_get t key with
  | Some _ => t
  | None => t ++ [(key, value)]
  end.

(** A history of registrations, oldest first. *)
Definition register (t : rtable) (puts : list (K * V)) : rtable :=
  fold_left (fun t e => ref_put t (fst e) (snd e)) puts t.
End Table.
Arguments ref_get {K V}.
Arguments ref_put {K V}.
Arguments register {K V}.
