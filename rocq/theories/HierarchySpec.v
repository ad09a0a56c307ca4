(** A class hierarchy seen as one class. *)
From Coq Require Import List Arith.
From Verif Require Import Types HierarchyModel.
Import ListNotations.

(** The members of the class and its bases in the order in which they are visited. *)
Fixpoint in_order {A} (p : persist A) : list A :=
  match p with
  | Done => []
  | Visit a p => a :: in_order p
  | Copy p => in_order p
  | Base b p | Aside b p => in_order b ++ in_order p
  end.

(** No archive returned is discarded. *)
Fixpoint chained {A} (p : persist A) : Prop :=
  match p with
  | Done => True
  | Visit _ p | Copy p => chained p
  | Base b p => chained b /\ chained p
  | Aside _ _ => False
  end.

(** How many members, from the first, are visited before an archive is copied or returned. *)
Fixpoint uncopied {A} (p : persist A) : nat :=
  match p with
  | Done | Copy _ => 0
  | Visit _ p => S (uncopied p)
  | Base b _ | Aside b _ => uncopied b
  end.

(** The class [c] of the model stands for a class with this persist function. *)
Definition stands_for (e : env) (c : nat) (p : persist member) : Prop :=
  chained p /\ c_members (class_of e c) = in_order p /\ c_root (class_of e c) = uncopied p.
