(** Which values have the shape of a type, as far as the parser needs it: an object that
    exists already must have the components into which the parser reads, and the entries of a
    map are in the order of their keys. *)
From Coq Require Import List String Sorted.
From Verif Require Import Types Json.
Import ListNotations.

(** Types into whose values the parser reads in place. *)
Definition composite (t : ty) : bool :=
  match t with
  | TVector _ | TSet _ | TArray _ _ | TMap _ _ | TPair _ _ | TTuple _ | TClass _ => true
  | _ => false
  end.

Inductive shaped (e : env) : ty -> val -> Prop :=
| shaped_other : forall t v, composite t = false -> shaped e t v
| shaped_vector : forall u l, shaped e (TVector u) (VList l)
| shaped_set : forall u l, shaped e (TSet u) (VList l)
| shaped_array : forall n u l, List.length l = n -> Forall (shaped e u) l -> shaped e (TArray n u) (VList l)
| shaped_map : forall o u l, StronglySorted (fun p q => str_ltb (fst p) (fst q) = true) l ->
    Forall (fun p => shaped e u (snd p)) l -> shaped e (TMap o u) (VMap l)
| shaped_pair : forall a b x y, shaped e a x -> shaped e b y -> shaped e (TPair a b) (VList [x; y])
| shaped_tuple : forall ts l, Forall2 (shaped e) ts l -> shaped e (TTuple ts) (VList l)
| shaped_class : forall c l,
    Forall2 (fun m v => m_kind m <> MOptional -> shaped e (m_ty m) v) (c_members (class_of e c)) l ->
    shaped e (TClass c) (VObj l).

(** New objects of the classes have the members of the classes. *)
Definition shaped_classes (e : env) : Prop :=
  forall c, shaped e (TClass c) (VObj (c_default (class_of e c))) /\ shaped e (TClass c) (VObj (c_value (class_of e c))).
