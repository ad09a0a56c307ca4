(** Documents that differ only in members that are not read. *)
From Coq Require Import List String.
From Verif Require Import Types Json.
Import ListNotations.

(** No shared and no raw pointers; variants are allowed. *)
Fixpoint unshared (t : ty) : bool :=
  match t with
  | TVector u | TArray _ u | TSet u | TMap _ u | TUnique u => unshared u
  | TPair a b => unshared a && unshared b
  | TTuple ts | TVariant ts => forallb unshared ts
  | TShared _ | TPtr _ => false
  | _ => true
  end.

Definition unshared_classes (e : env) : Prop :=
  forall c, forallb (fun m => unshared (m_ty m)) (c_members (class_of e c)) = true.

Definition declared (e : env) (c : nat) (name : string) : Prop := In name (map m_name (c_members (class_of e c))).

Section Members.
Variable R : ty -> json -> json -> Prop.
Variable e : env.
Variable c : nat.

(** The second object has further members: not declared by the class, or with a name that
    has occurred before ([seen]). *)
Inductive more_members : list string -> list (string * json) -> list (string * json) -> Prop :=
| more_nil : forall seen, more_members seen [] []
| more_same : forall seen n j j' l l',
    (forall m, In m (c_members (class_of e c)) -> m_name m = n -> R (m_ty m) j j') ->
    more_members (n :: seen) l l' -> more_members seen ((n, j) :: l) ((n, j') :: l')
| more_unread : forall seen n j l l', ~ declared e c n \/ In n seen ->
    more_members seen l l' -> more_members seen l ((n, j) :: l').

Inductive parts_related : list ty -> list json -> list json -> Prop :=
| related_nil : parts_related [] [] []
| related_cons : forall t ts j js j' js', R t j j' -> parts_related ts js js' ->
    parts_related (t :: ts) (j :: js) (j' :: js').
End Members.

(** The documents, both for type [t], are the same, but for further unread members in the
    objects for classes in the second, at any depth. *)
Inductive superfluous (e : env) : ty -> json -> json -> Prop :=
| superfluous_same : forall t j, superfluous e t j j
| superfluous_vector : forall t js js', Forall2 (superfluous e t) js js' ->
    superfluous e (TVector t) (JArr js) (JArr js')
| superfluous_array : forall n t js js', Forall2 (superfluous e t) js js' ->
    superfluous e (TArray n t) (JArr js) (JArr js')
| superfluous_set : forall t js js', Forall2 (superfluous e t) js js' ->
    superfluous e (TSet t) (JArr js) (JArr js')
| superfluous_map : forall o t l l',
    Forall2 (fun p p' => fst p = fst p' /\ superfluous e t (snd p) (snd p')) l l' ->
    superfluous e (TMap o t) (JObj l) (JObj l')
| superfluous_pair : forall a b js js', parts_related (superfluous e) [a; b] js js' ->
    superfluous e (TPair a b) (JArr js) (JArr js')
| superfluous_tuple : forall ts js js', parts_related (superfluous e) ts js js' ->
    superfluous e (TTuple ts) (JArr js) (JArr js')
| superfluous_variant : forall ts j j', Forall (fun t => superfluous e t j j') ts ->
    superfluous e (TVariant ts) j j'
| superfluous_class : forall c l l', more_members (superfluous e) e c [] l l' ->
    superfluous e (TClass c) (JObj l) (JObj l')
| superfluous_unique : forall t j j', superfluous e t j j' -> superfluous e (TUnique t) j j'.
