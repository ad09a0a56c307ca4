(** When the two readers should agree. *)
From Coq Require Import List Arith ZArith NArith Ascii String Bool.
From Verif Require Import Base Json Types DenoteSpec MergeSpec.
Import ListNotations.

(** No object has two members of the same name, and no name has a NUL. *)
Inductive clean : json -> Prop :=
| clean_scalar : forall j, match j with JArr _ | JObj _ => False | _ => True end -> clean j
| clean_array : forall js, Forall clean js -> clean (JArr js)
| clean_object : forall l, NoDup (map fst l) -> Forall (fun p => until_nul (fst p) = fst p /\ clean (snd p)) l -> clean (JObj l).

(** Every required member is in the document. *)
Definition complete (e : env) (t : ty) (j : json) : Prop :=
  forall c l, reads_at e t j (TClass c) (JObj l) ->
  forall m, In m (c_members (class_of e c)) -> m_kind m = MRequired -> In (m_name m) (map fst l).

(** No object has members unknown to its class. *)
Definition known (e : env) (t : ty) (j : json) : Prop :=
  forall c l, reads_at e t j (TClass c) (JObj l) -> forall k, In k (map fst l) -> In k (map m_name (c_members (class_of e c))).

(** Numbers are exact for the floating-point types into which they are read. *)
Definition exact (e : env) (t : ty) (j : json) : Prop :=
  forall u j', reads_at e t j u j' -> scalar_type u = true -> exact_number u j'.

(** No string enumeration is part of anything, and non-empty arrays are read into vectors and
    sets of types other than small numbers. *)
Definition parseable (e : env) (t : ty) (j : json) : Prop :=
  (forall t1 j1 u j2, reads_at e t j t1 j1 -> part e t1 j1 u j2 -> unfinished u = false) /\
  (forall u js, reads_at e t j (TVector u) (JArr js) \/ reads_at e t j (TSet u) (JArr js) -> js = [] \/ odd_number u = false).

(** Objects without content, as constructors leave them; [v] and [v'] have the same values in
    members that keep them when they are missing in documents. *)
Inductive fresh_parts (R : ty -> val -> val -> Prop) : list ty -> list val -> list val -> Prop :=
| fresh_nil : fresh_parts R [] [] []
| fresh_cons : forall t ts v l v' l', R t v v' -> fresh_parts R ts l l' -> fresh_parts R (t :: ts) (v :: l) (v' :: l').

Inductive fresh_members (R : ty -> val -> val -> Prop) : list member -> list val -> list val -> Prop :=
| fresh_none : fresh_members R [] [] []
| fresh_member : forall m ms v l v' l', (m_kind m = MOptional -> v = VNone) -> (m_kind m = MDefault -> v = v') ->
    (m_kind m <> MOptional -> R (m_ty m) v v') -> fresh_members R ms l l' -> fresh_members R (m :: ms) (v :: l) (v' :: l').

Inductive fresh (e : env) : ty -> val -> val -> Prop :=
| fresh_scalar : forall t v v', scalar_type t = true -> fresh e t v v'
| fresh_unique : forall u v v', fresh e (TUnique u) v v'
| fresh_vector : forall u v', fresh e (TVector u) (VList []) v'
| fresh_set : forall u v', fresh e (TSet u) (VList []) v'
| fresh_map : forall o u v', fresh e (TMap o u) (VMap []) v'
| fresh_array : forall n u l v', List.length l = n -> Forall (fun x => fresh e u x (dinit e u)) l -> fresh e (TArray n u) (VList l) v'
| fresh_pair : forall a b l l', fresh_parts (fresh e) [a; b] l l' -> fresh e (TPair a b) (VList l) (VList l')
| fresh_tuple : forall ts l l', fresh_parts (fresh e) ts l l' -> fresh e (TTuple ts) (VList l) (VList l')
| fresh_class : forall c l l', fresh_members (fresh e) (c_members (class_of e c)) l l' -> fresh e (TClass c) (VObj l) (VObj l').

(** In every class, a member that may be missing has an initial value: the same in [T x;] and
    [T x{};], while other members may be indeterminate. *)
Definition fresh_classes (e : env) : Prop :=
  forall c, let cl := class_of e c in
  fresh e (TClass c) (VObj (c_default cl)) (VObj (c_default cl)) /\ fresh e (TClass c) (VObj (c_value cl)) (VObj (c_default cl)) /\
  fresh e (TClass c) (VObj (c_value cl)) (VObj (c_value cl)).
