(** What must hold so that a value that was read can be written and read again. *)
From Coq Require Import List Arith ZArith NArith Ascii String Bool.
From Verif Require Import Base Float NumericModel Base64Spec EnumModel Json Types DenoteSpec RoundSpec SchemaGenSpec SafetySpec.
Import ListNotations.

(** The numbers of a value are finite. *)
Fixpoint finite (v : val) : Prop :=
  match v with
  | VFlt f => is_finite f = true
  | VList l | VObj l => fold_right (fun x P => finite x /\ P) True l
  | VMap l => fold_right (fun p P => finite (snd p) /\ P) True l
  | VVariant _ x | VSome x | VPtr x | VShared _ x => finite x
  | _ => True
  end.

(** The numbers with fraction or exponent in a document are doubles. *)
Definition doubles (j : json) : Prop := forall f, inside (JDbl f) j -> in_format binary64 f = true.

(** The order of the elements of a set is an order. *)
Definition ordered (lt : val -> val -> bool) : Prop :=
  (forall x y, lt x y = true -> lt y x = false) /\ (forall x y z, lt x y = true -> lt y z = true -> lt x z = true).

(** The types in [t]: enumerations have as many names as constants, there is no vector of
    pairs of a string and something, and the encoder may read beyond the end of a buffer. *)
Definition rewritable (e : env) (t : ty) : Prop :=
  (forall names, reachable e (TEnumStr names) t -> NoDup (map fst names) /\ NoDup (map snd names)) /\
  (forall u, reachable e (TVector u) t -> string_pair u = false) /\
  (forall u, reachable e (TSet u) t -> ordered (less e u)) /\
  (reachable e TBytes t -> forall b, over_read (List.length b) <= List.length (after e b)).

(** An object to read into: members that may keep their values have values that can be
    written. *)
Inductive ready (e : env) : ty -> val -> Prop :=
| ready_other : forall t v, in_place t = false -> ready e t v
| ready_pair : forall a b l, Forall2 (ready e) [a; b] l -> ready e (TPair a b) (VList l)
| ready_tuple : forall ts l, Forall2 (ready e) ts l -> ready e (TTuple ts) (VList l)
| ready_class : forall c l, Forall2 (fun m v => (m_kind m = MDefault -> holds e (m_ty m) v) /\ (m_kind m = MRequired -> ready e (m_ty m) v))
    (c_members (class_of e c)) l -> ready e (TClass c) (VObj l).

(** New objects of all classes are like that. *)
Definition ready_classes (e : env) : Prop := forall c, ready e (TClass c) (VObj (c_default (class_of e c))) /\
  ready e (TClass c) (VObj (c_value (class_of e c))).
