(** Parts of objects, and parts that must not be written. *)
From Coq Require Import List Arith ZArith String Bool.
From Verif Require Import Base Base64Spec Json Types.
Import ListNotations.

(** An object of type [u] with content [x] is an immediate part of one of type [t] with content
    [v]: element, component, member, alternative or what a pointer points to. *)
Inductive child (e : env) : ty -> val -> ty -> val -> Prop :=
| child_vector : forall u l x, In x l -> child e (TVector u) (VList l) u x
| child_array : forall n u l x, In x l -> child e (TArray n u) (VList l) u x
| child_set : forall u l x, In x l -> child e (TSet u) (VList l) u x
| child_map : forall o u l k x, In (k, x) l -> child e (TMap o u) (VMap l) u x
| child_first : forall a b x y, child e (TPair a b) (VList [x; y]) a x
| child_second : forall a b x y, child e (TPair a b) (VList [x; y]) b y
| child_tuple : forall ts l i u x, nth_error ts i = Some u -> nth_error l i = Some x -> child e (TTuple ts) (VList l) u x
| child_variant : forall ts i u x, nth_error ts i = Some u -> child e (TVariant ts) (VVariant i x) u x
| child_member : forall c l i m x, nth_error (c_members (class_of e c)) i = Some m -> nth_error l i = Some x -> m_kind m <> MOptional ->
    child e (TClass c) (VObj l) (m_ty m) x
| child_optional : forall c l i m x, nth_error (c_members (class_of e c)) i = Some m -> nth_error l i = Some (VSome x) -> m_kind m = MOptional ->
    child e (TClass c) (VObj l) (m_ty m) x
| child_unique : forall u x, child e (TUnique u) (VPtr x) u x
| child_shared : forall u a x, child e (TShared u) (VShared a x) u x
| child_raw : forall u x, child e (TPtr u) (VPtr x) u x.

Inductive part (e : env) : ty -> val -> ty -> val -> Prop :=
| part_whole : forall t v, part e t v t v
| part_child : forall t v u x w y, child e t v u x -> part e u x w y -> part e t v w y.

(** Variables without a value, null pointers, byte strings with too little memory behind them
    for the encoder (C05), and dates so far away that the clock cannot count to them. *)
Inductive bad (e : env) : ty -> val -> Prop :=
| bad_unset : forall t, bad e t VIndet
| bad_null : forall t, bad e t VPtrNull
| bad_bytes : forall b, List.length (after e b) < over_read (List.length b) -> bad e TBytes (VBytes b)
| bad_date : forall d, ~ (- 2 ^ 63 <= d * 86400 * tick e < 2 ^ 63)%Z -> bad e TDate (VDate d).
