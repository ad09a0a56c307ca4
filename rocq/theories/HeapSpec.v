(** Objects in memory that point to each other. *)
From Coq Require Import List Arith ZArith NArith Ascii String Bool.
From Verif Require Import Base Json Types DenoteSpec RoundSpec DocSpec GraphSpec SerializeModel HeapModel.
Import ListNotations.

(** [y] of type [u] is a component of [x] of type [t], or what it points to. *)
Inductive hpart (e : env) (h : heap) : ty -> hval -> ty -> hval -> Prop :=
| hpart_vector : forall u l x, In x l -> hpart e h (TVector u) (HList l) u x
| hpart_array : forall n u l x, In x l -> hpart e h (TArray n u) (HList l) u x
| hpart_set : forall u l x, In x l -> hpart e h (TSet u) (HList l) u x
| hpart_pair : forall a b l i u x, nth_error [a; b] i = Some u -> nth_error l i = Some x -> hpart e h (TPair a b) (HList l) u x
| hpart_tuple : forall ts l i u x, nth_error ts i = Some u -> nth_error l i = Some x -> hpart e h (TTuple ts) (HList l) u x
| hpart_map : forall o u l k x, In (k, x) l -> hpart e h (TMap o u) (HMap l) u x
| hpart_member : forall c l i m x, nth_error (c_members (class_of e c)) i = Some m -> nth_error l i = Some x -> m_kind m <> MOptional ->
    hpart e h (TClass c) (HObj l) (m_ty m) x
| hpart_optional : forall c l i m x, nth_error (c_members (class_of e c)) i = Some m -> nth_error l i = Some (HSome x) -> m_kind m = MOptional ->
    hpart e h (TClass c) (HObj l) (m_ty m) x
| hpart_variant : forall ts i u x, nth_error ts i = Some u -> hpart e h (TVariant ts) (HVariant i x) u x
| hpart_unique : forall u x, hpart e h (TUnique u) (HOwn x) u x
| hpart_raw : forall u a, hpart e h (TPtr u) (HRaw a) u (h a)
| hpart_shared : forall u a, hpart e h (TShared u) (HShared a) u (h a).

(** One can get from one variable to the other by going to components and following pointers. *)
Inductive leads (e : env) (h : heap) : ty -> hval -> ty -> hval -> Prop :=
| leads_here : forall t x, leads e h t x t x
| leads_on : forall t x u y w z, hpart e h t x u y -> leads e h u y w z -> leads e h t x w z.

(** Somewhere in [x] there is something that contains itself. *)
Definition cyclic (e : env) (h : heap) (t : ty) (x : hval) : Prop :=
  exists u y w z, leads e h t x u y /\ hpart e h u y w z /\ leads e h w z u y.

(** A variable has the shape that its type asks for. [T] are the types of the objects:
    pointers of different types do not point to the same object. *)
Inductive shaped (e : env) (T : nat -> ty) : ty -> hval -> Prop :=
| shaped_leaf : forall t v j, serialize_to_document e t v = SOk [] j -> scalar_value v = true -> shaped e T t (HLeaf v)
| shaped_vector : forall u l, shaped e T (TVector u) (HList l)
| shaped_array : forall u l, shaped e T (TArray (List.length l) u) (HList l)
| shaped_set : forall u l, shaped e T (TSet u) (HList l)
| shaped_map : forall o u l, shaped e T (TMap o u) (HMap l)
| shaped_pair : forall a b x y, shaped e T (TPair a b) (HList [x; y])
| shaped_tuple : forall ts l, List.length l = List.length ts -> shaped e T (TTuple ts) (HList l)
| shaped_variant : forall ts i u x, nth_error ts i = Some u -> shaped e T (TVariant ts) (HVariant i x)
| shaped_class : forall c l, Forall2 (fun m x => match m_kind m with MOptional => x = HNone \/ exists y, x = HSome y | _ => x <> HNone /\ forall y, x <> HSome y end)
    (c_members (class_of e c)) l -> shaped e T (TClass c) (HObj l)
| shaped_unique : forall u x, shaped e T (TUnique u) (HOwn x)
| shaped_raw : forall a, shaped e T (TPtr (T a)) (HRaw a)
| shaped_shared : forall a, shaped e T (TShared (T a)) (HShared a).

(** So do all the variables that it leads to: no null pointers, no numbers that cannot be
    written. *)
Definition sane (e : env) (h : heap) (T : nat -> ty) (t : ty) (x : hval) : Prop := forall u y, leads e h t x u y -> shaped e T u y.

(** There are finitely many objects. *)
Definition bounded (h : heap) (size : nat) (e : env) (t : ty) (x : hval) : Prop :=
  (forall u a, leads e h t x (TShared u) (HShared a) -> a < size) /\ forall u a, leads e h t x (TPtr u) (HRaw a) -> a < size.

(** The tree of all that [x] contains and points to, if it is finite. *)
Inductive tree (h : heap) : hval -> val -> Prop :=
| tree_leaf : forall v, scalar_value v = true \/ v = VIndet -> tree h (HLeaf v) v
| tree_list : forall l m, Forall2 (tree h) l m -> tree h (HList l) (VList m)
| tree_map : forall l m, Forall2 (fun p q => fst p = fst q /\ tree h (snd p) (snd q)) l m -> tree h (HMap l) (VMap m)
| tree_variant : forall i x v, tree h x v -> tree h (HVariant i x) (VVariant i v)
| tree_obj : forall l m, Forall2 (tree h) l m -> tree h (HObj l) (VObj m)
| tree_none : tree h HNone VNone
| tree_some : forall x v, tree h x v -> tree h (HSome x) (VSome v)
| tree_null : tree h HNull VPtrNull
| tree_own : forall x v, tree h x v -> tree h (HOwn x) (VPtr v)
| tree_raw : forall a v, tree h (h a) v -> tree h (HRaw a) (VPtr v)
| tree_shared : forall a v, tree h (h a) v -> tree h (HShared a) (VShared a v).

(** Unique pointers own their objects, raw pointers do not. *)
Definition kinds (e : env) (h : heap) (t : ty) (x : hval) : Prop :=
  (forall u a, ~ leads e h t x (TUnique u) (HRaw a)) /\ forall u y, ~ leads e h t x (TPtr u) (HOwn y).
