(** Objects whose parts have values. *)
From Coq Require Import List Arith ZArith String Bool.
From Verif Require Import Base NumericModel Json Types.
Import ListNotations.

(** The types of single values that are not set by default initialisation. *)
Definition bare (t : ty) : Prop :=
  match t with TBool | TInt _ | TEnumInt _ | TEnumStr _ | TFloat | TDouble | TDate => True | _ => False end.

(** unsigned char, which may be copied without having a value. *)
Definition byte_type (t : ty) : Prop := t = TInt {| width := 8; is_signed := false |}.

(** The contents of objects of these types. *)
Definition single (v : val) : Prop := match v with VBool _ | VInt _ | VFlt _ | VDate _ => True | _ => False end.

(** Types that have a value from the beginning and keep their content elsewhere or whole. *)
Definition owning (t : ty) : Prop :=
  match t with
  | TNull | TString | TBytes | TTime | TVector _ | TSet _ | TMap _ _ | TUnique _ | TShared _ => True
  | _ => False
  end.

(** Everything that is stored in an object of type [t] with content [v] has a value. *)
Inductive given (e : env) : ty -> val -> Prop :=
| given_bare : forall t v, bare t -> single v -> given e t v
| given_byte : forall t v, byte_type t -> single v \/ v = VIndet -> given e t v
| given_owning : forall t v, owning t -> given e t v
| given_array : forall n u l, Forall (given e u) l -> given e (TArray n u) (VList l)
| given_pair : forall a b x y, given e a x -> given e b y -> given e (TPair a b) (VList [x; y])
| given_tuple : forall ts l, Forall2 (given e) ts l -> given e (TTuple ts) (VList l)
| given_variant : forall ts i u x, nth_error ts i = Some u -> given e u x -> given e (TVariant ts) (VVariant i x)
| given_class : forall c l, Forall2 (fun m x =>
      (m_kind m <> MOptional -> given e (m_ty m) x) /\
      (m_kind m = MOptional -> x = VNone \/ exists y, x = VSome y /\ given e (m_ty m) y)) (c_members (class_of e c)) l ->
    given e (TClass c) (VObj l).

(** Something that is stored in the object has no value. *)
Inductive lacking (e : env) : ty -> val -> Prop :=
| lacking_bare : forall t, bare t -> ~ byte_type t -> lacking e t VIndet
| lacking_array : forall n u l x, In x l -> lacking e u x -> lacking e (TArray n u) (VList l)
| lacking_pair : forall a b l i u x, nth_error [a; b] i = Some u -> nth_error l i = Some x -> lacking e u x -> lacking e (TPair a b) (VList l)
| lacking_tuple : forall ts l i u x, nth_error ts i = Some u -> nth_error l i = Some x -> lacking e u x -> lacking e (TTuple ts) (VList l)
| lacking_variant : forall ts i u x, nth_error ts i = Some u -> lacking e u x -> lacking e (TVariant ts) (VVariant i x)
| lacking_member : forall c l i m x, nth_error (c_members (class_of e c)) i = Some m -> nth_error l i = Some x -> lacking e (m_ty m) x ->
    lacking e (TClass c) (VObj l)
| lacking_optional : forall c l i m x, nth_error (c_members (class_of e c)) i = Some m -> nth_error l i = Some (VSome x) -> lacking e (m_ty m) x ->
    lacking e (TClass c) (VObj l).

(** Types whose content is not read member by member or component by component. *)
Definition replaced_whole (t : ty) : Prop :=
  match t with TPair _ _ | TTuple _ | TClass _ => False | _ => True end.

(** The members that a document may leave out have a value. *)
Inductive ready (e : env) : ty -> val -> Prop :=
| ready_whole : forall t v, replaced_whole t -> ready e t v
| ready_pair : forall a b x y, ready e a x -> ready e b y -> ready e (TPair a b) (VList [x; y])
| ready_tuple : forall ts l, Forall2 (ready e) ts l -> ready e (TTuple ts) (VList l)
| ready_class : forall c l, Forall2 (fun m x =>
      (m_kind m <> MOptional -> ready e (m_ty m) x) /\
      (m_kind m = MDefault -> given e (m_ty m) x)) (c_members (class_of e c)) l ->
    ready e (TClass c) (VObj l).

(** The members with a default are initialised by the classes themselves. *)
Definition prepared (e : env) : Prop := forall c,
  ready e (TClass c) (VObj (c_default (class_of e c))) /\ ready e (TClass c) (VObj (c_value (class_of e c))).

(** All members are. *)
Definition initialised (e : env) : Prop := forall c,
  given e (TClass c) (VObj (c_default (class_of e c))) /\ given e (TClass c) (VObj (c_value (class_of e c))).

(** Optional members, if there, hold what has a value from the beginning. *)
Definition steady_optionals (e : env) : Prop := forall c m, In m (c_members (class_of e c)) -> m_kind m = MOptional ->
  given e (m_ty m) (dinit e (m_ty m)).
