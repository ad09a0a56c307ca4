(** Objects that have a content that objects of their type can have. *)
From Coq Require Import List Arith ZArith String Bool Sorted.
From Verif Require Import Base Float NumericModel NumericSpec EnumModel Json Types RewriteSpec.
Import ListNotations.

(** [v] can be the content of an object of type [t]: variables of fundamental types, enumerations,
    dates and raw pointers may have no value ([VIndet]); numbers are in the range of their type, and an
    enumeration with names has one of its values or 0, its value if it is value-initialised;
    arrays, pairs, tuples and objects have all their parts; the elements of sets and the keys of
    dictionaries are in order and different; a variant holds one of its alternatives; only
    optional members are empty, and pointers may be null. *)
Inductive valid (e : env) : ty -> val -> Prop :=
| valid_unset : forall t, match t with TBool | TInt _ | TEnumInt _ | TEnumStr _ | TFloat | TDouble | TDate | TPtr _ => True | _ => False end -> valid e t VIndet
| valid_null : valid e TNull VNull
| valid_bool : forall b, valid e TBool (VBool b)
| valid_int : forall k z, ((1 <= width k)%Z -> in_range k z) -> valid e (TInt k) (VInt z)
| valid_enum : forall k z, ((1 <= width k)%Z -> in_range k z) -> valid e (TEnumInt k) (VInt z)
| valid_name : forall names z, z = 0%Z \/ In z (map fst names) -> valid e (TEnumStr names) (VInt z)
| valid_float : forall f, in_format binary32 f = true -> valid e TFloat (VFlt f)
| valid_double : forall f, in_format binary64 f = true -> valid e TDouble (VFlt f)
| valid_string : forall s, valid e TString (VStr s)
| valid_bytes : forall b, valid e TBytes (VBytes b)
| valid_time : forall z, (- 2 ^ 63 <= z < 2 ^ 63)%Z -> valid e TTime (VTime z)
| valid_date : forall d, valid e TDate (VDate d)
| valid_vector : forall u l, Forall (valid e u) l -> valid e (TVector u) (VList l)
| valid_array : forall n u l, List.length l = n -> Forall (valid e u) l -> valid e (TArray n u) (VList l)
| valid_set : forall u l, Forall (valid e u) l ->
    (ordered (less e u) -> StronglySorted (fun x y => less e u x y = true /\ less e u y x = false) l) -> valid e (TSet u) (VList l)
| valid_map : forall o u l, Forall (fun p => valid e u (snd p)) l ->
    StronglySorted (fun p q => str_ltb (fst p) (fst q) = true) l -> valid e (TMap o u) (VMap l)
| valid_pair : forall a b x y, valid e a x -> valid e b y -> valid e (TPair a b) (VList [x; y])
| valid_tuple : forall ts l, Forall2 (valid e) ts l -> valid e (TTuple ts) (VList l)
| valid_variant : forall ts i u x, nth_error ts i = Some u -> valid e u x -> valid e (TVariant ts) (VVariant i x)
| valid_variant_of_nothing : valid e (TVariant []) VIndet
| valid_class : forall c l, Forall2 (fun m x =>
      (m_kind m <> MOptional -> valid e (m_ty m) x) /\
      (m_kind m = MOptional -> x = VNone \/ exists y, x = VSome y /\ valid e (m_ty m) y)) (c_members (class_of e c)) l ->
    valid e (TClass c) (VObj l)
| valid_unique_null : forall u, valid e (TUnique u) VPtrNull
| valid_unique : forall u x, valid e u x -> valid e (TUnique u) (VPtr x)
| valid_shared_null : forall u, valid e (TShared u) VPtrNull
| valid_shared : forall u a x, valid e u x -> valid e (TShared u) (VShared a x)
| valid_raw_null : forall u, valid e (TPtr u) VPtrNull
| valid_raw : forall u x, valid e u x -> valid e (TPtr u) (VPtr x).

(** New objects of all classes are like that. *)
Definition valid_classes (e : env) : Prop := forall c,
  valid e (TClass c) (VObj (c_default (class_of e c))) /\ valid e (TClass c) (VObj (c_value (class_of e c))).
