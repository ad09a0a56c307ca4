(** Which values survive being written and read: the values of the types, except for those
    that JSON or the texts of this library cannot express. *)
From Coq Require Import List Arith ZArith NArith Ascii String Bool Permutation Sorted.
From Verif Require Import Base Float NumericModel NumericSpec Base64Spec DatetimeSpec EnumModel Json Types DenoteSpec.
Import ListNotations.
Local Open Scope Z_scope.

Section Members.
Variable H : ty -> val -> Prop.
Inductive member_holds (m : member) : val -> Prop :=
| member_held : forall v, m_kind m <> MOptional -> H (m_ty m) v -> member_holds m v
| member_empty : m_kind m = MOptional -> member_holds m VNone
| member_filled : forall x, m_kind m = MOptional -> H (m_ty m) x -> member_holds m (VSome x).
End Members.

(** A pair whose first component is a string: a vector of such pairs is written as an object,
    and both readers expect an array. *)
Definition string_pair (t : ty) : bool := match t with TPair TString _ => true | _ => false end.

(** The kinds of JSON values, with numbers that are written as integers apart from others. *)
Inductive shape : Type := SNull | SBool | SInt | SDbl | SString | SArray | SObject.

(** The shapes that values of a type are written in. A shared pointer is written as what it
    points to, or as a reference. *)
Fixpoint written_as (t : ty) (s : shape) : bool :=
  match t with
  | TNull => match s with SNull => true | _ => false end
  | TBool => match s with SBool => true | _ => false end
  | TInt _ | TEnumInt _ => match s with SInt => true | _ => false end
  | TFloat | TDouble => match s with SDbl => true | _ => false end
  | TString | TBytes | TTime | TDate | TEnumStr _ => match s with SString => true | _ => false end
  | TVector _ | TArray _ _ | TSet _ | TPair _ _ | TTuple _ => match s with SArray => true | _ => false end
  | TMap _ _ | TClass _ => match s with SObject => true | _ => false end
  | TVariant ts => existsb (fun u => written_as u s) ts
  | TUnique u | TPtr u => written_as u s
  | TShared u => match s with SObject => true | _ => written_as u s end
  end.

(** The shapes in which a value of a type may come: floating-point numbers also as integers. *)
Fixpoint read_from (t : ty) (s : shape) : bool :=
  match t with
  | TNull => match s with SNull => true | _ => false end
  | TBool => match s with SBool => true | _ => false end
  | TInt _ | TEnumInt _ => match s with SInt => true | _ => false end
  | TFloat | TDouble => match s with SInt | SDbl => true | _ => false end
  | TString | TBytes | TTime | TDate | TEnumStr _ => match s with SString => true | _ => false end
  | TVector _ | TArray _ _ | TSet _ | TPair _ _ | TTuple _ => match s with SArray => true | _ => false end
  | TMap _ _ | TClass _ => match s with SObject => true | _ => false end
  | TVariant ts => existsb (fun u => read_from u s) ts
  | TUnique u => read_from u s
  | TShared u => match s with SObject => true | _ => read_from u s end
  | TPtr _ => true
  end.

(** No text of a [t] can be taken for a [u]. *)
Definition unlike (t u : ty) : Prop := forall s, written_as t s = true -> read_from u s = false.

(** [v] is a value of type [t] and can be written and read: numbers are finite, times are
    whole seconds in years 0 to 9999, enumerations have a name, keys of maps have no NUL,
    pointers are not null, sets are sorted. The alternatives of a variant are tried in order,
    so those before the one it holds must not look like it. *)
Inductive holds (e : env) : ty -> val -> Prop :=
| holds_null : holds e TNull VNull
| holds_bool : forall b, holds e TBool (VBool b)
| holds_int : forall k z, in_range k z -> holds e (TInt k) (VInt z)
| holds_float : forall f, in_format binary32 f = true -> is_finite f = true -> holds e TFloat (VFlt f)
| holds_double : forall f, in_format binary64 f = true -> is_finite f = true -> holds e TDouble (VFlt f)
| holds_string : forall s, holds e TString (VStr s)
(* the bytes that the encoder reads beyond the end are there *)
| holds_bytes : forall b, (over_read (List.length b) <= List.length (after e b))%nat -> holds e TBytes (VBytes b)
| holds_time : forall s, - 2 ^ 63 <= s * tick e < 2 ^ 63 -> first_second <= s <= last_second -> holds e TTime (VTime (s * tick e))
| holds_date : forall d, - 2 ^ 63 <= d * 86400 * tick e < 2 ^ 63 -> first_second <= d * 86400 <= last_second -> holds e TDate (VDate d)
| holds_enum_int : forall k z, in_range k z -> holds e (TEnumInt k) (VInt z)
| holds_enum_str : forall names z, NoDup (map fst names) -> NoDup (map snd names) -> In z (map fst names) -> holds e (TEnumStr names) (VInt z)
| holds_vector : forall u l, string_pair u = false -> Forall (holds e u) l -> holds e (TVector u) (VList l)
| holds_array : forall u l, Forall (holds e u) l -> holds e (TArray (List.length l) u) (VList l)
| holds_set : forall u l, Forall (holds e u) l ->
    StronglySorted (fun x y => less e u x y = true /\ less e u y x = false) l -> holds e (TSet u) (VList l)
| holds_map : forall o u l, Forall (fun p => until_nul (fst p) = fst p /\ holds e u (snd p)) l ->
    StronglySorted (fun p q => str_ltb (fst p) (fst q) = true) l -> holds e (TMap o u) (VMap l)
| holds_pair : forall a b x y, holds e a x -> holds e b y -> holds e (TPair a b) (VList [x; y])
| holds_tuple : forall ts l, Forall2 (holds e) ts l -> holds e (TTuple ts) (VList l)
| holds_class : forall c l, Forall2 (member_holds (holds e)) (c_members (class_of e c)) l -> holds e (TClass c) (VObj l)
| holds_unique : forall u x, holds e u x -> holds e (TUnique u) (VPtr x)
| holds_shared : forall u a x, holds e u x -> holds e (TShared u) (VShared a x)
| holds_variant : forall ts i t x, nth_error ts i = Some t -> holds e t x ->
    (forall k u, (k < i)%nat -> nth_error ts k = Some u -> unlike t u) -> holds e (TVariant ts) (VVariant i x).

(** Iterating over an unordered map visits each entry once. *)
Definition iterates (e : env) : Prop := forall keys, Permutation (iteration e keys) (seq 0 (List.length keys)).

(** The members of a class have different names. *)
Definition named (e : env) : Prop := forall c, NoDup (map m_name (c_members (class_of e c))).

(** How deep a value nests. *)
Fixpoint depth (v : val) : nat :=
  match v with
  | VList l | VObj l => S (list_max (map depth l))
  | VMap l => S (list_max (map (fun p => depth (snd p)) l))
  | VVariant _ x | VSome x | VPtr x | VShared _ x => depth x
  | _ => 0
  end.

(** Names of members have no NUL. *)
Definition legible (e : env) : Prop := forall c m, In m (c_members (class_of e c)) -> until_nul (m_name m) = m_name m.
