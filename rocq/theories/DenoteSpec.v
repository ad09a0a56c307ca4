(** Which JSON documents denote which values: the meaning of documents, written down without
    reference to the algorithm of the deserializer. Variants, shared pointers and raw
    pointers are left out. *)
From Coq Require Import List Arith ZArith NArith Ascii String Bool Permutation.
From Verif Require Import Base Float NumericModel NumericSpec Base64Spec DatetimeSpec EnumModel Json Types.
Import ListNotations.
Local Open Scope Z_scope.

(** A C string ends at the first NUL. *)
Fixpoint until_nul (s : string) : string :=
  match s with
  | EmptyString => EmptyString
  | String c s' => if Ascii.eqb c Ascii.zero then EmptyString else String c (until_nul s')
  end.

Definition text (s : string) : list ascii := list_ascii_of_string s.

(** Parts of a value, given the meaning [R] of their documents. *)
Section Parts.
Variable R : ty -> val -> json -> val -> Prop.
Variable e : env.

(** Components of pairs and tuples. *)
Inductive parts_denote : list ty -> list val -> list json -> list val -> Prop :=
| parts_nil : forall olds, parts_denote [] olds [] []
| parts_cons : forall t ts olds j js v vs,
    R t (hd VIndet olds) j v -> parts_denote ts (tl olds) js vs -> parts_denote (t :: ts) olds (j :: js) (v :: vs).

(** A member of a class in an object with members [l]; [old] is its content before. *)
Inductive member_denotes (l : list (string * json)) (m : member) (old : val) : val -> Prop :=
| member_plain : forall j v, m_kind m <> MOptional -> find_member l (m_name m) = Some j ->
    R (m_ty m) old j v -> member_denotes l m old v
| member_kept : m_kind m = MDefault -> find_member l (m_name m) = None -> member_denotes l m old old
| member_some : forall j v, m_kind m = MOptional -> find_member l (m_name m) = Some j ->
    R (m_ty m) (dinit e (m_ty m)) j v -> member_denotes l m old (VSome v)
| member_none : m_kind m = MOptional -> find_member l (m_name m) = None -> member_denotes l m old VNone.

Inductive members_denote (l : list (string * json)) : list member -> list val -> list val -> Prop :=
| members_nil : forall olds, members_denote l [] olds []
| members_cons : forall m ms olds v vs, member_denotes l m (hd VIndet olds) v ->
    members_denote l ms (tl olds) vs -> members_denote l (m :: ms) olds (v :: vs).
End Parts.

(** The components of an object that held [old]. *)
Definition components (old : val) : list val :=
  match old with VList l | VObj l => l | _ => [] end.

(** The document [j], read into an object of type [t] that holds [old], denotes [v]. *)
Inductive denotes (e : env) : ty -> val -> json -> val -> Prop :=
| denotes_null : forall old, denotes e TNull old JNull VNull
| denotes_bool : forall old b, denotes e TBool old (JBool b) (VBool b)
| denotes_int : forall k old z, in_range k z -> denotes e (TInt k) old (JInt z) (VInt z)
| denotes_enum_int : forall k old z, in_range k z -> denotes e (TEnumInt k) old (JInt z) (VInt z)
| denotes_enum_str : forall names old s z, enum_from_string names s = Some z ->
    denotes e (TEnumStr names) old (JStr s) (VInt z)
(* a number with fraction or exponent is a double, rounded to the type *)
| denotes_float : forall old f, denotes e TFloat old (JDbl f) (VFlt (Float.round binary32 f))
| denotes_double : forall old f, denotes e TDouble old (JDbl f) (VFlt (Float.round binary64 f))
(* an integer is rounded to double first *)
| denotes_float_int : forall old z,
    denotes e TFloat old (JInt z) (VFlt (Float.round binary32 (Float.round binary64 (fl_of_Z z))))
| denotes_double_int : forall old z, denotes e TDouble old (JInt z) (VFlt (Float.round binary64 (fl_of_Z z)))
| denotes_string : forall old s, denotes e TString old (JStr s) (VStr s)
| denotes_bytes : forall old s values data, decodes (text s) values data ->
    denotes e TBytes old (JStr s) (VBytes data)
| denotes_time : forall old s sep y m d hh mi ss sec, sep = "T"%char \/ sep = " "%char -> year_ok y ->
    text s = iso_text sep y m d hh mi ss -> instant y m d hh mi ss sec ->
    - 2 ^ 63 <= sec * tick e < 2 ^ 63 -> denotes e TTime old (JStr s) (VTime (sec * tick e))
| denotes_date : forall old s y m d n, year_ok y -> text s = date_text y m d -> cal y m d n ->
    - 2 ^ 63 <= n * 86400 * tick e < 2 ^ 63 -> denotes e TDate old (JStr s) (VDate n)
| denotes_vector : forall t old js vs, Forall2 (denotes e t (dinit e t)) js vs ->
    denotes e (TVector t) old (JArr js) (VList vs)
| denotes_array : forall t old js vs, Forall2 (denotes e t (dinit e t)) js vs ->
    denotes e (TArray (List.length js) t) old (JArr js) (VList vs)
(* inserted one after the other *)
| denotes_set : forall t old js vs, Forall2 (denotes e t (dinit e t)) js vs ->
    denotes e (TSet t) old (JArr js) (VList (fold_left (set_insert (less e t)) vs []))
(* assigned one after the other *)
| denotes_map : forall ordered t old l vs, Forall2 (fun p v => denotes e t (dinit e t) (snd p) v) l vs ->
    denotes e (TMap ordered t) old (JObj l)
      (VMap (fold_left (fun m p => map_assign m (fst p) (snd p)) (combine (map (fun p => until_nul (fst p)) l) vs) []))
| denotes_pair : forall a b old js vs, parts_denote (denotes e) [a; b] (components old) js vs ->
    denotes e (TPair a b) old (JArr js) (VList vs)
| denotes_tuple : forall ts old js vs, parts_denote (denotes e) ts (components old) js vs ->
    denotes e (TTuple ts) old (JArr js) (VList vs)
| denotes_class : forall c old l vs,
    members_denote (denotes e) e l (c_members (class_of e c)) (components old) vs ->
    denotes e (TClass c) old (JObj l) (VObj vs)
| denotes_unique : forall t old j v, denotes e t (vinit e t) j v -> denotes e (TUnique t) old j (VPtr v).

(** No variants, shared pointers or raw pointers. *)
Fixpoint plain (t : ty) : bool :=
  match t with
  | TVector u | TArray _ u | TSet u | TMap _ u | TUnique u => plain u
  | TPair a b => plain a && plain b
  | TTuple ts => forallb plain ts
  | TVariant _ | TShared _ | TPtr _ => false
  | _ => true
  end.

Definition plain_classes (e : env) : Prop :=
  forall c, forallb (fun m => plain (m_ty m)) (c_members (class_of e c)) = true.

(** The integer types are those of C++. *)
Fixpoint real_ints (t : ty) : bool :=
  match t with
  | TInt k | TEnumInt k => existsb (Z.eqb (width k)) [8; 16; 32; 64]
  | TVector u | TArray _ u | TSet u | TMap _ u | TUnique u | TShared u | TPtr u => real_ints u
  | TPair a b => real_ints a && real_ints b
  | TTuple ts | TVariant ts => forallb real_ints ts
  | _ => true
  end.

Definition real_classes (e : env) : Prop :=
  forall c, forallb (fun m => real_ints (m_ty m)) (c_members (class_of e c)) = true.

(** No classes. *)
Fixpoint classless (t : ty) : bool :=
  match t with
  | TVector u | TArray _ u | TSet u | TMap _ u | TUnique u | TShared u | TPtr u => classless u
  | TPair a b => classless a && classless b
  | TTuple ts | TVariant ts => forallb classless ts
  | TClass _ => false
  | _ => true
  end.

(** What the theorems assume of a program: no variants, shared or raw pointers in classes,
    and a platform with the integer types of C++ and a clock. *)
Definition ordinary (e : env) : Prop := plain_classes e /\ real_classes e /\ 0 < tick e.

Definition ordinary_type (t : ty) : Prop := plain t = true /\ real_ints t = true.

(** No byte strings, times or dates, which have undefined behaviour of their own. *)
Fixpoint codec_free (t : ty) : bool :=
  match t with
  | TBytes | TTime | TDate => false
  | TVector u | TArray _ u | TSet u | TMap _ u | TUnique u | TShared u | TPtr u => codec_free u
  | TPair a b => codec_free a && codec_free b
  | TTuple ts | TVariant ts => forallb codec_free ts
  | _ => true
  end.

Definition codec_free_classes (e : env) : Prop :=
  forall c, forallb (fun m => codec_free (m_ty m)) (c_members (class_of e c)) = true.

(** No default member is missing in the document where an object that exists already is
    read: in classes, and in the components of classes, pairs and tuples. *)
Definition in_place (t : ty) : bool :=
  match t with TPair _ _ | TTuple _ | TClass _ => true | _ => false end.

Inductive settled (e : env) : ty -> json -> Prop :=
| settled_other : forall t j, in_place t = false -> settled e t j
| settled_pair : forall a b js, Forall2 (settled e) [a; b] js -> settled e (TPair a b) (JArr js)
| settled_tuple : forall ts js, Forall2 (settled e) ts js -> settled e (TTuple ts) (JArr js)
| settled_class : forall c l,
    (forall m, In m (c_members (class_of e c)) -> m_kind m = MDefault -> find_member l (m_name m) <> None) ->
    (forall m j, In m (c_members (class_of e c)) -> m_kind m <> MOptional -> find_member l (m_name m) = Some j ->
       settled e (m_ty m) j) ->
    settled e (TClass c) (JObj l).

(** The same documents, with the members of objects in another order; no object has two
    members of the same name, as far as a C string can tell. *)
Inductive reordered : json -> json -> Prop :=
| reordered_scalar : forall j, match j with JArr _ | JObj _ => False | _ => True end -> reordered j j
| reordered_array : forall js js', Forall2 reordered js js' -> reordered (JArr js) (JArr js')
| reordered_object : forall l l1 l', NoDup (map (fun p => until_nul (fst p)) l) ->
    Forall2 (fun p q => fst p = fst q /\ reordered (snd p) (snd q)) l l1 -> Permutation l1 l' ->
    reordered (JObj l) (JObj l').
