(** The C++ types the library handles, and their values.

    Types and values are a deep embedding: the template specialisations of the library are
    selected by matching on [ty]. Platform: LP64, char signed. *)
From Coq Require Import List Arith ZArith NArith Ascii String Bool.
From Verif Require Import Base Float NumericModel EnumModel Base64Model.
Import ListNotations.

(** [TInt] covers char, signed/unsigned char, short, int, long, long long and their unsigned
    counterparts by width and signedness. [TEnumInt] is an enumeration without string
    conversion, [TEnumStr] one with enum_traits (EnumConverter). [TMap true] is std::map,
    [TMap false] std::unordered_map, both with std::string keys. [TClass c] is the c-th class
    of the environment, so that classes may be recursive. std::vector<bool> is [TVector TBool].
    Not modelled: string_view, const char*, literal keyed maps, custom serializers. *)
Inductive ty : Type :=
| TNull
| TBool
| TInt (k : ity)
| TFloat
| TDouble
| TString
| TBytes
| TTime
| TDate
| TEnumInt (k : ity)
| TEnumStr (names : enum_table)
| TVector (t : ty)
| TArray (n : nat) (t : ty)
| TSet (t : ty)
| TMap (ordered : bool) (t : ty)
| TPair (a b : ty)
| TTuple (ts : list ty)
| TVariant (ts : list ty)
| TClass (c : nat)
| TUnique (t : ty)
| TShared (t : ty)
| TPtr (t : ty).

Section TyInd.
Variable P : ty -> Prop.
Hypotheses (Hnull : P TNull) (Hbool : P TBool) (Hint : forall k, P (TInt k)) (Hfloat : P TFloat)
  (Hdouble : P TDouble) (Hstring : P TString) (Hbytes : P TBytes) (Htime : P TTime) (Hdate : P TDate)
  (Henumi : forall k, P (TEnumInt k)) (Henums : forall n, P (TEnumStr n))
  (Hvector : forall t, P t -> P (TVector t)) (Harray : forall n t, P t -> P (TArray n t))
  (Hset : forall t, P t -> P (TSet t)) (Hmap : forall o t, P t -> P (TMap o t))
  (Hpair : forall a b, P a -> P b -> P (TPair a b))
  (Htuple : forall ts, Forall P ts -> P (TTuple ts))
  (Hvariant : forall ts, Forall P ts -> P (TVariant ts))
  (Hclass : forall c, P (TClass c)) (Hunique : forall t, P t -> P (TUnique t))
  (Hshared : forall t, P t -> P (TShared t)) (Hptr : forall t, P t -> P (TPtr t)).

Fixpoint ty_ind' (t : ty) : P t :=
  let all := fix all (ts : list ty) : Forall P ts :=
    match ts with [] => Forall_nil P | u :: us => Forall_cons u (ty_ind' u) (all us) end in
  match t with
  | TNull => Hnull | TBool => Hbool | TInt k => Hint k | TFloat => Hfloat | TDouble => Hdouble
  | TString => Hstring | TBytes => Hbytes | TTime => Htime | TDate => Hdate
  | TEnumInt k => Henumi k | TEnumStr n => Henums n
  | TVector u => Hvector u (ty_ind' u) | TArray n u => Harray n u (ty_ind' u)
  | TSet u => Hset u (ty_ind' u) | TMap o u => Hmap o u (ty_ind' u)
  | TPair a b => Hpair a b (ty_ind' a) (ty_ind' b)
  | TTuple ts => Htuple ts (all ts) | TVariant ts => Hvariant ts (all ts)
  | TClass c => Hclass c | TUnique u => Hunique u (ty_ind' u)
  | TShared u => Hshared u (ty_ind' u) | TPtr u => Hptr u (ty_ind' u)
  end.
End TyInd.

(** Values. [VIndet] is the indeterminate value of an uninitialised scalar. Enumerations are
    [VInt]; a time point is a number of clock ticks; a year_month_day is the day number of a
    valid date. Vectors, arrays, sets (in order), pairs and tuples are [VList]. Maps are the
    list of entries in increasing order of the keys; an unordered map is kept in the same
    form and its order of iteration is given by the environment. The members of a class are
    [VObj] in the order in which the persist function visits them, base class first; a
    std::optional member is [VNone] or [VSome]. A shared pointer carries the address of its
    object, which identifies it; for graphs with cycles see HeapModel.v. *)
Inductive val : Type :=
| VIndet
| VNull
| VBool (b : bool)
| VInt (z : Z)
| VFlt (f : fl)
| VStr (s : string)
| VBytes (b : list byte)
| VTime (ticks : Z)
| VDate (days : Z)
| VList (l : list val)
| VMap (l : list (string * val))
| VVariant (i : nat) (v : val)
| VObj (l : list val)
| VNone
| VSome (v : val)
| VPtrNull
| VPtr (v : val)
| VShared (a : nat) (v : val).

Section ValInd.
Variable P : val -> Prop.
Hypotheses (Hindet : P VIndet) (Hnull : P VNull) (Hbool : forall b, P (VBool b))
  (Hint : forall z, P (VInt z)) (Hflt : forall f, P (VFlt f)) (Hstr : forall s, P (VStr s))
  (Hbytes : forall b, P (VBytes b)) (Htime : forall z, P (VTime z)) (Hdate : forall z, P (VDate z))
  (Hlist : forall l, Forall P l -> P (VList l))
  (Hmap : forall l, Forall (fun p => P (snd p)) l -> P (VMap l))
  (Hvariant : forall i v, P v -> P (VVariant i v))
  (Hobj : forall l, Forall P l -> P (VObj l))
  (Hnone : P VNone) (Hsome : forall v, P v -> P (VSome v))
  (Hptrnull : P VPtrNull) (Hptr : forall v, P v -> P (VPtr v))
  (Hshared : forall a v, P v -> P (VShared a v)).

Fixpoint val_ind' (v : val) : P v :=
  let all := fix all (l : list val) : Forall P l :=
    match l with [] => Forall_nil P | x :: l' => Forall_cons x (val_ind' x) (all l') end in
  match v with
  | VIndet => Hindet | VNull => Hnull | VBool b => Hbool b | VInt z => Hint z | VFlt f => Hflt f
  | VStr s => Hstr s | VBytes b => Hbytes b | VTime z => Htime z | VDate z => Hdate z
  | VList l => Hlist l (all l)
  | VMap l => Hmap l ((fix all2 (l : list (string * val)) : Forall (fun p => P (snd p)) l :=
      match l with [] => Forall_nil _ | x :: l' => Forall_cons x (val_ind' (snd x)) (all2 l') end) l)
  | VVariant i x => Hvariant i x (val_ind' x)
  | VObj l => Hobj l (all l)
  | VNone => Hnone | VSome x => Hsome x (val_ind' x)
  | VPtrNull => Hptrnull | VPtr x => Hptr x (val_ind' x)
  | VShared a x => Hshared a x (val_ind' x)
  end.
End ValInd.

(** object_members.hpp: a member is required unless its type is std::optional, in which case
    [m_ty] is the type inside; variable_default is a member that may be missing. *)
Inductive mkind : Type := MRequired | MDefault | MOptional.

Record member : Type := { m_name : string; m_kind : mkind; m_ty : ty }.

(** A class. [c_root] is the number of members of the root-most base class (all members
    without inheritance): the persist functions of the library's users return the archive
    by value, so the members of derived classes are visited by a copy of the archive and the
    flag of the original is the one after the first [c_root] members. [c_default] is the
    content after default initialisation, [c_value] after value initialisation. *)
Record cls : Type := { c_members : list member; c_root : nat; c_default : list val; c_value : list val }.

(** What a program and its platform fix: the classes, the ticks per second of the system
    clock, byte order, the bytes readable after a buffer (see base64), operator< of the
    element types of sets, and the order of iteration of an unordered map with given keys, as
    positions in the sorted list of entries. *)
Record env : Type := {
  classes : list cls;
  tick : Z;
  endian : endianness;
  after : list byte -> list byte;
  less : ty -> val -> val -> bool;
  iteration : list string -> list nat
}.

Definition no_class : cls := {| c_members := []; c_root := 0; c_default := []; c_value := [] |}.
Definition class_of (e : env) (c : nat) : cls := nth c (classes e) no_class.

(** Value initialisation, [T()]: what make_unique, make_shared, emplace_back(),
    std::pair() and std::tuple() do to the objects they create. *)
Fixpoint vinit (e : env) (t : ty) : val :=
  match t with
  | TNull => VNull
  | TBool => VBool false
  | TInt _ | TEnumInt _ | TEnumStr _ => VInt 0
  | TFloat | TDouble => VFlt (FZero false)
  | TString => VStr EmptyString
  | TBytes => VBytes []
  | TTime => VTime 0
  | TDate => VIndet    (* year 0, month 0, day 0: not a date *)
  | TVector _ | TSet _ => VList []
  | TArray n u => VList (repeat (vinit e u) n)
  | TMap _ _ => VMap []
  | TPair a b => VList [vinit e a; vinit e b]
  | TTuple ts => VList (map (vinit e) ts)
  | TVariant ts => match ts with [] => VIndet | u :: _ => VVariant 0 (vinit e u) end
  | TClass c => VObj (c_value (class_of e c))
  | TUnique _ | TShared _ | TPtr _ => VPtrNull
  end.

(** Default initialisation, [T x;]. *)
Fixpoint dinit (e : env) (t : ty) : val :=
  match t with
  | TBool | TInt _ | TEnumInt _ | TEnumStr _ | TFloat | TDouble | TDate | TPtr _ => VIndet
  | TArray n u => VList (repeat (dinit e u) n)
  | TClass c => VObj (c_default (class_of e c))
  | _ => vinit e t
  end.

(** Equality of types. *)
Definition ity_eqb (a b : ity) : bool := Z.eqb (width a) (width b) && Bool.eqb (is_signed a) (is_signed b).

Fixpoint table_eqb (a b : enum_table) : bool :=
  match a, b with
  | [], [] => true
  | (x, s) :: a', (y, u) :: b' => Z.eqb x y && String.eqb s u && table_eqb a' b'
  | _, _ => false
  end.

Fixpoint ty_eqb (a b : ty) {struct a} : bool :=
  let eqbs := fix eqbs (l m : list ty) {struct l} : bool :=
    match l, m with
    | [], [] => true
    | x :: l', y :: m' => ty_eqb x y && eqbs l' m'
    | _, _ => false
    end in
  match a, b with
  | TNull, TNull | TBool, TBool | TFloat, TFloat | TDouble, TDouble | TString, TString
  | TBytes, TBytes | TTime, TTime | TDate, TDate => true
  | TInt k, TInt k' => ity_eqb k k'
  | TEnumInt k, TEnumInt k' => ity_eqb k k'
  | TEnumStr n, TEnumStr n' => table_eqb n n'
  | TVector t, TVector t' | TSet t, TSet t' | TUnique t, TUnique t' | TShared t, TShared t'
  | TPtr t, TPtr t' => ty_eqb t t'
  | TArray n t, TArray n' t' => Nat.eqb n n' && ty_eqb t t'
  | TMap o t, TMap o' t' => Bool.eqb o o' && ty_eqb t t'
  | TPair x y, TPair x' y' => ty_eqb x x' && ty_eqb y y'
  | TTuple ts, TTuple ts' => eqbs ts ts'
  | TVariant ts, TVariant ts' => eqbs ts ts'
  | TClass c, TClass c' => Nat.eqb c c'
  | _, _ => false
  end.

(** Order of std::string: by unsigned bytes. *)
Fixpoint str_ltb (a b : string) : bool :=
  match a, b with
  | EmptyString, String _ _ => true
  | String x a', String y b' =>
    let m := N_of_ascii x in let n := N_of_ascii y in
    (m <? n)%N || ((m =? n)%N && str_ltb a' b')
  | _, EmptyString => false
  end.

(** std::map: [m[key] = v]. *)
Fixpoint map_assign (l : list (string * val)) (key : string) (v : val) : list (string * val) :=
  match l with
  | [] => [(key, v)]
  | (k, w) :: l' =>
    if str_ltb key k then (key, v) :: l
    else if str_ltb k key then (k, w) :: map_assign l' key v
    else (k, v) :: l'
  end.

(** std::set::insert: an equivalent element stays. *)
Fixpoint set_insert (lt : val -> val -> bool) (l : list val) (x : val) : list val :=
  match l with
  | [] => [x]
  | y :: l' =>
    if lt x y then x :: l
    else if lt y x then y :: set_insert lt l' x
    else l
  end.
