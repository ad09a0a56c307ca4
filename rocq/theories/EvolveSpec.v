(** What becomes of a value of one program when another program, such as a later version of
    it, reads its document: written down on values and types, without the document except for
    texts. Variants, shared pointers and raw pointers are left out. *)
From Coq Require Import List Arith ZArith NArith Ascii String Bool.
From Verif Require Import Base Float NumericModel NumericSpec Json Types DenoteSpec RoundSpec DocSpec MergeSpec.
Import ListNotations.
Local Open Scope Z_scope.

Definition integer_type (t : ty) : option ity := match t with TInt k | TEnumInt k => Some k | _ => None end.
Definition float_type (t : ty) : option format := match t with TFloat => Some binary32 | TDouble => Some binary64 | _ => None end.

(** Values with elements, and the types of the elements. A vector of pairs with a string is
    not one of them (C17). *)
Inductive sequence (l : list val) : ty -> list ty -> Prop :=
| seq_vector : forall u, string_pair u = false -> sequence l (TVector u) (repeat u (List.length l))
| seq_array : forall u, sequence l (TArray (List.length l) u) (repeat u (List.length l))
| seq_set : forall u, sequence l (TSet u) (repeat u (List.length l))
| seq_pair : forall a b, sequence l (TPair a b) [a; b]
| seq_tuple : forall ts, sequence l (TTuple ts) ts.

(** A name, and the value that goes by it. *)
Definition field : Type := (string * (ty * val))%type.

(** The members of an object that have a value. *)
Fixpoint member_fields (ms : list member) (vs : list val) : list field :=
  match ms, vs with
  | m :: ms', v :: vs' =>
    match m_kind m, v with
    | MOptional, VSome x => (m_name m, (m_ty m, x)) :: member_fields ms' vs'
    | MOptional, _ => member_fields ms' vs'
    | _, _ => (m_name m, (m_ty m, v)) :: member_fields ms' vs'
    end
  | _, _ => []
  end.

(** Values with fields. *)
Inductive fields (e : env) : ty -> val -> list field -> Prop :=
| fields_map : forall o u l, fields e (TMap o u) (VMap l) (map (fun p => (fst p, (u, snd p))) l)
| fields_class : forall c vs, fields e (TClass c) (VObj vs) (member_fields (c_members (class_of e c)) vs).

Fixpoint field_of (fs : list field) (name : string) : option (ty * val) :=
  match fs with
  | [] => None
  | (n, x) :: fs' => if String.eqb n name then Some x else field_of fs' name
  end.

Section Parts.
Variable R : ty -> val -> ty -> val -> val -> Prop.
Variable e' : env.

Inductive items_become : list ty -> list val -> list ty -> list val -> list val -> Prop :=
| ib_nil : forall olds, items_become [] [] [] olds []
| ib_cons : forall t ts x xs t' ts' olds y ys, R t x t' (hd VIndet olds) y ->
    items_become ts xs ts' (tl olds) ys -> items_become (t :: ts) (x :: xs) (t' :: ts') olds (y :: ys).

(** A member of a class of the other program, whose content was [old]. *)
Inductive member_becomes (fs : list field) (m : member) (old : val) : val -> Prop :=
| mb_plain : forall t x y, m_kind m <> MOptional -> field_of fs (m_name m) = Some (t, x) -> R t x (m_ty m) old y ->
    member_becomes fs m old y
| mb_default : m_kind m = MDefault -> field_of fs (m_name m) = None -> member_becomes fs m old old
| mb_some : forall t x y, m_kind m = MOptional -> field_of fs (m_name m) = Some (t, x) ->
    R t x (m_ty m) (dinit e' (m_ty m)) y -> member_becomes fs m old (VSome y)
| mb_none : m_kind m = MOptional -> field_of fs (m_name m) = None -> member_becomes fs m old VNone.

Inductive members_become (fs : list field) : list member -> list val -> list val -> Prop :=
| ms_nil : forall olds, members_become fs [] olds []
| ms_cons : forall m ms olds v vs, member_becomes fs m (hd VIndet olds) v ->
    members_become fs ms (tl olds) vs -> members_become fs (m :: ms) olds (v :: vs).
End Parts.

(** Value [v] of type [t] in program [e] becomes [v'] of type [t'] in program [e'], if it is
    read into an object that holds [old]. *)
Inductive becomes (e e' : env) : ty -> val -> ty -> val -> val -> Prop :=
| becomes_null : forall old, becomes e e' TNull VNull TNull old VNull
| becomes_bool : forall old b, becomes e e' TBool (VBool b) TBool old (VBool b)
(* the number must fit *)
| becomes_int : forall t k t' k' old z, integer_type t = Some k -> integer_type t' = Some k' -> in_range k' z ->
    becomes e e' t (VInt z) t' old (VInt z)
(* integers are rounded to double first *)
| becomes_int_double : forall t k old z, integer_type t = Some k ->
    becomes e e' t (VInt z) TDouble old (VFlt (Float.round binary64 (fl_of_Z z)))
| becomes_int_float : forall t k old z, integer_type t = Some k ->
    becomes e e' t (VInt z) TFloat old (VFlt (Float.round binary32 (Float.round binary64 (fl_of_Z z))))
| becomes_float : forall t fm t' fm' old f, float_type t = Some fm -> float_type t' = Some fm' ->
    becomes e e' t (VFlt f) t' old (VFlt (Float.round fm' f))
(* strings, bytes, times, dates and names: what the text means *)
| becomes_text : forall t v t' old s v', scalar_type t = true -> scalar_type t' = true -> doc e t v (JStr s) ->
    denotes e' t' old (JStr s) v' -> becomes e e' t v t' old v'
| becomes_vector : forall t l ts u old l', sequence l t ts ->
    items_become (becomes e e') ts l (repeat u (List.length l)) (repeat (dinit e' u) (List.length l)) l' ->
    becomes e e' t (VList l) (TVector u) old (VList l')
| becomes_array : forall t l ts u old l', sequence l t ts ->
    items_become (becomes e e') ts l (repeat u (List.length l)) (repeat (dinit e' u) (List.length l)) l' ->
    becomes e e' t (VList l) (TArray (List.length l) u) old (VList l')
| becomes_set : forall t l ts u old l', sequence l t ts ->
    items_become (becomes e e') ts l (repeat u (List.length l)) (repeat (dinit e' u) (List.length l)) l' ->
    becomes e e' t (VList l) (TSet u) old (VList (fold_left (set_insert (less e' u)) l' []))
| becomes_pair : forall t l ts a b old l', sequence l t ts -> items_become (becomes e e') ts l [a; b] (components old) l' ->
    becomes e e' t (VList l) (TPair a b) old (VList l')
| becomes_tuple : forall t l ts ts' old l', sequence l t ts -> items_become (becomes e e') ts l ts' (components old) l' ->
    becomes e e' t (VList l) (TTuple ts') old (VList l')
(* fields of the same name one after the other; names end at a NUL *)
| becomes_map : forall t v fs o u old ps, fields e t v fs ->
    Forall2 (fun f q => fst q = until_nul (fst f) /\ becomes e e' (fst (snd f)) (snd (snd f)) u (dinit e' u) (snd q)) fs ps ->
    becomes e e' t v (TMap o u) old (VMap (fold_left (fun m p => map_assign m (fst p) (snd p)) ps []))
(* fields without a member are lost *)
| becomes_class : forall t v fs c old vs, fields e t v fs ->
    members_become (becomes e e') e' fs (c_members (class_of e' c)) (components old) vs ->
    becomes e e' t v (TClass c) old (VObj vs)
(* a pointer is written as what it points to *)
| becomes_from : forall t x t' old v', becomes e e' t x t' old v' -> becomes e e' (TUnique t) (VPtr x) t' old v'
| becomes_to : forall t v t' old v', becomes e e' t v t' (vinit e' t') v' -> becomes e e' t v (TUnique t') old (VPtr v').

(** Changes of a type after which what was written can still be read. *)
Inductive wider : ty -> ty -> Prop :=
| wider_null : wider TNull TNull
| wider_bool : wider TBool TBool
| wider_int : forall t k t' k', integer_type t = Some k -> integer_type t' = Some k' ->
    (forall z, in_range k z -> in_range k' z) -> wider t t'
| wider_int_float : forall t k t' fm, integer_type t = Some k -> float_type t' = Some fm -> wider t t'
| wider_float : forall t fm t' fm', float_type t = Some fm -> float_type t' = Some fm' -> wider t t'
| wider_text : forall t, In t [TString; TBytes; TTime; TDate] -> wider t t
| wider_string : forall t, In t [TString; TBytes; TTime; TDate] -> wider t TString
| wider_enum : forall names names', incl (map snd names) (map snd names') -> wider (TEnumStr names) (TEnumStr names')
| wider_enum_string : forall names, wider (TEnumStr names) TString
| wider_vector : forall t u u', In t [TVector u; TSet u] -> wider u u' -> wider t (TVector u')
| wider_set : forall t u u', In t [TVector u; TSet u] -> wider u u' -> wider t (TSet u')
| wider_array : forall n u t' u', In t' [TVector u'; TSet u'; TArray n u'] -> wider u u' -> wider (TArray n u) t'
| wider_pair : forall a b t' a' b', In t' [TPair a' b'; TTuple [a'; b']] -> wider a a' -> wider b b' -> wider (TPair a b) t'
| wider_tuple : forall ts ts', Forall2 wider ts ts' -> wider (TTuple ts) (TTuple ts')
| wider_map : forall o o' u u', wider u u' -> wider (TMap o u) (TMap o' u')
| wider_class : forall c, wider (TClass c) (TClass c)
| wider_from : forall t t', wider t t' -> wider (TUnique t) t'
| wider_to : forall t t', wider t t' -> wider t (TUnique t').

(** Compatible changes of a program: the classes may get members that are not required and
    lose members, members change their places, their kinds and types, but an optional member
    does not become a required one. *)
Definition compatible_member (ms : list member) (m' : member) : Prop :=
  match find (fun m => String.eqb (m_name m) (m_name m')) ms with
  | Some m => wider (m_ty m) (m_ty m') /\ (m_kind m = MOptional -> m_kind m' <> MRequired)
  | None => m_kind m' <> MRequired
  end.

Definition compatible (e e' : env) : Prop :=
  tick e = tick e' /\ forall c, Forall (compatible_member (c_members (class_of e c))) (c_members (class_of e' c)).
