(** What can be wrong with a document, and where: written down without reference to the
    order of the deserializer's steps. *)
From Coq Require Import List Arith ZArith NArith Ascii String Bool.
From Verif Require Import Base NumericModel NumericSpec EnumModel Json PathSpec Types DenoteSpec SameSpec DeserializeModel.
Import ListNotations.

(** The integer types in which RapidJSON hands out numbers: 32 or 64 bits. *)
Definition carrier (k : ity) : ity := {| width := if Z.eqb (width k) 64 then 64 else 32; is_signed := is_signed k |}.

(** The kind of document value that a type asks for. *)
Definition right_kind (t : ty) (j : json) : Prop :=
  match t, j with
  | TNull, JNull | TBool, JBool _ => True
  | TInt k, JInt z | TEnumInt k, JInt z => in_range (carrier k) z
  | TFloat, JInt _ | TFloat, JDbl _ | TDouble, JInt _ | TDouble, JDbl _ => True
  | TString, JStr _ | TBytes, JStr _ | TTime, JStr _ | TDate, JStr _ | TEnumStr _, JStr _ => True
  | TVector _, JArr _ | TArray _ _, JArr _ | TSet _, JArr _ | TPair _ _, JArr _ | TTuple _, JArr _ => True
  | TMap _ _, JObj _ | TClass _, JObj _ => True
  | TVariant _, _ | TUnique _, _ | TShared _, _ | TPtr _, _ => True
  | _, _ => False
  end.

(** What that kind is called. *)
Definition kind_called (t : ty) : string :=
  match t with
  | TNull => "null"
  | TBool => "boolean"
  | TInt k | TEnumInt k =>
    match is_signed k, Z.eqb (width k) 64 with
    | true, false => "integer"
    | false, false => "unsigned integer"
    | true, true => "64-bit integer"
    | false, true => "unsigned 64-bit integer"
    end
  | TFloat | TDouble => "number"
  | TString | TBytes | TTime | TDate | TEnumStr _ => "string"
  | TVector _ | TArray _ _ | TSet _ | TPair _ _ | TTuple _ => "array"
  | TMap _ _ | TClass _ => "object"
  | TVariant _ | TUnique _ | TShared _ | TPtr _ => ""
  end.

(** What is wrong with a document value by itself, whatever its parts are. *)
Inductive wrong (e : env) : ty -> json -> derror -> Prop :=
| wrong_kind : forall t j, ~ right_kind t j -> wrong e t j (WrongType (kind_called t))
| wrong_int : forall k z, in_range (carrier k) z -> ~ in_range k z -> wrong e (TInt k) (JInt z) (OutOfRange (is_signed k))
| wrong_enum_int : forall k z, in_range (carrier k) z -> ~ in_range k z -> wrong e (TEnumInt k) (JInt z) (OutOfRange (is_signed k))
| wrong_bytes : forall s, (forall old v, ~ denotes e TBytes old (JStr s) v) -> wrong e TBytes (JStr s) BadBase64
| wrong_time : forall s, (forall old v, ~ denotes e TTime old (JStr s) v) -> wrong e TTime (JStr s) (BadTime s)
| wrong_date : forall s, (forall old v, ~ denotes e TDate old (JStr s) v) -> wrong e TDate (JStr s) (BadDate s)
| wrong_name : forall names s, (forall old v, ~ denotes e (TEnumStr names) old (JStr s) v) -> wrong e (TEnumStr names) (JStr s) (UnknownName s)
| wrong_length : forall n u js, List.length js <> n -> wrong e (TArray n u) (JArr js) (WrongSize n (List.length js))
| wrong_pair : forall a b js, List.length js <> 2 -> wrong e (TPair a b) (JArr js) (WrongSize 2 (List.length js))
| wrong_tuple : forall ts js, List.length js <> List.length ts -> wrong e (TTuple ts) (JArr js) (WrongSize (List.length ts) (List.length js))
| wrong_variant : forall ts j, (forall u v, In u ts -> ~ denotes e u (dinit e u) j v) -> wrong e (TVariant ts) j NoAlternative.

Definition element_type (t : ty) : option ty :=
  match t with TVector u | TArray _ u | TSet u => Some u | _ => None end.

Definition component_types (t : ty) : option (list ty) :=
  match t with TPair a b => Some [a; b] | TTuple ts => Some ts | _ => None end.

(** [defect e t j pos ss u r why]: in the document [j] of an object of type [t], the steps
    [ss] lead to the value [r], where a value of type [u] is expected, and [why] is wrong
    with it. [pos] is the position of the defect: the index of the element, of the entry of a
    map or of the member in the declaration of the class, for each level. *)
Inductive defect (e : env) : ty -> json -> list nat -> list step -> ty -> json -> derror -> Prop :=
| defect_here : forall t j why, wrong e t j why -> defect e t j [] [] t j why
| defect_missing : forall c l k m, nth_error (c_members (class_of e c)) k = Some m -> m_kind m = MRequired ->
    find_member l (m_name m) = None ->
    defect e (TClass c) (JObj l) [k] [] (TClass c) (JObj l) (MissingProperty (m_name m))
| defect_element : forall t t' js k j pos ss u r why, element_type t = Some t' -> nth_error js k = Some j ->
    defect e t' j pos ss u r why -> defect e t (JArr js) (k :: pos) (Element k :: ss) u r why
| defect_component : forall t ts t' js k j pos ss u r why, component_types t = Some ts -> nth_error ts k = Some t' -> nth_error js k = Some j ->
    defect e t' j pos ss u r why -> defect e t (JArr js) (k :: pos) (Element k :: ss) u r why
| defect_entry : forall ordered t l k n j pos ss u r why, nth_error l k = Some (n, j) ->
    defect e t j pos ss u r why -> defect e (TMap ordered t) (JObj l) (k :: pos) (Member (until_nul n) :: ss) u r why
| defect_member : forall c l k m j pos ss u r why, nth_error (c_members (class_of e c)) k = Some m -> find_member l (m_name m) = Some j ->
    defect e (m_ty m) j pos ss u r why -> defect e (TClass c) (JObj l) (k :: pos) (Member (until_nul (m_name m)) :: ss) u r why
| defect_unique : forall t j pos ss u r why, defect e t j pos ss u r why -> defect e (TUnique t) j pos ss u r why
| defect_shared : forall t j pos ss u r why, defect e t j pos ss u r why -> defect e (TShared t) j pos ss u r why.

(** Positions in the order of traversal: what is wrong with a value comes before what is wrong
    with its parts. *)
Inductive before : list nat -> list nat -> Prop :=
| before_part : forall k p, before [] (k :: p)
| before_head : forall k k' p p', k < k' -> before (k :: p) (k' :: p')
| before_tail : forall k p p', before p p' -> before (k :: p) (k :: p').

(** The first defect. *)
Definition culprit (e : env) (t : ty) (j : json) (ss : list step) (u : ty) (r : json) (why : derror) : Prop :=
  exists pos, defect e t j pos ss u r why /\
    forall pos' ss' u' r' why', defect e t j pos' ss' u' r' why' -> pos' = pos \/ before pos pos'.

(** Variants have alternatives without classes, variants and pointers; no raw pointers. *)
Fixpoint simple_variants (t : ty) : bool :=
  match t with
  | TVector u | TArray _ u | TSet u | TMap _ u | TUnique u | TShared u => simple_variants u
  | TPair a b => simple_variants a && simple_variants b
  | TTuple ts => forallb simple_variants ts
  | TVariant ts => forallb (fun u => plain u && classless u) ts
  | TPtr _ => false
  | _ => true
  end.

Definition simple_variant_classes (e : env) : Prop :=
  forall c, forallb (fun m => simple_variants (m_ty m)) (c_members (class_of e c)) = true.

(** No object has a member "$ref". *)
Fixpoint no_refs (j : json) : bool :=
  match j with
  | JArr l => forallb no_refs l
  | JObj l => match find_member l "$ref" with Some _ => false | None => true end && forallb (fun p => no_refs (snd p)) l
  | _ => true
  end.

(** No references are followed: there are no shared pointers in the types, or no references in
    the document. *)
Definition unreferring (e : env) (t : ty) (j : json) : Prop := (unshared_classes e /\ unshared t = true) \/ no_refs j = true.

(** Every object has different names, none of them with a NUL. *)
Fixpoint clean (j : json) : Prop :=
  match j with
  | JArr l => (fix all (l : list json) : Prop := match l with [] => True | x :: l' => clean x /\ all l' end) l
  | JObj l => NoDup (map fst l) /\
    (fix all (l : list (string * json)) : Prop := match l with [] => True | (n, x) :: l' => until_nul n = n /\ clean x /\ all l' end) l
  | _ => True
  end.
