(** Model of schema.hpp: the JSON schema generated for a type. *)
From Coq Require Import List Arith ZArith NArith Ascii String Bool.
From Verif Require Import Base NumericModel EnumModel Json Types.
Import ListNotations.
Local Open Scope string_scope.

(** schema.hpp:13-232: JsonSchemaType, one constructor for each alternative of the variant.
    [SFund] is type, format and contentEncoding; [SArray] is items, prefixItems, uniqueItems,
    minItems and maxItems; [SObject] is properties, required and additionalProperties (true
    or false, or a schema). The values of an enumeration (153-174) are never filled in, so
    [SEnum] has the type only. *)
Inductive jschema : Type :=
| SRef (name : string)
| SFund (type : string) (format encoding : option string)
| SSigned (minimum maximum : Z)
| SUnsigned (maximum : Z)
| SEnum (type : string)
| SArray (items : option jschema) (prefix : option (list jschema)) (unique : option bool) (min max : option nat)
| SObject (properties : option (list (string * jschema))) (required : option (list string)) (additional : option (bool + jschema))
| SOneOf (alternatives : list jschema).

(** schema.hpp:234: std::map from names to schemas. *)
Definition definitions := list (string * jschema).

Fixpoint def_find (d : definitions) (name : string) : option jschema :=
  match d with
  | [] => None
  | (n, s) :: d' => if String.eqb n name then Some s else def_find d' name
  end.

(** std::map::insert: an existing entry stays. *)
Fixpoint def_insert (d : definitions) (name : string) (s : jschema) : definitions :=
  match d with
  | [] => [(name, s)]
  | (n, s') :: d' =>
    if str_ltb name n then (name, s) :: d
    else if str_ltb n name then (n, s') :: def_insert d' name s
    else d
  end.

(** Outcome of a generator: a schema and the definitions so far; the call depth exceeds the
    fuel; a template that does not compile. *)
Inductive gres (A : Type) : Type :=
| GOk (a : A) (d : definitions)
| GDeep
| GInvalid.
Arguments GOk {A} a d.
Arguments GDeep {A}.
Arguments GInvalid {A}.

Definition gbind {A B} (x : gres A) (f : A -> definitions -> gres B) : gres B :=
  match x with
  | GOk a d => f a d
  | GDeep => GDeep
  | GInvalid => GInvalid
  end.

(** schema.hpp:363-374: JsonSchema<T>::type takes a context. *)
Definition context_aware (t : ty) : bool :=
  match t with
  | TVector _ | TArray _ _ | TSet _ | TMap _ _ | TPair _ _ | TTuple _ | TVariant _ | TClass _ | TUnique _ | TShared _ => true
  | _ => false
  end.

(** One after the other, left to right. *)
Fixpoint gen_all (f : ty -> definitions -> gres jschema) (ts : list ty) (d : definitions) : gres (list jschema) :=
  match ts with
  | [] => GOk [] d
  | t :: ts' => gbind (f t d) (fun s d => gbind (gen_all f ts' d) (fun ss d => GOk (s :: ss) d))
  end.

(** schema.hpp:418-451: JsonSchemaVisitor; there is no overload for members with a default. *)
Fixpoint visit (f : ty -> definitions -> gres jschema) (ms : list member) (d : definitions)
  : gres (list (string * jschema) * list string) :=
  match ms with
  | [] => GOk ([], []) d
  | m :: ms' =>
    match m_kind m with
    | MDefault => GInvalid
    | k =>
      gbind (f (m_ty m) d) (fun s d => gbind (visit f ms' d) (fun r d =>
        GOk ((m_name m, s) :: fst r, match k with MOptional => snd r | _ => m_name m :: snd r end) d))
    end
  end.

(** The functions JsonSchema<T>::type, with [inline], and make_schema<T>, without: schema.hpp
    245-341 (types without parts), 388-410 (make_schema), 453-466 (class), 468-472 (raw
    pointer), 474-490 (smart pointers), 492-503 (array), 505-526 (pair and tuple), 528-539
    (variant), 541-550 (vector), 552-562 (set), 564-581 (maps). [tn] is typeid(T).name() of the
    classes. *)
Fixpoint gen (e : env) (tn : nat -> string) (fuel : nat) (inline : bool) (t : ty) (d : definitions) : gres jschema :=
  match fuel with
  | O => GDeep
  | S n =>
    let make := gen e tn n false in
    let array s unique size d := GOk (SArray (Some s) None unique size size) d in
    match t with
    | TNull => GOk (SFund "null" None None) d
    | TBool => GOk (SFund "boolean" None None) d
    | TInt k => GOk (if is_signed k then SSigned (tmin k) (tmax k) else SUnsigned (tmax k)) d
    | TFloat | TDouble => GOk (SFund "number" None None) d
    | TString => GOk (SFund "string" None None) d
    | TBytes => GOk (SFund "string" None (Some "base64")) d
    | TTime => GOk (SFund "string" (Some "date-time") None) d
    | TDate => GOk (SFund "string" (Some "date") None) d
    (* an enumeration is not an integral type *)
    | TEnumInt _ => GOk (SEnum "object") d
    | TEnumStr _ => GOk (SEnum "string") d
    | TVector u => gbind (make u d) (fun s d => array s None None d)
    | TSet u => gbind (make u d) (fun s d => array s (Some true) None d)
    | TArray size u => gbind (make u d) (fun s d => array s None (Some size) d)
    | TPair a b => gbind (gen_all make [a; b] d) (fun ss d => GOk (SArray None (Some ss) None (Some 2) (Some 2)) d)
    | TTuple ts => gbind (gen_all make ts d) (fun ss d => GOk (SArray None (Some ss) None (Some (List.length ts)) (Some (List.length ts))) d)
    | TVariant ts => gbind (gen_all make ts d) (fun ss d => GOk (SOneOf ss) d)
    | TMap _ u => gbind (make u d) (fun s d => GOk (SObject None None (Some (inr s))) d)
    | TClass c =>
      gbind (visit make (c_members (class_of e c)) d) (fun r d =>
        let s := SObject (Some (fst r)) (Some (snd r)) (Some (inl false)) in
        if inline then GOk s d else GOk (SRef (tn c)) (def_insert d (tn c) s))
    | TUnique u | TShared u => if context_aware u then gen e tn n true u d else GInvalid
    | TPtr _ => GInvalid
    end
  end.

(** The document of a schema: the persist functions of the structures, whose empty optional
    members are not written. *)
Definition opt {A} (name : string) (f : A -> json) (o : option A) : list (string * json) :=
  match o with Some a => [(name, f a)] | None => [] end.

Definition JNat (n : nat) : json := JInt (Z.of_nat n).

Fixpoint render (s : jschema) : json :=
  let members l := map (fun p => (fst p, render (snd p))) l in
  match s with
  | SRef name => JObj [("$ref", JStr ("#/definitions/" ++ name))]
  | SFund t fmt enc => JObj (("type", JStr t) :: opt "format" JStr fmt ++ opt "contentEncoding" JStr enc)
  | SSigned lo hi => JObj [("type", JStr "integer"); ("minimum", JInt lo); ("maximum", JInt hi)]
  | SUnsigned hi => JObj [("type", JStr "integer"); ("minimum", JInt 0); ("maximum", JInt hi)]
  | SEnum t => JObj [("type", JStr t); ("enum", JArr [])]
  | SArray items prefix unique lo hi =>
    JObj (("type", JStr "array") :: opt "items" render items ++ opt "prefixItems" (fun l => JArr (map render l)) prefix ++
          opt "uniqueItems" JBool unique ++ opt "minItems" JNat lo ++ opt "maxItems" JNat hi)
  | SObject props req additional =>
    JObj (("type", JStr "object") :: opt "properties" (fun l => JObj (members l)) props ++ opt "required" (fun l => JArr (map JStr l)) req ++
          opt "additionalProperties" (fun a => match a with inl b => JBool b | inr s => render s end) additional)
  | SOneOf l => JObj [("oneOf", JArr (map render l))]
  end.

(** schema.hpp:583-618 (the document), 620-656 (its builder), 659-665 (schema_document): the definitions come first, then the
    members of the schema of the type itself. The outcome is a document, or none. *)
Definition schema_version : string := "https://json-schema.org/draft/2020-12/schema".

Definition members_of (j : json) : list (string * json) := match j with JObj l => l | _ => [] end.

Definition schema_document (e : env) (tn : nat -> string) (fuel : nat) (t : ty) : gres json :=
  gbind (gen e tn fuel true t []) (fun s d =>
    GOk (JObj (("$schema", JStr schema_version) ::
         (match d with [] => [] | _ => [("definitions", JObj (map (fun p => (fst p, render (snd p))) d))] end) ++
         members_of (render s))) d).
