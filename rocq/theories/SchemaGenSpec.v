(** Which types have a schema, and where the parts of a schema document are. *)
From Coq Require Import List Arith ZArith Ascii String Bool Relations.
From Verif Require Import Base Json Types.
Import ListNotations.
Local Open Scope string_scope.

(** * Types *)

(** The types that a type is made of. *)
Definition inner (e : env) (t : ty) : list ty :=
  match t with
  | TVector u | TArray _ u | TSet u | TMap _ u | TUnique u | TShared u | TPtr u => [u]
  | TPair a b => [a; b]
  | TTuple ts | TVariant ts => ts
  | TClass c => map m_ty (c_members (class_of e c))
  | _ => []
  end.

Definition within (e : env) (u t : ty) : Prop := In u (inner e t).

(** Types with parts. *)
Definition compound (t : ty) : Prop :=
  match t with
  | TNull | TBool | TInt _ | TFloat | TDouble | TString | TBytes | TTime | TDate | TEnumInt _ | TEnumStr _ | TPtr _ => False
  | _ => True
  end.

(** What the templates for schemas are made for: no raw pointers, no pointers to simple types,
    no members with a default. *)
Definition supported (e : env) (t : ty) : Prop :=
  match t with
  | TPtr _ => False
  | TUnique u | TShared u => compound u
  | TClass c => forall m, In m (c_members (class_of e c)) -> m_kind m <> MDefault
  | _ => True
  end.

(** Supported all the way down, and there is a way down. *)
Inductive describable (e : env) (t : ty) : Prop :=
| describable_all : supported e t -> (forall u, within e u t -> describable e u) -> describable e t.

(** [u] is [t] or somewhere in it; [u] is somewhere in [t]. *)
Definition reachable (e : env) : ty -> ty -> Prop := clos_refl_trans ty (within e).
Definition deep_within (e : env) : ty -> ty -> Prop := clos_trans ty (within e).

(** * Schema documents *)

(** A schema and the schemas in it: the arguments of the keywords that hold schemas. *)
Inductive subschema (s : json) : json -> Prop :=
| sub_itself : subschema s s
| sub_keyword : forall kws k x, In (k, x) kws -> In k ["items"; "additionalProperties"] -> subschema s x -> subschema s (JObj kws)
| sub_list : forall kws k l x, In (k, JArr l) kws -> In k ["prefixItems"; "oneOf"] -> In x l -> subschema s x -> subschema s (JObj kws)
| sub_member : forall kws k l n x, In (k, JObj l) kws -> In k ["properties"; "definitions"] -> In (n, x) l -> subschema s x -> subschema s (JObj kws).

(** Somewhere in the document there is a reference with this text. *)
Definition refers (schema : json) (ref : string) : Prop :=
  exists kws, subschema (JObj kws) schema /\ In ("$ref", JStr ref) kws.

(** The named definitions of a document. *)
Definition defines (schema : json) (name : string) (s : json) : Prop :=
  exists kws l, schema = JObj kws /\ In ("definitions", JObj l) kws /\ In (name, s) l.
