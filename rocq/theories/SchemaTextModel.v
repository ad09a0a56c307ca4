(** Model of schema.hpp and schema_utility.hpp: schemas as C++ objects, which the library writes
    like any other objects. *)
From Coq Require Import List Arith ZArith NArith Ascii String Bool.
From Verif Require Import Base NumericModel Base64Model Json Types Events WriteModel SchemaModel.
Import ListNotations.
Local Open Scope string_scope.

(** The members of a class in the order of its persist function; the default values are not used. *)
Definition required (name : string) (t : ty) : member := {| m_name := name; m_kind := MRequired; m_ty := t |}.
Definition optional (name : string) (t : ty) : member := {| m_name := name; m_kind := MOptional; m_ty := t |}.
Definition root_class (ms : list member) : cls := {| c_members := ms; c_root := List.length ms; c_default := []; c_value := [] |}.

(** The integer types long long, unsigned long long and std::size_t. *)
Definition long_long : ity := {| width := 64; is_signed := true |}.
Definition unsigned_long_long : ity := {| width := 64; is_signed := false |}.

(** schema.hpp:22-31: JsonSchemaType, whose alternatives are the classes 0 to 7. *)
Definition schema_node : ty := TVariant (map TClass (seq 0 8)).

(** schema.hpp:199: JsonSchemaObjectProperties *)
Definition node_dict : ty := TVector (TPair TString (TUnique schema_node)).

(** schema.hpp:33-48: JsonSchemaReferenceType *)
Definition reference_members : list member := [required "$ref" TString].

(** schema.hpp:72-108: JsonSchemaFundamentalType *)
Definition fundamental_members : list member := [required "type" TString; optional "format" TString; optional "contentEncoding" TString].

(** schema.hpp:110-130 and 132-151: JsonSchemaSignedIntegerType, JsonSchemaUnsignedIntegerType *)
Definition signed_members : list member := [required "type" TString; required "minimum" (TInt long_long); required "maximum" (TInt long_long)].
Definition unsigned_members : list member := [required "type" TString; required "minimum" (TInt unsigned_long_long); required "maximum" (TInt unsigned_long_long)].

(** schema.hpp:153-174: JsonSchemaEnumType *)
Definition enum_members : list member :=
  [required "type" TString; required "enum" (TVariant [TVector (TInt long_long); TVector (TInt unsigned_long_long); TVector TString])].

(** schema.hpp:176-197: JsonSchemaArrayType *)
Definition array_members : list member :=
  [required "type" TString; optional "items" (TUnique schema_node); optional "prefixItems" (TVector (TUnique schema_node));
   optional "uniqueItems" TBool; optional "minItems" (TInt unsigned_long_long); optional "maxItems" (TInt unsigned_long_long)].

(** schema.hpp:202-219: JsonSchemaObjectType *)
Definition object_members : list member :=
  [required "type" TString; optional "properties" node_dict; optional "required" (TVector TString);
   optional "additionalProperties" (TVariant [TBool; TUnique schema_node])].

(** schema.hpp:221-232: JsonSchemaOneOfType *)
Definition one_of_members : list member := [required "oneOf" (TVector (TUnique schema_node))].

Definition node_members : list (list member) :=
  [reference_members; fundamental_members; signed_members; unsigned_members; enum_members; array_members; object_members; one_of_members].

(** schema.hpp:583-618: JsonSchemaDocument<Base>, the class 8 + i for the class i as Base. Its
    persist function visits its own two members with the archive, and those of Base with a copy. *)
Definition document_class (base : list member) : cls :=
  {| c_members := optional "$schema" TString :: optional "definitions" (TMap true schema_node) :: base; c_root := 2; c_default := []; c_value := [] |}.

(** The rest of the environment does not matter. *)
Definition schema_env : env := {|
  classes := map root_class node_members ++ map document_class node_members;
  tick := 1000000000; endian := little; after := fun _ => []; less := fun _ _ _ => false; iteration := fun keys => seq 0 (List.length keys) |}.

(** The index of the alternative of JsonSchemaType. *)
Definition kind (s : jschema) : nat :=
  match s with
  | SRef _ => 0 | SFund _ _ _ => 1 | SSigned _ _ => 2 | SUnsigned _ => 3 | SEnum _ => 4 | SArray _ _ _ _ _ => 5 | SObject _ _ _ => 6 | SOneOf _ => 7
  end.

Definition maybe {A} (f : A -> val) (o : option A) : val := match o with Some a => VSome (f a) | None => VNone end.

Definition size_value (n : nat) : val := VInt (Z.of_nat n).

(** The member variables of the object of a schema. The values of an enumeration are those of the
    first alternative, an empty vector (schema.hpp:159-164). *)
Fixpoint variables (s : jschema) : list val :=
  let node s := VVariant (kind s) (VObj (variables s)) in
  match s with
  | SRef name => [VStr ("#/definitions/" ++ name)]
  | SFund type format encoding => [VStr type; maybe VStr format; maybe VStr encoding]
  | SSigned minimum maximum => [VStr "integer"; VInt minimum; VInt maximum]
  | SUnsigned maximum => [VStr "integer"; VInt 0; VInt maximum]
  | SEnum type => [VStr type; VVariant 0 (VList [])]
  | SArray items prefix unique min max =>
    [VStr "array"; maybe (fun s => VPtr (node s)) items; maybe (fun l => VList (map (fun s => VPtr (node s)) l)) prefix;
     maybe VBool unique; maybe size_value min; maybe size_value max]
  | SObject properties required additional =>
    [VStr "object"; maybe (fun l => VList (map (fun p => VList [VStr (fst p); VPtr (node (snd p))]) l)) properties;
     maybe (fun l => VList (map VStr l)) required;
     maybe (fun a => match a with inl b => VVariant 0 (VBool b) | inr s => VVariant 1 (VPtr (node s)) end) additional]
  | SOneOf alternatives => [VList (map (fun s => VPtr (node s)) alternatives)]
  end.

Definition schema_node_value (s : jschema) : val := VVariant (kind s) (VObj (variables s)).

(** schema.hpp:620-656: the object that schema<T>() returns: definitions are given only if there
    are some; and 659-665: schema_document<T>() adds the version. *)
Definition schema_type (s : jschema) : ty := TClass (8 + kind s).

Definition schema_object (version : option string) (s : jschema) (d : definitions) : val :=
  VObj (maybe VStr version :: match d with [] => VNone | _ => VSome (VMap (map (fun p => (fst p, schema_node_value (snd p))) d)) end :: variables s).

(** schema_utility.hpp:14-24. The outcome is that of write_to_string: [None] is undefined
    behaviour, false an exception. *)
Definition schema_text (version : option string) (render : list event -> string) (e : env) (tn : nat -> string) (fuel : nat) (t : ty)
  : gres (option (bool * string)) :=
  gbind (gen e tn fuel true t []) (fun s d =>
    GOk (write_to_string render schema_env (schema_type s) (schema_object version s d) "") d).

Definition schema_to_string := schema_text None.
Definition schema_document_to_string := schema_text (Some schema_version).
