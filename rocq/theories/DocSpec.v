(** The JSON document of a value: the format that the library writes. Variants, shared
    pointers and raw pointers are left out. *)
From Coq Require Import List Arith ZArith NArith Ascii String Bool Permutation.
From Verif Require Import Base Float Base64Spec DatetimeSpec EnumModel Json Types RoundSpec.
Import ListNotations.
Local Open Scope Z_scope.

Definition string_of (s : list ascii) : json := JStr (string_of_list_ascii s).

Section Parts.
Variable D : ty -> val -> json -> Prop.

Inductive parts_doc : list ty -> list val -> list json -> Prop :=
| pdoc_nil : parts_doc [] [] []
| pdoc_cons : forall t ts v vs j js, D t v j -> parts_doc ts vs js -> parts_doc (t :: ts) (v :: vs) (j :: js).

Inductive entries_doc (t : ty) : list (string * val) -> list (string * json) -> Prop :=
| edoc_nil : entries_doc t [] []
| edoc_cons : forall k v j l l', D t v j -> entries_doc t l l' -> entries_doc t ((k, v) :: l) ((k, j) :: l').

(** Members in the order of the class; optional members without a value are left out. *)
Inductive members_doc : list member -> list val -> list (string * json) -> Prop :=
| mdoc_nil : members_doc [] [] []
| mdoc_plain : forall m ms v vs j l, m_kind m <> MOptional -> D (m_ty m) v j -> members_doc ms vs l ->
    members_doc (m :: ms) (v :: vs) ((m_name m, j) :: l)
| mdoc_some : forall m ms v vs j l, m_kind m = MOptional -> D (m_ty m) v j -> members_doc ms vs l ->
    members_doc (m :: ms) (VSome v :: vs) ((m_name m, j) :: l)
| mdoc_none : forall m ms vs l, m_kind m = MOptional -> members_doc ms vs l -> members_doc (m :: ms) (VNone :: vs) l.
End Parts.

Inductive doc (e : env) : ty -> val -> json -> Prop :=
| doc_null : doc e TNull VNull JNull
| doc_bool : forall b, doc e TBool (VBool b) (JBool b)
| doc_int : forall k z, doc e (TInt k) (VInt z) (JInt z)
| doc_float : forall f, doc e TFloat (VFlt f) (JDbl f)
| doc_double : forall f, doc e TDouble (VFlt f) (JDbl f)
| doc_string : forall s, doc e TString (VStr s) (JStr s)
| doc_bytes : forall b, doc e TBytes (VBytes b) (string_of (rfc4648 b))
| doc_time : forall sec y m d hh mi ss, instant y m d hh mi ss sec -> year_ok y ->
    doc e TTime (VTime (sec * tick e)) (string_of (iso_text "T" y m d hh mi ss))
| doc_date : forall n y m d, cal y m d n -> year_ok y -> doc e TDate (VDate n) (string_of (date_text y m d))
| doc_enum_int : forall k z, doc e (TEnumInt k) (VInt z) (JInt z)
| doc_enum_str : forall names z s, In (z, s) names -> doc e (TEnumStr names) (VInt z) (JStr s)
| doc_vector : forall u l js, string_pair u = false -> Forall2 (doc e u) l js -> doc e (TVector u) (VList l) (JArr js)
| doc_array : forall u l js, Forall2 (doc e u) l js -> doc e (TArray (List.length l) u) (VList l) (JArr js)
| doc_set : forall u l js, Forall2 (doc e u) l js -> doc e (TSet u) (VList l) (JArr js)
| doc_map : forall (o : bool) u l l' ps, (if o then l = l' else Permutation l l') -> entries_doc (doc e) u l' ps ->
    doc e (TMap o u) (VMap l) (JObj ps)
| doc_pair : forall a b l js, parts_doc (doc e) [a; b] l js -> doc e (TPair a b) (VList l) (JArr js)
| doc_tuple : forall ts l js, parts_doc (doc e) ts l js -> doc e (TTuple ts) (VList l) (JArr js)
| doc_class : forall c l ps, members_doc (doc e) (c_members (class_of e c)) l ps -> doc e (TClass c) (VObj l) (JObj ps)
| doc_unique : forall u x j, doc e u x j -> doc e (TUnique u) (VPtr x) j.
