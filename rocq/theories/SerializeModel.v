(** Model of the serialize_*.hpp headers: from values to a JSON DOM document. *)
From Coq Require Import List Arith ZArith NArith Ascii String Bool.
From Verif Require Import Base Float Base64Model DatetimeModel EnumModel RefsModel Json PathModel Types.
Import ListNotations.

(** The paths under which shared objects have been written, by address
    (output_context.hpp:8-11). *)
Definition wtable := list (nat * list segment).

(** Outcome of a serializer: true with its product, false, or undefined behaviour (null
    pointer, indeterminate value, over-read, clock overflow, value not of the type). *)
Inductive sres (A : Type) : Type :=
| SOk (tab : wtable) (a : A)
| SFail (tab : wtable)
| SUndef.
Arguments SOk {A} tab a.
Arguments SFail {A} tab.
Arguments SUndef {A}.

Definition sbind {A B} (x : sres A) (f : wtable -> A -> sres B) : sres B :=
  match x with
  | SOk tab a => f tab a
  | SFail tab => SFail tab
  | SUndef => SUndef
  end.

Definition smap {A B} (f : A -> B) (x : sres A) : sres B := sbind x (fun tab a => SOk tab (f a)).

(** A serializer applied to its value, waiting for the context and the table. *)
Definition sfun (A : Type) := list segment -> wtable -> sres A.

Definition of_text (tab : wtable) (o : option (list ascii)) : sres json :=
  match o with
  | Some s => SOk tab (JStr (string_of_list_ascii s))
  | None => SUndef
  end.

(** The ticks of midnight: conversion from sys_days to the system clock. *)
Definition day_ticks (e : env) (days : Z) : Z := days * 86400 * tick e.

(** serialize_fundamental.hpp:9-118, serialize_string.hpp:33-42, serialize_bytes.hpp:15-24,
    serialize_datetime.hpp:9-19, serialize_date.hpp:16-21, serialize_enum.hpp:15-34: types
    whose values have no parts. Floating-point numbers are 121-135 of the first. *)
Definition ser_scalar (e : env) (t : ty) (v : val) (tab : wtable) : sres json :=
  match t, v with
  | TNull, VNull => SOk tab JNull
  | TBool, VBool b => SOk tab (JBool b)
  | TInt _, VInt z => SOk tab (JInt z)
  | TFloat, VFlt f | TDouble, VFlt f => if is_finite f then SOk tab (JDbl f) else SFail tab
  | TString, VStr s => SOk tab (JStr s)
  | TBytes, VBytes b => of_text tab (base64_encode (endian e) b (after e b))
  | TTime, VTime z => of_text tab (to_iso_datetime (tick e) z)
  | TDate, VDate d =>
    let z := day_ticks e d in
    if in_int64 z then of_text tab (to_iso_date (tick e) z) else SUndef
  | TEnumInt _, VInt z => SOk tab (JInt z)
  | TEnumStr names, VInt z => SOk tab (JStr (enum_to_string names z))
  | _, _ => SUndef
  end.

(** Loop over elements, the k-th in the context [at_ k]. *)
Fixpoint ser_seq {A} (at_ : N -> list segment) (k : N) (fs : list (sfun A)) (tab : wtable) : sres (list A) :=
  match fs with
  | [] => SOk tab []
  | f :: fs' =>
    sbind (f (at_ k) tab) (fun tab a => smap (cons a) (ser_seq at_ (k + 1) fs' tab))
  end.

(** serialize_map.hpp:16-31 *)
Fixpoint ser_entries {A} (ctx : list segment) (fs : list (string * sfun A)) (tab : wtable)
  : sres (list (string * A)) :=
  match fs with
  | [] => SOk tab []
  | (key, f) :: fs' =>
    sbind (f (name_segment (list_ascii_of_string key) :: ctx) tab)
          (fun tab a => smap (cons (key, a)) (ser_entries ctx fs' tab))
  end.

(** A member of an object, ready to be serialized. *)
Inductive mfun (A : Type) : Type :=
| MPlain (f : ty -> sfun A)
| MAbsent
| MPresent (f : ty -> sfun A).
Arguments MPlain {A} f.
Arguments MAbsent {A}.
Arguments MPresent {A} f.

(** serialize_object.hpp:20-43: what is to be written for a member; [Some None] is nothing. *)
Definition to_write {A} (m : member) (f : mfun A) : option (option (sfun A)) :=
  match m_kind m, f with
  | MOptional, MAbsent => Some None
  | MOptional, MPresent f => Some (Some (f (m_ty m)))
  | MRequired, MPlain f | MDefault, MPlain f => Some (Some (f (m_ty m)))
  | _, _ => None
  end.

(** serialize_object.hpp:56-72, once for each member; the flag is never cleared, and a member
    that fails is left out. *)
Fixpoint ser_members {A} (ctx : list segment) (ms : list member) (fs : list (mfun A)) (tab : wtable)
  : sres (list (string * A)) :=
  match ms, fs with
  | [], [] => SOk tab []
  | m :: ms', f :: fs' =>
    match to_write m f with
    | None => SUndef
    | Some None => ser_members ctx ms' fs' tab
    | Some (Some g) =>
      match g (name_segment (list_ascii_of_string (m_name m)) :: ctx) tab with
      | SUndef => SUndef
      | SFail tab => ser_members ctx ms' fs' tab
      | SOk tab a => smap (cons (m_name m, a)) (ser_members ctx ms' fs' tab)
      end
    end
  | _, _ => SUndef
  end.

(** serialize_pointer.hpp:41-51 *)
Definition ref_json (segments : list segment) : json :=
  JObj [("$ref"%string, JStr (string_of_list_ascii (path_str segments)))].

(** Elements of a std::vector<std::pair<std::string, T>>. *)
Definition keyed {A} (rec : val -> A) (v : val) : option (string * A) :=
  match v with
  | VList [VStr key; x] => Some (key, rec x)
  | _ => None
  end.

Fixpoint all_some {A} (l : list (option A)) : option (list A) :=
  match l with
  | [] => Some []
  | Some a :: l' => match all_some l' with Some r => Some (a :: r) | None => None end
  | None :: _ => None
  end.

Fixpoint apply_types {A} (fs : list (ty -> A)) (ts : list ty) : option (list A) :=
  match fs, ts with
  | [], [] => Some []
  | f :: fs', t :: ts' => match apply_types fs' ts' with Some r => Some (f t :: r) | None => None end
  | _, _ => None
  end.

Definition at_index (ctx : list segment) (k : N) : list segment := index_segment k :: ctx.

(** The specialisation for a pair with a string (dictionary.hpp, serialize_map.hpp:52-56) is
    taken for a vector of such pairs. *)
Definition dict_type (t : ty) : option ty :=
  match t with TPair TString u => Some u | _ => None end.

(** The entries of a map in the order in which they are visited. *)
Definition visited {A} (e : env) (ordered : bool) (l : list (string * A)) : option (list (string * A)) :=
  if ordered then Some l else all_some (map (nth_error l) (iteration e (map fst l))).

Definition mpart {A} (rec : val -> ty -> sfun A) (v : val) : mfun A :=
  match v with
  | VNone => MAbsent
  | VSome x => MPresent (rec x)
  | _ => MPlain (rec v)
  end.

(** The serializers of all types. *)
Fixpoint ser (e : env) (v : val) {struct v} : ty -> sfun json :=
  let items := match v with VList l => map (ser e) l | _ => [] end in
  let dict := match v with VList l => map (keyed (ser e)) l | _ => [] end in
  let entries := match v with VMap l => map (fun p => (fst p, ser e (snd p))) l | _ => [] end in
  let parts := match v with VObj l => map (mpart (ser e)) l | _ => [] end in
  fun t ctx tab =>
  match t, v with
  | TVector u, VList l =>
    match dict_type u with
    | Some w =>
      (* serialize_map.hpp:52-56 *)
      match all_some dict with
      | Some fs => smap JObj (ser_entries ctx (map (fun p => (fst p, snd p w)) fs) tab)
      | None => SUndef
      end
    | None =>
      (* serialize_vector.hpp:14-29 *)
      smap JArr (ser_seq (at_index ctx) 0 (map (fun f => f u) items) tab)
    end
  (* serialize_array.hpp:14-29 *)
  | TArray n u, VList l =>
    if Nat.eqb n (List.length l) then smap JArr (ser_seq (at_index ctx) 0 (map (fun f => f u) items) tab)
    else SUndef
  (* serialize_set.hpp:14-29: elements are written in the context of the set *)
  | TSet u, VList l => smap JArr (ser_seq (fun _ => ctx) 0 (map (fun f => f u) items) tab)
  (* serialize_map.hpp:58-68 *)
  | TMap ordered u, VMap l =>
    match visited e ordered entries with
    | Some fs => smap JObj (ser_entries ctx (map (fun p => (fst p, snd p u)) fs) tab)
    | None => SUndef
    end
  (* serialize_tuple.hpp:15-44 *)
  | TPair a b, VList l =>
    match apply_types items [a; b] with
    | Some fs => smap JArr (ser_seq (at_index ctx) 0 fs tab)
    | None => SUndef
    end
  | TTuple ts, VList l =>
    match apply_types items ts with
    | Some fs => smap JArr (ser_seq (at_index ctx) 0 fs tab)
    | None => SUndef
    end
  (* serialize_variant.hpp:13-21 *)
  | TVariant ts, VVariant i x =>
    match nth_error ts i with
    | Some u => ser e x u ctx tab
    | None => SUndef
    end
  (* serialize_object.hpp:106-113 *)
  | TClass c, VObj l => smap JObj (ser_members ctx (c_members (class_of e c)) parts tab)
  (* serialize_pointer.hpp:15-18 *)
  | TUnique u, VPtr x => ser e x u ctx tab
  | TPtr u, VPtr x => ser e x u ctx tab
  (* serialize_pointer.hpp:38-62 *)
  | TShared u, VShared a x =>
    match ref_get Nat.eqb tab a with
    | Some segments => SOk tab (ref_json segments)
    | None => sbind (ser e x u ctx tab) (fun tab j => SOk (ref_put Nat.eqb tab a ctx) j)
    end
  | _, _ => ser_scalar e t v tab
  end.

(** serialize.hpp:33-39: the document and the result flag. *)
Definition serialize_to_document (e : env) (t : ty) (v : val) : sres json := ser e v t [] [].
