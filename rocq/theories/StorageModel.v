(** Model of serialize_*.hpp, of where the strings of a DOM document are stored: in the pool of
    the document, or elsewhere, with a pointer in the document. *)
From Coq Require Import List Arith ZArith NArith Ascii String Bool.
From Verif Require Import Base Float Base64Model DatetimeModel EnumModel RefsModel Json PathModel Types SerializeModel.
Import ListNotations.

(** The pool of the document; constants of the program (string literals and tables); memory that
    the serialized object owns or refers to; local variables of a serializer. *)
Inductive storage : Type := Pool | Constant | Outside | Local.

(** A DOM document whose strings know where their characters are. *)
Inductive stored : Type :=
| SNull
| SBool (b : bool)
| SInt (z : Z)
| SDbl (f : fl)
| SStr (at_ : storage) (s : string)
| SArr (l : list stored)
| SObj (l : list ((storage * string) * stored)).

(** rapidjson::Value::SetString: with an allocator the characters are copied to the pool; without
    one the value points to them. [at_] is where the argument is. *)
Definition set_string (copy : bool) (at_ : storage) (s : string) : storage * string :=
  (if copy then Pool else at_, s).

Definition string_value (x : storage * string) : stored := SStr (fst x) (snd x).

(** Texts made in a local variable: serialize_bytes.hpp:17-22, serialize_datetime.hpp:15-16 and
    serialize_date.hpp:18-19. *)
Definition text_value (tab : wtable) (o : option (list ascii)) : sres stored :=
  match o with
  | Some s => SOk tab (string_value (set_string true Local (string_of_list_ascii s)))
  | None => SUndef
  end.

(** As [ser_scalar] in SerializeModel.v. A string at [ctx] is a std::string_view or an array of
    characters if [view ctx] (serialize_string.hpp:8-31), else a std::string
    (serialize_string.hpp:33-43). An empty view is replaced by a literal. The names of enumerators
    are in a table (serialize_enum.hpp:24-34). *)
Definition store_scalar (e : env) (view : list segment -> bool) (t : ty) (v : val) (ctx : list segment) (tab : wtable) : sres stored :=
  match t, v with
  | TNull, VNull => SOk tab SNull
  | TBool, VBool b => SOk tab (SBool b)
  | TInt _, VInt z => SOk tab (SInt z)
  | TFloat, VFlt f | TDouble, VFlt f => if is_finite f then SOk tab (SDbl f) else SFail tab
  | TString, VStr s =>
    if view ctx then SOk tab (string_value (set_string false (if String.eqb s "" then Constant else Outside) s))
    else SOk tab (string_value (set_string true Outside s))
  | TBytes, VBytes b => text_value tab (base64_encode (endian e) b (after e b))
  | TTime, VTime z => text_value tab (to_iso_datetime (tick e) z)
  | TDate, VDate d =>
    let z := day_ticks e d in
    if in_int64 z then text_value tab (to_iso_date (tick e) z) else SUndef
  | TEnumInt _, VInt z => SOk tab (SInt z)
  | TEnumStr names, VInt z => SOk tab (string_value (set_string false Constant (enum_to_string names z)))
  | _, _ => SUndef
  end.

(** serialize_map.hpp:25-27: keys are copied. *)
Definition entry_of (p : string * stored) : (storage * string) * stored := (set_string true Outside (fst p), snd p).

(** serialize_object.hpp:69-70: names of members are referred to. *)
Definition member_of (p : string * stored) : (storage * string) * stored := (set_string false Constant (fst p), snd p).

(** serialize_pointer.hpp:41-51 *)
Definition ref_stored (segments : list segment) : stored :=
  SObj [(set_string false Constant "$ref"%string, string_value (set_string true Local (string_of_list_ascii (path_str segments))))].

(** As [ser] in SerializeModel.v. *)
Fixpoint store (e : env) (view : list segment -> bool) (v : val) {struct v} : ty -> sfun stored :=
  let items := match v with VList l => map (store e view) l | _ => [] end in
  let dict := match v with VList l => map (keyed (store e view)) l | _ => [] end in
  let entries := match v with VMap l => map (fun p => (fst p, store e view (snd p))) l | _ => [] end in
  let parts := match v with VObj l => map (mpart (store e view)) l | _ => [] end in
  fun t ctx tab =>
  match t, v with
  | TVector u, VList l =>
    match dict_type u with
    | Some w =>
      match all_some dict with
      | Some fs => smap (fun l => SObj (map entry_of l)) (ser_entries ctx (map (fun p => (fst p, snd p w)) fs) tab)
      | None => SUndef
      end
    | None => smap SArr (ser_seq (at_index ctx) 0 (map (fun f => f u) items) tab)
    end
  | TArray n u, VList l =>
    if Nat.eqb n (List.length l) then smap SArr (ser_seq (at_index ctx) 0 (map (fun f => f u) items) tab)
    else SUndef
  | TSet u, VList l => smap SArr (ser_seq (fun _ => ctx) 0 (map (fun f => f u) items) tab)
  | TMap ordered u, VMap l =>
    match visited e ordered entries with
    | Some fs => smap (fun l => SObj (map entry_of l)) (ser_entries ctx (map (fun p => (fst p, snd p u)) fs) tab)
    | None => SUndef
    end
  | TPair a b, VList l =>
    match apply_types items [a; b] with
    | Some fs => smap SArr (ser_seq (at_index ctx) 0 fs tab)
    | None => SUndef
    end
  | TTuple ts, VList l =>
    match apply_types items ts with
    | Some fs => smap SArr (ser_seq (at_index ctx) 0 fs tab)
    | None => SUndef
    end
  | TVariant ts, VVariant i x =>
    match nth_error ts i with
    | Some u => store e view x u ctx tab
    | None => SUndef
    end
  | TClass c, VObj l => smap (fun l => SObj (map member_of l)) (ser_members ctx (c_members (class_of e c)) parts tab)
  | TUnique u, VPtr x => store e view x u ctx tab
  | TPtr u, VPtr x => store e view x u ctx tab
  | TShared u, VShared a x =>
    match ref_get Nat.eqb tab a with
    | Some segments => SOk tab (ref_stored segments)
    | None => sbind (store e view x u ctx tab) (fun tab j => SOk (ref_put Nat.eqb tab a ctx) j)
    end
  | _, _ => store_scalar e view t v ctx tab
  end.

(** serialize.hpp:33-53: the document that is left when serialize_to_document has returned. *)
Definition stored_document (e : env) (view : list segment -> bool) (t : ty) (v : val) : sres stored := store e view v t [] [].
