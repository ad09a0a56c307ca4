(** Model of the deserialize_*.hpp headers: from a JSON DOM document to values. *)
From Coq Require Import List Arith ZArith NArith Ascii String Bool.
From Verif Require Import Base Float NumericModel Base64Model DatetimeModel EnumModel RefsModel HashModel Json
  PathModel Types SerializeModel.
Import ListNotations.

(** The objects created for shared pointers: the place in the document of the value read
    identifies it (deserialize_context.hpp:13 uses its address), and the object has a type,
    an address and a content. [next_address] is a supply of addresses for std::make_shared. *)
Record shared_object : Type := { o_type : ty; o_address : nat; o_content : val }.

Definition place_eqb (a b : list nat) : bool := if list_eq_dec Nat.eq_dec a b then true else false.

Definition rtable := list (list nat * shared_object).

Record dstate : Type := { next_address : nat; objects : rtable }.

(** The reasons given by JsonDeserializationError, with the parts of the sentence that are
    not constant. *)
Inductive derror : Type :=
| WrongType (expected : string)
| OutOfRange (signed : bool)
| BadBase64
| BadTime (got : string)
| BadDate (got : string)
| UnknownName (got : string)
| WrongSize (expected got : nat)
| MissingProperty (name : string)
| NoAlternative.

(** Outcome of a deserializer: result flag, state and the value of the object afterwards; an
    exception with the segments of its path; undefined behaviour; or a type that does not
    compile. *)
Inductive dres : Type :=
| DRet (ok : bool) (st : dstate) (v : val)
| DThrow (why : derror) (path : list segment)
| DUndef
| DOutside.

(** A deserializer for a given document value: the old value of the object, the context and
    the place of the document value. [exc] is the template argument Exception. *)
Definition reader := val -> list segment -> list nat -> dstate -> dres.

Definition reject (exc : bool) (why : derror) (old : val) (ctx : list segment) (st : dstate) : dres :=
  if exc then DThrow why ctx else DRet false st old.

Definition int64 : ity := {| width := 64; is_signed := true |}.
Definition uint32 : ity := {| width := 32; is_signed := false |}.
Definition uint64 : ity := {| width := 64; is_signed := false |}.

(** The integer type in which the document value is fetched. *)
Definition wide (k : ity) : ity :=
  if is_signed k then (if Z.eqb (width k) 64 then int64 else int32)
  else (if Z.eqb (width k) 64 then uint64 else uint32).

(** rapidjson::Value::IsInt, IsUint, IsInt64, IsUint64 *)
Definition is_kind (w : ity) (z : Z) : bool := (Z.leb (tmin w) z && Z.leb z (tmax w))%Z.

(** deserialize_fundamental.hpp:11-38 *)
Definition check_range (narrow wide_ : ity) (z : Z) : bool :=
  if is_signed narrow
  then negb (clt wide_ z narrow (tmin narrow) || clt narrow (tmax narrow) wide_ z)
  else negb (clt narrow (tmax narrow) wide_ z).

(** deserialize_fundamental.hpp:53, 83, 113, 143: which of the four deserializers for integers it
    is depends on sign and size (deserialize_fundamental.hpp:208-271). *)
Definition int_name (k : ity) : string :=
  if is_signed k then (if Z.eqb (width k) 64 then "64-bit integer" else "integer")
  else (if Z.eqb (width k) 64 then "unsigned 64-bit integer" else "unsigned integer").

(** deserialize_fundamental.hpp:41-159 *)
Definition read_int (exc : bool) (k : ity) (j : json) : reader := fun old ctx loc st =>
  match j with
  | JInt z =>
    if is_kind (wide k) z then
      if check_range k (wide k) z then DRet true st (VInt (wrap k z))
      else reject exc (OutOfRange (is_signed k)) old ctx st
    else reject exc (WrongType (int_name k)) old ctx st
  | _ => reject exc (WrongType (int_name k)) old ctx st
  end.

(** rapidjson::Value::GetDouble *)
Definition number (j : json) : option fl :=
  match j with
  | JInt z => Some (Float.round binary64 (fl_of_Z z))
  | JDbl f => Some f
  | _ => None
  end.

(** deserialize_fundamental.hpp:273-296 *)
Definition read_float (exc : bool) (fm : format) (j : json) : reader := fun old ctx loc st =>
  match number j with
  | Some f => DRet true st (VFlt (Float.round fm f))
  | None => reject exc (WrongType "number") old ctx st
  end.

(** Midnight of a day as a number of days; the time points from dates are whole days. *)
Definition ticks_day (e : env) (ticks : Z) : Z := Z.quot ticks (86400 * tick e).

(** deserialize_fundamental.hpp:161-205, deserialize_string.hpp:14-22,
    deserialize_bytes.hpp:15-33, deserialize_datetime.hpp:15-33, deserialize_date.hpp:18-38,
    deserialize_enum.hpp:16-62. base64_decode writes into the object even if it fails. *)
Definition read_scalar (e : env) (exc : bool) (t : ty) (j : json) : reader := fun old ctx loc st =>
  match t with
  | TNull => match j with JNull => DRet true st VNull | _ => reject exc (WrongType "null") old ctx st end
  | TBool => match j with JBool b => DRet true st (VBool b) | _ => reject exc (WrongType "boolean") old ctx st end
  | TInt k => read_int exc k j old ctx loc st
  | TEnumInt k =>
    match read_int exc k j VIndet ctx loc st with
    | DRet false st _ => DRet false st old
    | r => r
    end
  | TFloat => read_float exc binary32 j old ctx loc st
  | TDouble => read_float exc binary64 j old ctx loc st
  | TString => match j with JStr s => DRet true st (VStr s) | _ => reject exc (WrongType "string") old ctx st end
  | TBytes =>
    match j with
    | JStr s =>
      match base64_decode (list_ascii_of_string s) with
      | None => DUndef
      | Some (true, b) => DRet true st (VBytes b)
      | Some (false, b) => reject exc BadBase64 (VBytes b) ctx st
      end
    | _ => reject exc (WrongType "string") old ctx st
    end
  | TTime =>
    match j with
    | JStr s =>
      match parse_datetime (tick e) (list_ascii_of_string s) with
      | None => DUndef
      | Some (Some z) => DRet true st (VTime z)
      | Some None => reject exc (BadTime s) old ctx st
      end
    | _ => reject exc (WrongType "string") old ctx st
    end
  | TDate =>
    match j with
    | JStr s =>
      match parse_date (tick e) (list_ascii_of_string s) with
      | None => DUndef
      | Some (Some z) => DRet true st (VDate (ticks_day e z))
      | Some None => reject exc (BadDate s) old ctx st
      end
    | _ => reject exc (WrongType "string") old ctx st
    end
  | TEnumStr names =>
    match j with
    | JStr s =>
      match enum_from_string names s with
      | Some z => DRet true st (VInt z)
      | None => reject exc (UnknownName s) old ctx st
      end
    | _ => reject exc (WrongType "string") old ctx st
    end
  | _ => DOutside
  end.

(** deserialize_vector.hpp:21-32 and deserialize_set.hpp:21-32: the loop at element [k] with
    the elements read so far in [acc]. [add] is push_back or insert; [init] initialises the
    local variable. *)
Fixpoint read_items (init : val) (add : list val -> val -> list val) (fs : list reader) (k : nat)
  (acc : list val) (ctx : list segment) (loc : list nat) (st : dstate) : dres :=
  match fs with
  | [] => DRet true st (VList acc)
  | f :: fs' =>
    match f init (at_index ctx (N.of_nat k)) (loc ++ [k]) st with
    | DRet true st x => read_items init add fs' (S k) (add acc x) ctx loc st
    | DRet false st _ => DRet false st (VList acc)
    | r => r
    end
  end.

Definition push_back (l : list val) (x : val) : list val := l ++ [x].

(** deserialize_array.hpp:24-36: elements go to a temporary array. *)
Definition read_array (init old : val) (fs : list reader) (ctx : list segment) (loc : list nat) (st : dstate) : dres :=
  match read_items init push_back fs 0 [] ctx loc st with
  | DRet false st _ => DRet false st old
  | r => r
  end.

(** deserialize_tuple.hpp:27-41: elements are read in place. *)
Fixpoint read_tuple (fs : list reader) (k : nat) (olds : list val) (ctx : list segment) (loc : list nat)
  (st : dstate) : bool * list val * option dres * dstate :=
  match fs with
  | [] => (true, [], None, st)
  | f :: fs' =>
    match f (hd VIndet olds) (at_index ctx (N.of_nat k)) (loc ++ [k]) st with
    | DRet true st x =>
      let '(ok, l, stop, st) := read_tuple fs' (S k) (tl olds) ctx loc st in (ok, x :: l, stop, st)
    | DRet false st x => (false, x :: tl olds, None, st)
    | r => (false, [], Some r, st)
    end
  end.

Definition finish_tuple (x : bool * list val * option dres * dstate) : dres :=
  match x with
  | (ok, l, None, st) => DRet ok st (VList l)
  | (_, _, Some r, _) => r
  end.

Definition parts_of (v : val) : list val :=
  match v with VList l | VObj l => l | _ => [] end.

(** Up to the first NUL: rapidjson::Value::GetString used as a C string. *)
Fixpoint c_string (s : string) : string :=
  match s with
  | EmptyString => EmptyString
  | String c s' => if Ascii.eqb c Ascii.zero then EmptyString else String c (c_string s')
  end.

Definition at_name (ctx : list segment) (name : string) : list segment :=
  name_segment (list_ascii_of_string (c_string name)) :: ctx.

(** deserialize_map.hpp:23-31: the loop over the members of the document object. *)
Fixpoint read_entries (init : val) (fs : list (string * reader)) (k : nat) (acc : list (string * val))
  (ctx : list segment) (loc : list nat) (st : dstate) : dres :=
  match fs with
  | [] => DRet true st (VMap acc)
  | (name, f) :: fs' =>
    match f init (at_name ctx name) (loc ++ [k]) st with
    | DRet true st x => read_entries init fs' (S k) (map_assign acc (c_string name) x) ctx loc st
    | DRet false st _ => DRet false st (VMap acc)
    | r => r
    end
  end.

(** deserialize_variant.hpp:18-42: alternatives in order, never throwing. *)
Fixpoint read_variant (fs : list (val * reader)) (i : nat) (ctx : list segment) (loc : list nat) (st : dstate)
  : option (nat * val) * option dres * dstate :=
  match fs with
  | [] => (None, None, st)
  | (init, f) :: fs' =>
    match f init ctx loc st with
    | DRet true st x => (Some (i, x), None, st)
    | DRet false st _ => read_variant fs' (S i) ctx loc st
    | r => (None, Some r, st)
    end
  end.

(** deserialize_object.hpp:14-19: the first member of that name, with its position. *)
Fixpoint find_fun {A} (fs : list (string * A)) (k : nat) (name : string) : option (nat * A) :=
  match fs with
  | [] => None
  | (n, f) :: fs' => if String.eqb n name then Some (k, f) else find_fun fs' (S k) name
  end.

(** deserialize_object.hpp:31-82: one member of the class; gives the new flag and the new
    value of the member. *)
Definition read_member (e : env) (exc : bool) (fs : list (string * (bool -> ty -> reader))) (m : member)
  (flag : bool) (old : val) (ctx : list segment) (loc : list nat) (st : dstate) : dres :=
  match find_fun fs 0 (m_name m), m_kind m with
  | Some (k, f), MOptional =>
    match f exc (m_ty m) (dinit e (m_ty m)) (at_name ctx (m_name m)) (loc ++ [k]) st with
    | DRet ok st x => DRet ok st (VSome x)
    | r => r
    end
  | None, MOptional => DRet flag st VNone
  | Some (k, f), _ => f exc (m_ty m) old (at_name ctx (m_name m)) (loc ++ [k]) st
  | None, MRequired => if exc then DThrow (MissingProperty (m_name m)) ctx else DRet false st old
  | None, MDefault => DRet flag st old
  end.

(** The members in turn. [flag] is the flag of the archive that visits the member; [seen] is
    the flag of the original archive, which visits the first [root] members. *)
Fixpoint read_members (e : env) (exc : bool) (fs : list (string * (bool -> ty -> reader))) (ms : list member)
  (root : nat) (seen flag : bool) (olds : list val) (ctx : list segment) (loc : list nat) (st : dstate)
  : bool * list val * option dres * dstate :=
  match ms with
  | [] => (seen, [], None, st)
  | m :: ms' =>
    match read_member e exc fs m flag (hd VIndet olds) ctx loc st with
    | DRet ok st x =>
      let '(seen, l, stop, st) :=
        match root with
        | O => read_members e exc fs ms' O seen ok (tl olds) ctx loc st
        | S r => read_members e exc fs ms' r ok ok (tl olds) ctx loc st
        end in
      (seen, x :: l, stop, st)
    | r => (false, [], Some r, st)
    end
  end.

Definition finish_object (x : bool * list val * option dres * dstate) : dres :=
  match x with
  | (ok, l, None, st) => DRet ok st (VObj l)
  | (_, _, Some r, _) => r
  end.

(** deserialize_pointer.hpp:43-55. *)
Definition read_ref (root : json) (t : ty) (target : json) (old : val) (st : dstate) : dres :=
  match target with
  | JStr s =>
    match parse_reference (list_ascii_of_string s) with
    | None => DUndef
    | Some tokens =>
      match pointer_get root tokens with
      | None => DRet false st old
      | Some (place, _) =>
        match ref_get place_eqb (objects st) place with
        | None => DRet false st old
        | Some o =>
          (* reinterpret_pointer_cast to the wrong type *)
          if ty_eqb (o_type o) t then DRet true st (VShared (o_address o) (o_content o)) else DUndef
        end
      end
    end
  | _ => DUndef
  end.

(** deserialize_pointer.hpp:59-65: [r] is the outcome of reading the new object. *)
Definition register_shared (t : ty) (loc : list nat) (a : nat) (r : dres) : dres :=
  match r with
  | DRet true st x =>
    DRet true {| next_address := next_address st;
                 objects := ref_put place_eqb (objects st) loc {| o_type := t; o_address := a; o_content := x |} |}
         (VShared a x)
  | DRet false st x => DRet false st (VShared a x)
  | r => r
  end.

Definition new_address (st : dstate) : dstate :=
  {| next_address := S (next_address st); objects := objects st |}.

(** The deserializers of all types. *)
Fixpoint deser (e : env) (root : json) (j : json) {struct j} : bool -> ty -> reader :=
  let elems := match j with JArr l => map (deser e root) l | _ => [] end in
  let mems := match j with JObj l => map (fun p => (fst p, deser e root (snd p))) l | _ => [] end in
  fix go (exc : bool) (t : ty) {struct t} : reader := fun old ctx loc st =>
  match t with
  | TVector u =>
    match j with
    | JArr _ => read_items (dinit e u) push_back (map (fun f => f exc u) elems) 0 [] ctx loc st
    | _ => reject exc (WrongType "array") old ctx st
    end
  | TSet u =>
    match j with
    | JArr _ => read_items (dinit e u) (set_insert (less e u)) (map (fun f => f exc u) elems) 0 [] ctx loc st
    | _ => reject exc (WrongType "array") old ctx st
    end
  | TArray n u =>
    match j with
    | JArr l =>
      if negb (Nat.eqb (List.length l) n) then reject exc (WrongSize n (List.length l)) old ctx st
      else read_array (dinit e u) old (map (fun f => f exc u) elems) ctx loc st
    | _ => reject exc (WrongType "array") old ctx st
    end
  | TMap _ u =>
    match j with
    | JObj _ => read_entries (dinit e u) (map (fun p => (fst p, snd p exc u)) mems) 0 [] ctx loc st
    | _ => reject exc (WrongType "object") old ctx st
    end
  | TPair a b =>
    match j with
    | JArr l =>
      match apply_types (map (fun f => f exc) elems) [a; b] with
      | None => reject exc (WrongSize 2 (List.length l)) old ctx st
      | Some fs => finish_tuple (read_tuple fs 0 (parts_of old) ctx loc st)
      end
    | _ => reject exc (WrongType "array") old ctx st
    end
  | TTuple ts =>
    match j with
    | JArr l =>
      match apply_types (map (fun f => f exc) elems) ts with
      | None => reject exc (WrongSize (List.length ts) (List.length l)) old ctx st
      | Some fs => finish_tuple (read_tuple fs 0 (parts_of old) ctx loc st)
      end
    | _ => reject exc (WrongType "array") old ctx st
    end
  | TVariant ts =>
    match read_variant (map (fun u => (dinit e u, go false u)) ts) 0 ctx loc st with
    | (Some (i, x), _, st) => DRet true st (VVariant i x)
    | (None, Some r, _) => r
    | (None, None, st) => reject exc NoAlternative old ctx st
    end
  | TClass c =>
    match j with
    | JObj _ =>
      finish_object (read_members e exc mems (c_members (class_of e c)) (c_root (class_of e c)) true true
                       (parts_of old) ctx loc st)
    | _ => reject exc (WrongType "object") old ctx st
    end
  (* deserialize_pointer.hpp:21-30 *)
  | TUnique u =>
    match go exc u (vinit e u) ctx loc st with
    | DRet true st x => DRet true st (VPtr x)
    | DRet false st _ => DRet false st old
    | r => r
    end
  (* deserialize_pointer.hpp:38-66 *)
  | TShared u =>
    match (match j with JObj l => find_member l "$ref" | _ => None end) with
    | Some target => read_ref root u target old st
    | None => register_shared u loc (next_address st) (go exc u (vinit e u) ctx loc (new_address st))
    end
  | TPtr _ => DOutside
  | _ => read_scalar e exc t j old ctx loc st
  end.

Definition start : dstate := {| next_address := 0; objects := [] |}.

(** deserialize.hpp:31-41: result flag and object. *)
Definition deserialize (e : env) (t : ty) (j : json) (obj : val) : dres :=
  deser e j j false t obj [] [] start.

(** deserialize.hpp:46-59: the object returned, or the exception. The result flag of line 57
    is not looked at. *)
Inductive tres : Type :=
| Returned (v : val)
| Threw (why : derror) (path : list ascii)
| TUndef
| TOutside.

Definition deserialize_throw (e : env) (t : ty) (j : json) : tres :=
  match deser e j j true t (dinit e t) [] [] start with
  | DRet _ _ v => Returned v
  | DThrow why segments => Threw why (path_str segments)
  | DUndef => TUndef
  | DOutside => TOutside
  end.
