(** Model of the write_*.hpp headers: from values to the calls made on rapidjson::Writer. *)
From Coq Require Import List Arith ZArith NArith Ascii String Bool.
From Verif Require Import Base Float Base64Model DatetimeModel EnumModel RefsModel Json PathModel Types
  SerializeModel Events.
Import ListNotations.

(** Outcome of a writer: the result flag, the table, and the events emitted; they are emitted
    even if the result is false. *)
Inductive wres : Type :=
| WRet (ok : bool) (tab : wtable) (evs : list event)
| WUndef.

(** What is emitted first, then a continuation that runs on success. *)
Definition wthen (x : wres) (f : wtable -> wres) : wres :=
  match x with
  | WUndef => WUndef
  | WRet false tab evs => WRet false tab evs
  | WRet true tab evs =>
    match f tab with
    | WUndef => WUndef
    | WRet ok tab' evs' => WRet ok tab' (evs ++ evs')
    end
  end.

Definition emit (evs : list event) (tab : wtable) : wres := WRet true tab evs.

Definition wfun := list segment -> wtable -> wres.

Definition text_event (tab : wtable) (o : option (list ascii)) : wres :=
  match o with
  | Some s => emit [EStr (string_of_list_ascii s)] tab
  | None => WUndef
  end.

(** write_fundamental.hpp, write_string.hpp, write_bytes.hpp, write_datetime.hpp,
    write_date.hpp, write_enum.hpp:12-35. *)
Definition wr_scalar (e : env) (t : ty) (v : val) (tab : wtable) : wres :=
  match t, v with
  | TNull, VNull => emit [ENull] tab
  | TBool, VBool b => emit [EBool b] tab
  | TInt _, VInt z => emit [EInt z] tab
  | TFloat, VFlt f | TDouble, VFlt f => if is_finite f then emit [EDbl f] tab else WRet false tab []
  | TString, VStr s => emit [EStr s] tab
  | TBytes, VBytes b => text_event tab (base64_encode (endian e) b (after e b))
  | TTime, VTime z => text_event tab (to_iso_datetime (tick e) z)
  | TDate, VDate d =>
    let z := day_ticks e d in
    if in_int64 z then text_event tab (to_iso_date (tick e) z) else WUndef
  | TEnumInt _, VInt z => emit [EInt z] tab
  | TEnumStr names, VInt z => emit [EStr (enum_to_string names z)] tab
  | _, _ => WUndef
  end.

Fixpoint wr_seq (at_ : N -> list segment) (k : N) (fs : list wfun) (tab : wtable) : wres :=
  match fs with
  | [] => emit [] tab
  | f :: fs' => wthen (f (at_ k) tab) (wr_seq at_ (k + 1) fs')
  end.

(** StartArray, elements, EndArray: write_vector.hpp:14-27, write_array.hpp:14-27,
    write_set.hpp:14-27, write_tuple.hpp:14-43. *)
Definition wr_array (at_ : N -> list segment) (fs : list wfun) (tab : wtable) : wres :=
  wthen (emit [EStartArray] tab) (fun tab =>
  wthen (wr_seq at_ 0 fs tab) (emit [EEndArray])).

(** write_map.hpp:16-29 *)
Fixpoint wr_entries (ctx : list segment) (fs : list (string * wfun)) (tab : wtable) : wres :=
  match fs with
  | [] => emit [] tab
  | (key, f) :: fs' =>
    wthen (emit [EKey key] tab) (fun tab =>
    wthen (f (name_segment (list_ascii_of_string key) :: ctx) tab) (wr_entries ctx fs'))
  end.

Definition wr_map (ctx : list segment) (fs : list (string * wfun)) (tab : wtable) : wres :=
  wthen (emit [EStartObject] tab) (fun tab =>
  wthen (wr_entries ctx fs tab) (emit [EEndObject])).

(** A member of an object, ready to be written. *)
Inductive wmfun : Type :=
| WPlain (f : ty -> wfun)
| WAbsent
| WPresent (f : ty -> wfun).

Definition wr_to_write (m : member) (f : wmfun) : option (option wfun) :=
  match m_kind m, f with
  | MOptional, WAbsent => Some None
  | MOptional, WPresent f => Some (Some (f (m_ty m)))
  | MRequired, WPlain f | MDefault, WPlain f => Some (Some (f (m_ty m)))
  | _, _ => None
  end.

(** write_object.hpp:20-44 and 57-69: [flag] is the result flag of the archive that visits
    the members, [root] the number of members still visited by the original archive, [seen]
    its flag. Members are not written once the flag is false. *)
Fixpoint wr_members (ctx : list segment) (root : nat) (seen flag : bool) (ms : list member)
  (fs : list wmfun) (tab : wtable) : wres :=
  match ms, fs with
  | [], [] => WRet seen tab []
  | m :: ms', f :: fs' =>
    let next (flag : bool) (tab : wtable) :=
      match root with
      | O => wr_members ctx O seen flag ms' fs' tab
      | S r => wr_members ctx r flag flag ms' fs' tab
      end in
    match wr_to_write m f with
    | None => WUndef
    | Some None => next flag tab
    | Some (Some g) =>
      if flag then
        match g (name_segment (list_ascii_of_string (m_name m)) :: ctx) tab with
        | WUndef => WUndef
        | WRet ok tab evs =>
          match next ok tab with
          | WUndef => WUndef
          | WRet ok' tab evs' => WRet ok' tab (EKey (m_name m) :: evs ++ evs')
          end
        end
      else next flag tab
    end
  | _, _ => WUndef
  end.

(** write_object.hpp:103-114. [wthen] ends the object on success only. *)
Definition wr_object (ctx : list segment) (c : cls) (fs : list wmfun) (tab : wtable) : wres :=
  wthen (emit [EStartObject] tab) (fun tab =>
  wthen (wr_members ctx (c_root c) true true (c_members c) fs tab) (emit [EEndObject])).

(** write_pointer.hpp:43-48 *)
Definition ref_events (segments : list segment) : list event :=
  [EStartObject; EKey "$ref"; EStr (string_of_list_ascii (path_str segments)); EEndObject].

Definition wmpart (rec : val -> ty -> wfun) (v : val) : wmfun :=
  match v with
  | VNone => WAbsent
  | VSome x => WPresent (rec x)
  | _ => WPlain (rec v)
  end.

(** The writers of all types. *)
Fixpoint wr (e : env) (v : val) {struct v} : ty -> wfun :=
  let items := match v with VList l => map (wr e) l | _ => [] end in
  let dict := match v with VList l => map (keyed (wr e)) l | _ => [] end in
  let entries := match v with VMap l => map (fun p => (fst p, wr e (snd p))) l | _ => [] end in
  let parts := match v with VObj l => map (wmpart (wr e)) l | _ => [] end in
  fun t ctx tab =>
  match t, v with
  | TVector u, VList l =>
    match dict_type u with
    | Some w =>
      (* write_map.hpp:51-55 *)
      match all_some dict with
      | Some fs => wr_map ctx (map (fun p => (fst p, snd p w)) fs) tab
      | None => WUndef
      end
    | None => wr_array (at_index ctx) (map (fun f => f u) items) tab
    end
  | TArray n u, VList l =>
    if Nat.eqb n (List.length l) then wr_array (at_index ctx) (map (fun f => f u) items) tab
    else WUndef
  | TSet u, VList l => wr_array (fun _ => ctx) (map (fun f => f u) items) tab
  | TMap ordered u, VMap l =>
    match visited e ordered entries with
    | Some fs => wr_map ctx (map (fun p => (fst p, snd p u)) fs) tab
    | None => WUndef
    end
  | TPair a b, VList l =>
    match apply_types items [a; b] with
    | Some fs => wr_array (at_index ctx) fs tab
    | None => WUndef
    end
  | TTuple ts, VList l =>
    match apply_types items ts with
    | Some fs => wr_array (at_index ctx) fs tab
    | None => WUndef
    end
  (* write_variant.hpp:13-21 *)
  | TVariant ts, VVariant i x =>
    match nth_error ts i with
    | Some u => wr e x u ctx tab
    | None => WUndef
    end
  | TClass c, VObj l => wr_object ctx (class_of e c) parts tab
  (* write_pointer.hpp:15-18 *)
  | TUnique u, VPtr x => wr e x u ctx tab
  | TPtr u, VPtr x => wr e x u ctx tab
  (* write_pointer.hpp:38-59 *)
  | TShared u, VShared a x =>
    match ref_get Nat.eqb tab a with
    | Some segments => emit (ref_events segments) tab
    | None => wthen (wr e x u ctx tab) (fun tab => emit [] (ref_put Nat.eqb tab a ctx))
    end
  | _, _ => wr_scalar e t v tab
  end.

(** write.hpp:31-37: the calls made on the writer. *)
Definition write_events (e : env) (t : ty) (v : val) : wres := wr e v t [] [].

(** write.hpp:43-54: result flag and content of the string afterwards; [None] is undefined
    behaviour. [render] is what rapidjson::Writer makes of the calls. *)
Definition write_to_string (render : list event -> string) (e : env) (t : ty) (v : val) (str : string)
  : option (bool * string) :=
  match write_events e t v with
  | WRet true _ evs => Some (true, render evs)
  | WRet false _ _ => Some (false, str)
  | WUndef => None
  end.

(** utility.hpp: document_to_string. *)
Definition document_to_string (render : list event -> string) (j : json) : string := render (events j).
