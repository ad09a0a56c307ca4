(** Model of the write_*.hpp headers on a heap: as in WriteModel.v, but pointers are addresses and
    the nesting of calls is limited by the stack of the thread. *)
From Coq Require Import List Arith ZArith NArith Ascii String Bool.
From Verif Require Import Base Float EnumModel RefsModel Json PathModel Types SerializeModel Events WriteModel HeapModel.
Import ListNotations.

(** Outcome of a writer: as for trees, or the stack overflows. *)
Inductive hwres : Type :=
| HWDone (r : wres)
| HWOverflow.

(** What is emitted first, then a continuation that runs on success. *)
Definition hwthen (x : hwres) (f : wtable -> hwres) : hwres :=
  match x with
  | HWOverflow => HWOverflow
  | HWDone WUndef => HWDone WUndef
  | HWDone (WRet false tab evs) => HWDone (WRet false tab evs)
  | HWDone (WRet true tab evs) =>
    match f tab with
    | HWOverflow => HWOverflow
    | HWDone WUndef => HWDone WUndef
    | HWDone (WRet ok tab' evs') => HWDone (WRet ok tab' (evs ++ evs'))
    end
  end.

Definition hemit (evs : list event) (tab : wtable) : hwres := HWDone (emit evs tab).

Definition hwfun := list segment -> wtable -> hwres.

Fixpoint hw_seq (at_ : N -> list segment) (k : N) (fs : list hwfun) (tab : wtable) : hwres :=
  match fs with
  | [] => hemit [] tab
  | f :: fs' => hwthen (f (at_ k) tab) (hw_seq at_ (k + 1) fs')
  end.

(** write_vector.hpp:14-27, write_array.hpp:14-27, write_set.hpp:14-27, write_tuple.hpp:14-43 *)
Definition hw_array (at_ : N -> list segment) (fs : list hwfun) (tab : wtable) : hwres :=
  hwthen (hemit [EStartArray] tab) (fun tab => hwthen (hw_seq at_ 0 fs tab) (hemit [EEndArray])).

(** write_map.hpp:16-29 *)
Fixpoint hw_entries (ctx : list segment) (fs : list (string * hwfun)) (tab : wtable) : hwres :=
  match fs with
  | [] => hemit [] tab
  | (key, f) :: fs' =>
    hwthen (hemit [EKey key] tab) (fun tab =>
    hwthen (f (name_segment (list_ascii_of_string key) :: ctx) tab) (hw_entries ctx fs'))
  end.

Definition hw_map (ctx : list segment) (fs : list (string * hwfun)) (tab : wtable) : hwres :=
  hwthen (hemit [EStartObject] tab) (fun tab => hwthen (hw_entries ctx fs tab) (hemit [EEndObject])).

(** write_object.hpp:20-44: what is to be written for a member; [Some None] is nothing. *)
Definition hw_member (rec : hval -> ty -> hwfun) (m : member) (x : hval) : option (option hwfun) :=
  match m_kind m, x with
  | MOptional, HNone => Some None
  | MOptional, HSome y => Some (Some (rec y (m_ty m)))
  | MOptional, _ | _, HNone | _, HSome _ => None
  | _, y => Some (Some (rec y (m_ty m)))
  end.

(** write_object.hpp:20-44 and 57-69: as [wr_members]. *)
Fixpoint hw_members (rec : hval -> ty -> hwfun) (ctx : list segment) (root : nat) (seen flag : bool) (ms : list member)
  (l : list hval) (tab : wtable) : hwres :=
  match ms, l with
  | [], [] => HWDone (WRet seen tab [])
  | m :: ms', x :: l' =>
    let next (flag : bool) (tab : wtable) :=
      match root with
      | O => hw_members rec ctx O seen flag ms' l' tab
      | S r => hw_members rec ctx r flag flag ms' l' tab
      end in
    match hw_member rec m x with
    | None => HWDone WUndef
    | Some None => next flag tab
    | Some (Some g) =>
      if flag then
        match g (name_segment (list_ascii_of_string (m_name m)) :: ctx) tab with
        | HWOverflow => HWOverflow
        | HWDone WUndef => HWDone WUndef
        | HWDone (WRet ok tab evs) =>
          match next ok tab with
          | HWOverflow => HWOverflow
          | HWDone WUndef => HWDone WUndef
          | HWDone (WRet ok' tab evs') => HWDone (WRet ok' tab (EKey (m_name m) :: evs ++ evs'))
          end
        end
      else next flag tab
    end
  | _, _ => HWDone WUndef
  end.

(** write_object.hpp:103-114 *)
Definition hw_object (rec : hval -> ty -> hwfun) (ctx : list segment) (c : cls) (l : list hval) (tab : wtable) : hwres :=
  hwthen (hemit [EStartObject] tab) (fun tab =>
  hwthen (hw_members rec ctx (c_root c) true true (c_members c) l tab) (hemit [EEndObject])).

(** The writers of all types; [depth] is how many of them may still be nested. *)
Fixpoint hwr (e : env) (h : heap) (depth : nat) (x : hval) (t : ty) : hwfun :=
  fun ctx tab =>
  match depth with
  | O => HWOverflow
  | S n =>
    let rec := hwr e h n in
    match t, x with
    | TVector u, HList l =>
      match dict_type u with
      | Some w =>
        (* write_map.hpp:51-55 *)
        match all_some (map h_keyed l) with
        | Some ps => hw_map ctx (map (fun p => (fst p, rec (snd p) w)) ps) tab
        | None => HWDone WUndef
        end
      | None => hw_array (at_index ctx) (map (fun y => rec y u) l) tab
      end
    | TArray k u, HList l =>
      if Nat.eqb k (List.length l) then hw_array (at_index ctx) (map (fun y => rec y u) l) tab else HWDone WUndef
    | TSet u, HList l => hw_array (fun _ => ctx) (map (fun y => rec y u) l) tab
    | TMap ordered u, HMap l =>
      match visited e ordered l with
      | Some ps => hw_map ctx (map (fun p => (fst p, rec (snd p) u)) ps) tab
      | None => HWDone WUndef
      end
    | TPair a b, HList l =>
      match h_zip rec l [a; b] with
      | Some fs => hw_array (at_index ctx) fs tab
      | None => HWDone WUndef
      end
    | TTuple ts, HList l =>
      match h_zip rec l ts with
      | Some fs => hw_array (at_index ctx) fs tab
      | None => HWDone WUndef
      end
    (* write_variant.hpp:13-21 *)
    | TVariant ts, HVariant i y =>
      match nth_error ts i with
      | Some u => rec y u ctx tab
      | None => HWDone WUndef
      end
    | TClass c, HObj l => hw_object rec ctx (class_of e c) l tab
    (* write_pointer.hpp:15-18 *)
    | TUnique u, HOwn y => rec y u ctx tab
    | TPtr u, HRaw a => rec (h a) u ctx tab
    (* write_pointer.hpp:38-59: the object is entered in the table after its content *)
    | TShared u, HShared a =>
      match ref_get Nat.eqb tab a with
      | Some segments => hemit (ref_events segments) tab
      | None => hwthen (rec (h a) u ctx tab) (fun tab => hemit [] (ref_put Nat.eqb tab a ctx))
      end
    | _, HLeaf v => HWDone (wr_scalar e t v tab)
    | _, _ => HWDone WUndef
    end
  end.

(** What comes of writing to a string: the result flag and the content of the string afterwards,
    undefined behaviour, or the stack overflows. *)
Inductive written_string : Type :=
| WString (ok : bool) (s : string)
| WStringUndef
| WStringOverflow.

(** write.hpp:31-54 *)
Definition heap_to_string (render : list event -> string) (e : env) (h : heap) (depth : nat) (t : ty) (x : hval) (str : string) : written_string :=
  match hwr e h depth x t [] [] with
  | HWDone (WRet true _ evs) => WString true (render evs)
  | HWDone (WRet false _ _) => WString false str
  | HWDone WUndef => WStringUndef
  | HWOverflow => WStringOverflow
  end.
