(** Model of the serialize_*.hpp headers on a heap: pointers are addresses, objects may point to
    each other in any way, and the nesting of calls is limited by the stack of the thread. *)
From Coq Require Import List Arith ZArith NArith Ascii String Bool.
From Verif Require Import Base Float EnumModel RefsModel Json PathModel Types SerializeModel.
Import ListNotations.

(** A variable in memory. [HLeaf] is a value without parts. [HOwn] is a unique pointer with its
    object, [HRaw] and [HShared] are raw and shared pointers to the object at an address,
    [HNull] is a null pointer of any kind. *)
Inductive hval : Type :=
| HLeaf (v : val)
| HList (l : list hval)
| HMap (l : list (string * hval))
| HVariant (i : nat) (x : hval)
| HObj (l : list hval)
| HNone
| HSome (x : hval)
| HNull
| HOwn (x : hval)
| HRaw (a : nat)
| HShared (a : nat).

Section HvalInd.
Variable P : hval -> Prop.
Hypotheses (Hleaf : forall v, P (HLeaf v)) (Hlist : forall l, Forall P l -> P (HList l)) (Hmap : forall l, Forall (fun p => P (snd p)) l -> P (HMap l))
  (Hvariant : forall i x, P x -> P (HVariant i x)) (Hobj : forall l, Forall P l -> P (HObj l)) (Hnone : P HNone) (Hsome : forall x, P x -> P (HSome x))
  (Hnull : P HNull) (Hown : forall x, P x -> P (HOwn x)) (Hraw : forall a, P (HRaw a)) (Hshared : forall a, P (HShared a)).

Fixpoint hval_ind' (x : hval) : P x :=
  let all := fix all (l : list hval) : Forall P l :=
    match l with [] => Forall_nil P | y :: l' => Forall_cons y (hval_ind' y) (all l') end in
  match x with
  | HLeaf v => Hleaf v | HList l => Hlist l (all l)
  | HMap l => Hmap l ((fix all2 (l : list (string * hval)) : Forall (fun p => P (snd p)) l :=
      match l with [] => Forall_nil _ | y :: l' => Forall_cons y (hval_ind' (snd y)) (all2 l') end) l)
  | HVariant i y => Hvariant i y (hval_ind' y) | HObj l => Hobj l (all l) | HNone => Hnone | HSome y => Hsome y (hval_ind' y)
  | HNull => Hnull | HOwn y => Hown y (hval_ind' y) | HRaw a => Hraw a | HShared a => Hshared a
  end.
End HvalInd.

(** The objects that raw and shared pointers point to. *)
Definition heap := nat -> hval.

(** Outcome of a serializer: as for trees, or the stack overflows. *)
Inductive hres (A : Type) : Type :=
| HDone (r : sres A)
| HOverflow.
Arguments HDone {A} r.
Arguments HOverflow {A}.

Definition hbind {A B} (x : hres A) (f : wtable -> A -> hres B) : hres B :=
  match x with
  | HDone (SOk tab a) => f tab a
  | HDone (SFail tab) => HDone (SFail tab)
  | HDone SUndef => HDone SUndef
  | HOverflow => HOverflow
  end.

Definition hmap {A B} (f : A -> B) (x : hres A) : hres B := hbind x (fun tab a => HDone (SOk tab (f a))).

(** A serializer applied to its value, waiting for the context and the table. *)
Definition hfun (A : Type) := list segment -> wtable -> hres A.

(** serialize_vector.hpp:19-27, serialize_array.hpp:19-27, serialize_set.hpp:19-27,
    serialize_tuple.hpp:15-44: the k-th element in the context [at_ k]. *)
Fixpoint h_seq {A} (at_ : N -> list segment) (k : N) (fs : list (hfun A)) (tab : wtable) : hres (list A) :=
  match fs with
  | [] => HDone (SOk tab [])
  | f :: fs' => hbind (f (at_ k) tab) (fun tab a => hmap (cons a) (h_seq at_ (k + 1) fs' tab))
  end.

(** serialize_map.hpp:16-31 *)
Fixpoint h_entries {A} (ctx : list segment) (fs : list (string * hfun A)) (tab : wtable) : hres (list (string * A)) :=
  match fs with
  | [] => HDone (SOk tab [])
  | (key, f) :: fs' =>
    hbind (f (name_segment (list_ascii_of_string key) :: ctx) tab) (fun tab a => hmap (cons (key, a)) (h_entries ctx fs' tab))
  end.

(** serialize_object.hpp:20-43: what is to be written for a member; [Some None] is nothing. *)
Definition h_member {A} (rec : hval -> ty -> hfun A) (m : member) (x : hval) : option (option (hfun A)) :=
  match m_kind m, x with
  | MOptional, HNone => Some None
  | MOptional, HSome y => Some (Some (rec y (m_ty m)))
  | MOptional, _ | _, HNone | _, HSome _ => None
  | _, y => Some (Some (rec y (m_ty m)))
  end.

(** serialize_object.hpp:56-72, once for each member; a member that fails is left out. *)
Fixpoint h_members {A} (rec : hval -> ty -> hfun A) (ctx : list segment) (ms : list member) (l : list hval) (tab : wtable) : hres (list (string * A)) :=
  match ms, l with
  | [], [] => HDone (SOk tab [])
  | m :: ms', x :: l' =>
    match h_member rec m x with
    | None => HDone SUndef
    | Some None => h_members rec ctx ms' l' tab
    | Some (Some g) =>
      match g (name_segment (list_ascii_of_string (m_name m)) :: ctx) tab with
      | HOverflow => HOverflow
      | HDone SUndef => HDone SUndef
      | HDone (SFail tab) => h_members rec ctx ms' l' tab
      | HDone (SOk tab a) => hmap (cons (m_name m, a)) (h_members rec ctx ms' l' tab)
      end
    end
  | _, _ => HDone SUndef
  end.

(** Elements of a std::vector<std::pair<std::string, T>>. *)
Definition h_keyed (x : hval) : option (string * hval) :=
  match x with
  | HList [HLeaf (VStr key); y] => Some (key, y)
  | _ => None
  end.

Fixpoint h_zip {A} (rec : hval -> ty -> A) (l : list hval) (ts : list ty) : option (list A) :=
  match l, ts with
  | [], [] => Some []
  | x :: l', t :: ts' => match h_zip rec l' ts' with Some r => Some (rec x t :: r) | None => None end
  | _, _ => None
  end.

(** The serializers of all types; [depth] is how many of them may still be nested. *)
Fixpoint hser (e : env) (h : heap) (depth : nat) (x : hval) (t : ty) : hfun json :=
  fun ctx tab =>
  match depth with
  | O => HOverflow
  | S n =>
    let rec := hser e h n in
    match t, x with
    | TVector u, HList l =>
      match dict_type u with
      | Some w =>
        (* serialize_map.hpp:52-56 *)
        match all_some (map h_keyed l) with
        | Some ps => hmap JObj (h_entries ctx (map (fun p => (fst p, rec (snd p) w)) ps) tab)
        | None => HDone SUndef
        end
      (* serialize_vector.hpp:14-29 *)
      | None => hmap JArr (h_seq (at_index ctx) 0 (map (fun y => rec y u) l) tab)
      end
    (* serialize_array.hpp:14-29 *)
    | TArray k u, HList l =>
      if Nat.eqb k (List.length l) then hmap JArr (h_seq (at_index ctx) 0 (map (fun y => rec y u) l) tab) else HDone SUndef
    (* serialize_set.hpp:14-29 *)
    | TSet u, HList l => hmap JArr (h_seq (fun _ => ctx) 0 (map (fun y => rec y u) l) tab)
    (* serialize_map.hpp:58-68 *)
    | TMap ordered u, HMap l =>
      match visited e ordered l with
      | Some ps => hmap JObj (h_entries ctx (map (fun p => (fst p, rec (snd p) u)) ps) tab)
      | None => HDone SUndef
      end
    (* serialize_tuple.hpp:15-44 *)
    | TPair a b, HList l =>
      match h_zip rec l [a; b] with
      | Some fs => hmap JArr (h_seq (at_index ctx) 0 fs tab)
      | None => HDone SUndef
      end
    | TTuple ts, HList l =>
      match h_zip rec l ts with
      | Some fs => hmap JArr (h_seq (at_index ctx) 0 fs tab)
      | None => HDone SUndef
      end
    (* serialize_variant.hpp:13-21 *)
    | TVariant ts, HVariant i y =>
      match nth_error ts i with
      | Some u => rec y u ctx tab
      | None => HDone SUndef
      end
    (* serialize_object.hpp:106-113 *)
    | TClass c, HObj l => hmap JObj (h_members rec ctx (c_members (class_of e c)) l tab)
    (* serialize_pointer.hpp:15-18 *)
    | TUnique u, HOwn y => rec y u ctx tab
    | TPtr u, HRaw a => rec (h a) u ctx tab
    (* serialize_pointer.hpp:38-62: the object is entered in the table after its content *)
    | TShared u, HShared a =>
      match ref_get Nat.eqb tab a with
      | Some segments => HDone (SOk tab (ref_json segments))
      | None => hbind (rec (h a) u ctx tab) (fun tab j => HDone (SOk (ref_put Nat.eqb tab a ctx) j))
      end
    | _, HLeaf v => HDone (ser_scalar e t v tab)
    | _, _ => HDone SUndef
    end
  end.

(** serialize.hpp:33-39 *)
Definition heap_to_document (e : env) (h : heap) (depth : nat) (t : ty) (x : hval) : hres json := hser e h depth x t [] [].
