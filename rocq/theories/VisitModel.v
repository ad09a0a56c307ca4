(** The deserializers of DeserializeModel, which also keep a record of the calls of deserializers
    that they make. *)
From Coq Require Import List Arith ZArith NArith Ascii String Bool.
From Verif Require Import Base Json PathModel Types SerializeModel DeserializeModel.
Import ListNotations.

(** A call of JsonDeserializer<Exception, T>::operator() (deserialize.hpp:20-25): the place of the
    value in the document and the type [T]. *)
Definition call := (list nat * ty)%type.

(** A deserializer with the calls that it makes, in the order in which it makes them. *)
Definition treader := val -> list segment -> list nat -> dstate -> dres * list call.

Definition called {A} (c : list call) (x : A * list call) : A * list call := (fst x, c ++ snd x).

(** deserialize_vector.hpp:21-32 and deserialize_set.hpp:21-32 *)
Fixpoint t_items (init : val) (add : list val -> val -> list val) (fs : list treader) (k : nat)
  (acc : list val) (ctx : list segment) (loc : list nat) (st : dstate) : dres * list call :=
  match fs with
  | [] => (DRet true st (VList acc), [])
  | f :: fs' =>
    match f init (at_index ctx (N.of_nat k)) (loc ++ [k]) st with
    | (DRet true st x, c) => called c (t_items init add fs' (S k) (add acc x) ctx loc st)
    | (DRet false st _, c) => (DRet false st (VList acc), c)
    | x => x
    end
  end.

(** deserialize_array.hpp:24-36 *)
Definition t_array (init old : val) (fs : list treader) (ctx : list segment) (loc : list nat) (st : dstate)
  : dres * list call :=
  match t_items init push_back fs 0 [] ctx loc st with
  | (DRet false st _, c) => (DRet false st old, c)
  | x => x
  end.

(** deserialize_tuple.hpp:27-41 *)
Fixpoint t_tuple (fs : list treader) (k : nat) (olds : list val) (ctx : list segment) (loc : list nat)
  (st : dstate) : (bool * list val * option dres * dstate) * list call :=
  match fs with
  | [] => ((true, [], None, st), [])
  | f :: fs' =>
    match f (hd VIndet olds) (at_index ctx (N.of_nat k)) (loc ++ [k]) st with
    | (DRet true st x, c) =>
      let '((ok, l, stop, st), c') := t_tuple fs' (S k) (tl olds) ctx loc st in ((ok, x :: l, stop, st), c ++ c')
    | (DRet false st x, c) => ((false, x :: tl olds, None, st), c)
    | (r, c) => ((false, [], Some r, st), c)
    end
  end.

(** deserialize_map.hpp:23-31 *)
Fixpoint t_entries (init : val) (fs : list (string * treader)) (k : nat) (acc : list (string * val))
  (ctx : list segment) (loc : list nat) (st : dstate) : dres * list call :=
  match fs with
  | [] => (DRet true st (VMap acc), [])
  | (name, f) :: fs' =>
    match f init (at_name ctx name) (loc ++ [k]) st with
    | (DRet true st x, c) => called c (t_entries init fs' (S k) (map_assign acc (c_string name) x) ctx loc st)
    | (DRet false st _, c) => (DRet false st (VMap acc), c)
    | x => x
    end
  end.

(** deserialize_variant.hpp:18-42 *)
Fixpoint t_variant (fs : list (val * treader)) (i : nat) (ctx : list segment) (loc : list nat) (st : dstate)
  : (option (nat * val) * option dres * dstate) * list call :=
  match fs with
  | [] => ((None, None, st), [])
  | (init, f) :: fs' =>
    match f init ctx loc st with
    | (DRet true st x, c) => ((Some (i, x), None, st), c)
    | (DRet false st _, c) => called c (t_variant fs' (S i) ctx loc st)
    | (r, c) => ((None, Some r, st), c)
    end
  end.

(** deserialize_object.hpp:31-82 *)
Definition t_member (e : env) (exc : bool) (fs : list (string * (bool -> ty -> treader))) (m : member)
  (flag : bool) (old : val) (ctx : list segment) (loc : list nat) (st : dstate) : dres * list call :=
  match find_fun fs 0 (m_name m), m_kind m with
  | Some (k, f), MOptional =>
    match f exc (m_ty m) (dinit e (m_ty m)) (at_name ctx (m_name m)) (loc ++ [k]) st with
    | (DRet ok st x, c) => (DRet ok st (VSome x), c)
    | x => x
    end
  | None, MOptional => (DRet flag st VNone, [])
  | Some (k, f), _ => f exc (m_ty m) old (at_name ctx (m_name m)) (loc ++ [k]) st
  | None, MRequired => ((if exc then DThrow (MissingProperty (m_name m)) ctx else DRet false st old), [])
  | None, MDefault => (DRet flag st old, [])
  end.

Fixpoint t_members (e : env) (exc : bool) (fs : list (string * (bool -> ty -> treader))) (ms : list member)
  (root : nat) (seen flag : bool) (olds : list val) (ctx : list segment) (loc : list nat) (st : dstate)
  : (bool * list val * option dres * dstate) * list call :=
  match ms with
  | [] => ((seen, [], None, st), [])
  | m :: ms' =>
    match t_member e exc fs m flag (hd VIndet olds) ctx loc st with
    | (DRet ok st x, c) =>
      let '((seen, l, stop, st), c') :=
        match root with
        | O => t_members e exc fs ms' O seen ok (tl olds) ctx loc st
        | S r => t_members e exc fs ms' r ok ok (tl olds) ctx loc st
        end in
      ((seen, x :: l, stop, st), c ++ c')
    | (r, c) => ((false, [], Some r, st), c)
    end
  end.

(** deserialize_enum.hpp:17-28 reads the number as the underlying type; all other types without
    parts make no call. *)
Definition t_scalar (e : env) (exc : bool) (t : ty) (j : json) : treader := fun old ctx loc st =>
  (read_scalar e exc t j old ctx loc st, match t with TEnumInt k => [(loc, TInt k)] | _ => [] end).

(** The deserializers of all types. *)
Fixpoint traced (e : env) (root : json) (j : json) {struct j} : bool -> ty -> treader :=
  let elems := match j with JArr l => map (traced e root) l | _ => [] end in
  let mems := match j with JObj l => map (fun p => (fst p, traced e root (snd p))) l | _ => [] end in
  fix go (exc : bool) (t : ty) {struct t} : treader := fun old ctx loc st =>
  called [(loc, t)]
  match t with
  | TVector u =>
    match j with
    | JArr _ => t_items (dinit e u) push_back (map (fun f => f exc u) elems) 0 [] ctx loc st
    | _ => (reject exc (WrongType "array") old ctx st, [])
    end
  | TSet u =>
    match j with
    | JArr _ => t_items (dinit e u) (set_insert (less e u)) (map (fun f => f exc u) elems) 0 [] ctx loc st
    | _ => (reject exc (WrongType "array") old ctx st, [])
    end
  | TArray n u =>
    match j with
    | JArr l =>
      if negb (Nat.eqb (List.length l) n) then (reject exc (WrongSize n (List.length l)) old ctx st, [])
      else t_array (dinit e u) old (map (fun f => f exc u) elems) ctx loc st
    | _ => (reject exc (WrongType "array") old ctx st, [])
    end
  | TMap _ u =>
    match j with
    | JObj _ => t_entries (dinit e u) (map (fun p => (fst p, snd p exc u)) mems) 0 [] ctx loc st
    | _ => (reject exc (WrongType "object") old ctx st, [])
    end
  | TPair a b =>
    match j with
    | JArr l =>
      match apply_types (map (fun f => f exc) elems) [a; b] with
      | None => (reject exc (WrongSize 2 (List.length l)) old ctx st, [])
      | Some fs => let (x, c) := t_tuple fs 0 (parts_of old) ctx loc st in (finish_tuple x, c)
      end
    | _ => (reject exc (WrongType "array") old ctx st, [])
    end
  | TTuple ts =>
    match j with
    | JArr l =>
      match apply_types (map (fun f => f exc) elems) ts with
      | None => (reject exc (WrongSize (List.length ts) (List.length l)) old ctx st, [])
      | Some fs => let (x, c) := t_tuple fs 0 (parts_of old) ctx loc st in (finish_tuple x, c)
      end
    | _ => (reject exc (WrongType "array") old ctx st, [])
    end
  | TVariant ts =>
    match t_variant (map (fun u => (dinit e u, go false u)) ts) 0 ctx loc st with
    | ((Some (i, x), _, st), c) => (DRet true st (VVariant i x), c)
    | ((None, Some r, _), c) => (r, c)
    | ((None, None, st), c) => (reject exc NoAlternative old ctx st, c)
    end
  | TClass c =>
    match j with
    | JObj _ =>
      let (x, calls) := t_members e exc mems (c_members (class_of e c)) (c_root (class_of e c)) true true
                          (parts_of old) ctx loc st in
      (finish_object x, calls)
    | _ => (reject exc (WrongType "object") old ctx st, [])
    end
  | TUnique u =>
    match go exc u (vinit e u) ctx loc st with
    | (DRet true st x, c) => (DRet true st (VPtr x), c)
    | (DRet false st _, c) => (DRet false st old, c)
    | x => x
    end
  | TShared u =>
    match (match j with JObj l => find_member l "$ref" | _ => None end) with
    | Some target => (read_ref root u target old st, [])
    | None =>
      let (r, c) := go exc u (vinit e u) ctx loc (new_address st) in
      (register_shared u loc (next_address st) r, c)
    end
  | TPtr _ => (DOutside, [])
  | _ => t_scalar e exc t j old ctx loc st
  end.

(** The calls made by deserialize (deserialize.hpp:31-59), if it throws on errors or not, for an
    object [obj]. *)
Definition calls (e : env) (exc : bool) (t : ty) (j : json) (obj : val) : list call :=
  snd (traced e j j exc t obj [] [] start).
