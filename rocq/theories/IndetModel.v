(** The deserializers of DeserializeModel, which notice when they copy or move a variable whose
    value is indeterminate, which is undefined behaviour (C++17 [dcl.init]/12). The local
    variables of the deserializers are default-initialised (T item;), so that scalars in them
    have no value until one is read. *)
From Coq Require Import List Arith ZArith NArith Ascii String Bool.
From Verif Require Import Base NumericModel Json PathModel Types SerializeModel DeserializeModel.
Import ListNotations.

(** The implicit copy and move operations of classes, pairs, tuples and arrays copy or move each
    component; those of variants and optionals what is there; those of strings, containers and
    smart pointers leave the elements where they are. A single unsigned char may be copied
    without a value. A date without a value ([VIndet]) counts as indeterminate, although
    std::chrono::year_month_day() is zero. *)
Fixpoint determinate (e : env) (v : val) (t : ty) {struct v} : bool :=
  let each := fix each (vs : list val) (ts : list ty) {struct vs} : bool :=
    match vs, ts with
    | x :: vs', u :: ts' => determinate e x u && each vs' ts'
    | _, _ => true
    end in
  match v, t with
  | VIndet, TInt k => Z.eqb (width k) 8 && negb (is_signed k)
  | VIndet, (TBool | TEnumInt _ | TEnumStr _ | TFloat | TDouble | TDate | TPtr _) => false
  | VList l, TArray _ u => forallb (fun x => determinate e x u) l
  | VList l, TPair a b => each l [a; b]
  | VList l, TTuple ts => each l ts
  | VVariant i x, TVariant ts => match nth_error ts i with Some u => determinate e x u | None => true end
  | VObj l, TClass c => each l (map m_ty (c_members (class_of e c)))
  | VSome x, _ => determinate e x t
  | _, _ => true
  end.

(** A reader whose result is moved if it has succeeded: deserialize_vector.hpp:26-29,
    deserialize_set.hpp:26-29, deserialize_map.hpp:27-30, deserialize_array.hpp:30-33,
    deserialize_variant.hpp:36-40. *)
Definition moving (e : env) (u : ty) (f : reader) : reader := fun old ctx loc st =>
  match f old ctx loc st with
  | DRet true st x => if determinate e x u then DRet true st x else DUndef
  | r => r
  end.

(** deserialize_object.hpp:31-82: the value of an optional member is moved in any case (42). *)
Definition m_member (e : env) (exc : bool) (fs : list (string * (bool -> ty -> reader))) (m : member)
  (flag : bool) (old : val) (ctx : list segment) (loc : list nat) (st : dstate) : dres :=
  match find_fun fs 0 (m_name m), m_kind m with
  | Some (k, f), MOptional =>
    match f exc (m_ty m) (dinit e (m_ty m)) (at_name ctx (m_name m)) (loc ++ [k]) st with
    | DRet ok st x => if determinate e x (m_ty m) then DRet ok st (VSome x) else DUndef
    | r => r
    end
  | None, MOptional => DRet flag st VNone
  | Some (k, f), _ => f exc (m_ty m) old (at_name ctx (m_name m)) (loc ++ [k]) st
  | None, MRequired => if exc then DThrow (MissingProperty (m_name m)) ctx else DRet false st old
  | None, MDefault => DRet flag st old
  end.

Fixpoint m_members (e : env) (exc : bool) (fs : list (string * (bool -> ty -> reader))) (ms : list member)
  (root : nat) (seen flag : bool) (olds : list val) (ctx : list segment) (loc : list nat) (st : dstate)
  : bool * list val * option dres * dstate :=
  match ms with
  | [] => (seen, [], None, st)
  | m :: ms' =>
    match m_member e exc fs m flag (hd VIndet olds) ctx loc st with
    | DRet ok st x =>
      let '(seen, l, stop, st) :=
        match root with
        | O => m_members e exc fs ms' O seen ok (tl olds) ctx loc st
        | S r => m_members e exc fs ms' r ok ok (tl olds) ctx loc st
        end in
      (seen, x :: l, stop, st)
    | r => (false, [], Some r, st)
    end
  end.

(** The deserializers of all types, as [deser]. *)
Fixpoint mdeser (e : env) (root : json) (j : json) {struct j} : bool -> ty -> reader :=
  let elems := match j with JArr l => map (mdeser e root) l | _ => [] end in
  let mems := match j with JObj l => map (fun p => (fst p, mdeser e root (snd p))) l | _ => [] end in
  fix go (exc : bool) (t : ty) {struct t} : reader := fun old ctx loc st =>
  match t with
  | TVector u =>
    match j with
    | JArr _ => read_items (dinit e u) push_back (map (fun f => moving e u (f exc u)) elems) 0 [] ctx loc st
    | _ => reject exc (WrongType "array") old ctx st
    end
  | TSet u =>
    match j with
    | JArr _ => read_items (dinit e u) (set_insert (less e u)) (map (fun f => moving e u (f exc u)) elems) 0 [] ctx loc st
    | _ => reject exc (WrongType "array") old ctx st
    end
  (* the elements of the temporary array have all been checked when it is moved (line 35) *)
  | TArray n u =>
    match j with
    | JArr l =>
      if negb (Nat.eqb (List.length l) n) then reject exc (WrongSize n (List.length l)) old ctx st
      else read_array (dinit e u) old (map (fun f => moving e u (f exc u)) elems) ctx loc st
    | _ => reject exc (WrongType "array") old ctx st
    end
  | TMap _ u =>
    match j with
    | JObj _ => read_entries (dinit e u) (map (fun p => (fst p, moving e u (snd p exc u))) mems) 0 [] ctx loc st
    | _ => reject exc (WrongType "object") old ctx st
    end
  | TPair a b =>
    match j with
    | JArr l =>
      match apply_types (map (fun f => f exc) elems) [a; b] with
      | None => reject exc (WrongSize 2 (List.length l)) old ctx st
      | Some fs => finish_tuple (read_tuple fs 0 (parts_of old) ctx loc st)
      end
    | _ => reject exc (WrongType "array") old ctx st
    end
  | TTuple ts =>
    match j with
    | JArr l =>
      match apply_types (map (fun f => f exc) elems) ts with
      | None => reject exc (WrongSize (List.length ts) (List.length l)) old ctx st
      | Some fs => finish_tuple (read_tuple fs 0 (parts_of old) ctx loc st)
      end
    | _ => reject exc (WrongType "array") old ctx st
    end
  | TVariant ts =>
    match read_variant (map (fun u => (dinit e u, moving e u (go false u))) ts) 0 ctx loc st with
    | (Some (i, x), _, st) => DRet true st (VVariant i x)
    | (None, Some r, _) => r
    | (None, None, st) => reject exc NoAlternative old ctx st
    end
  | TClass c =>
    match j with
    | JObj _ =>
      finish_object (m_members e exc mems (c_members (class_of e c)) (c_root (class_of e c)) true true
                       (parts_of old) ctx loc st)
    | _ => reject exc (WrongType "object") old ctx st
    end
  (* deserialize_pointer.hpp:21-30: only the pointer is swapped *)
  | TUnique u =>
    match go exc u (vinit e u) ctx loc st with
    | DRet true st x => DRet true st (VPtr x)
    | DRet false st _ => DRet false st old
    | r => r
    end
  (* deserialize_pointer.hpp:38-66 *)
  | TShared u =>
    match (match j with JObj l => find_member l "$ref" | _ => None end) with
    | Some target => read_ref root u target old st
    | None => register_shared u loc (next_address st) (go exc u (vinit e u) ctx loc (new_address st))
    end
  | TPtr _ => DOutside
  | _ => read_scalar e exc t j old ctx loc st
  end.

(** deserialize.hpp:31-41 *)
Definition m_deserialize (e : env) (t : ty) (j : json) (obj : val) : dres := mdeser e j j false t obj [] [] start.

(** deserialize.hpp:46-59. Whether the object is moved when it is returned (58) is up to the
    compiler; [moved] says that it is. *)
Definition m_deserialize_throw (moved : bool) (e : env) (t : ty) (j : json) : tres :=
  match mdeser e j j true t (dinit e t) [] [] start with
  | DRet _ _ v => if moved && negb (determinate e v t) then TUndef else Returned v
  | DThrow why segments => Threw why (path_str segments)
  | DUndef => TUndef
  | DOutside => TOutside
  end.
