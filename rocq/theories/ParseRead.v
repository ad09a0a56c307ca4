(** The parser as a recursive function over the document: an intermediate between the event
    handlers of ParseModel.v and the properties. ParseProof.v shows that the handlers compute
    this function. *)
From Coq Require Import List Arith ZArith NArith Ascii String Bool.
From Verif Require Import Base Float NumericModel HashModel DispatchModel Json Events Types SerializeModel DeserializeModel ParseModel.
Import ListNotations.

(** [ROpen]: the value has been read but the handler has not been popped. *)
Inductive rres : Type :=
| RDone (v : val) (a : nat)
| ROpen (v : val) (a : nat)
| RFail
| ROver
| RUndef
| ROutside.

Definition rmap (f : val -> val) (x : rres) : rres :=
  match x with
  | RDone v a => RDone (f v) a
  | ROpen v a => ROpen (f v) a
  | x => x
  end.

(** The first event of a document. *)
Definition head (j : json) : event :=
  match j with
  | JNull => ENull
  | JBool b => EBool b
  | JInt z => EInt z
  | JDbl f => EDbl f
  | JStr s => EStr s
  | JArr _ => EStartArray
  | JObj _ => EStartObject
  end.

(** Reads a document given the handlers below, the type, the old value and the next free
    address. *)
Definition rdr := list nat -> ty -> val -> nat -> rres.

Section Read.
Variable e : env.
Variable fuel : nat.
Variable fits : capacity.

Fixpoint boxed (t : ty) (old : val) (a : nat) (k : val -> nat -> rres) : rres :=
  match t with
  | TUnique u => rmap VPtr (boxed u (vinit e u) a k)
  | TShared u => rmap (VShared a) (boxed u (vinit e u) (S a) k)
  | _ => k old a
  end.

Definition compiles (t : ty) : bool :=
  match core t with TVariant _ | TPtr _ => false | _ => true end.

(** A sub-object. *)
Definition ropen (below : list nat) (t : ty) (f : rdr) (old : val) (a : nat) : rres :=
  if compiles t then
    if fits below (size_of (KValue (core t))) then boxed t old a (f below (core t)) else ROver
  else ROutside.

Definition rmember (below : list nat) (m : member) (f : rdr) (old : val) (a : nat) : rres :=
  match m_kind m with
  | MOptional => rmap VSome (ropen below (m_ty m) f (vinit e (m_ty m)) a)
  | _ => ropen below (m_ty m) f old a
  end.

(** Nothing can follow a handler that has not been popped. *)
Definition andthen (x : rres) (k : val -> nat -> rres) : rres :=
  match x with
  | RDone v a => k v a
  | ROpen _ _ => RFail
  | x => x
  end.

Fixpoint ritems (u : ty) (below : list nat) (fs : list (event * rdr)) (acc : list val) (a : nat) : rres :=
  match fs with
  | [] => RDone (VList acc) a
  | (ev, f) :: fs' =>
    if is_json_type u ev then
      andthen (ropen below u f (vinit e u) a) (fun v a => ritems u below fs' (push_back acc v) a)
    else RFail
  end.

Fixpoint rfast (u : ty) (add : list val -> val -> list val) (evs : list event) (acc : list val) (a : nat) : rres :=
  match evs with
  | [] => RDone (VList acc) a
  | ev :: evs' => match scalar e u ev with SAssign v => rfast u add evs' (add acc v) a | _ => RFail end
  end.

Fixpoint rfixed (i : nat) (ts : list ty) (below : list nat) (fs : list (event * rdr)) (vs : list val) (a : nat) : rres :=
  match ts, fs with
  | [], [] => RDone (VList vs) a
  | t :: ts', (_, f) :: fs' =>
    if fits below (size_of (KFixed (S i) ts')) then
      andthen (ropen (size_of (KFixed (S i) ts') :: below) t f (nth i vs VIndet) a)
              (fun v a => rfixed (S i) ts' below fs' (set_nth vs i v) a)
    else ROver
  | _, _ => RFail
  end.

Fixpoint rentries (u : ty) (below : list nat) (fs : list (string * rdr)) (acc : list (string * val)) (a : nat) : rres :=
  match fs with
  | [] => RDone (VMap acc) a
  | (k, f) :: fs' =>
    let acc := try_emplace acc k (vinit e u) in
    andthen (ropen below u f (match map_find acc k with Some x => x | None => VIndet end) a)
            (fun v a => rentries u below fs' (map_replace acc k v) a)
  end.

Fixpoint rmembers (ms : list member) (below : list nat) (fs : list (string * rdr)) (vs : list val) (a : nat) : rres :=
  match fs with
  | [] => RDone (VObj vs) a
  | (k, f) :: fs' =>
    match dispatch fuel (map (fun m => list_ascii_of_string (m_name m)) ms) (list_ascii_of_string k) with
    | Ok (Some i) =>
      match nth_error ms i with
      | Some m => andthen (rmember below m f (nth i vs VIndet) a) (fun v a => rmembers ms below fs' (set_nth vs i v) a)
      | None => RUndef
      end
    | Ok None => RFail
    | _ => RUndef
    end
  end.

Definition replaced (below : list nat) (k : kind) (x : rres) : rres :=
  if fits below (size_of k) then x else ROver.

Definition pairs_of (v : val) : list (string * val) := match v with VMap l => l | _ => [] end.
Definition items_of (v : val) : list val := match v with VList l => l | _ => [] end.

Fixpoint pread (j : json) : rdr := fun below t old a =>
  let elems := match j with JArr l => map (fun x => (head x, pread x)) l | _ => [] end in
  let mems := match j with JObj l => map (fun p => (fst p, pread (snd p))) l | _ => [] end in
  match t with
  | TVector u =>
    match j with
    | JArr _ =>
      replaced below (KVector u)
        (if fast u then rfast u push_back (map fst elems) (items_of old) a
         else ritems u (size_of (KVector u) :: below) elems (items_of old) a)
    | _ => RFail
    end
  | TSet u =>
    match j with
    | JArr _ =>
      if fast u then replaced below (KFastSet u) (rfast u (set_insert (less e u)) (map fst elems) (items_of old) a)
      else
        replaced below (KSet u 0)
          (rmap (fun v => VList (fold_left (set_insert (less e u)) (items_of v) (items_of old)))
             (ritems u (size_of (KSet u 0) :: below) elems [] a))
    | _ => RFail
    end
  | TArray n u =>
    match j with
    | JArr _ => replaced below (KFixed 0 (repeat u n)) (rfixed 0 (repeat u n) below elems (items_of old) a)
    | _ => RFail
    end
  | TPair x y =>
    match j with
    | JArr _ => replaced below (KFixed 0 [x; y]) (rfixed 0 [x; y] below elems (items_of old) a)
    | _ => RFail
    end
  | TTuple ts =>
    match j with
    | JArr _ => replaced below (KFixed 0 ts) (rfixed 0 ts below elems (items_of old) a)
    | _ => RFail
    end
  | TMap _ u =>
    match j with
    | JObj _ => replaced below (KMap u) (rentries u (size_of (KMap u) :: below) mems (pairs_of old) a)
    | _ => RFail
    end
  | TClass c =>
    match j with
    | JObj _ =>
      replaced below (KObject c)
        (rmembers (c_members (class_of e c)) (size_of (KObject c) :: below) mems (parts_of old) a)
    | _ => RFail
    end
  | TVariant _ | TPtr _ | TUnique _ | TShared _ => ROutside
  | _ =>
    match scalar e t (head j) with
    | SAssign v => RDone v a
    | SStay v => ROpen v a
    | SReject | SRejectAssign _ => RFail
    | SUndefined => RUndef
    end
  end.
End Read.
