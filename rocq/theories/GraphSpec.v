(** Object graphs: values with shared pointers, seen as trees in which an address stands for
    an object. *)
From Coq Require Import List Arith ZArith NArith Ascii String Bool Permutation.
From Verif Require Import Base Json PathModel PathSpec Types DenoteSpec RoundSpec DocSpec.
Import ListNotations.

(** The addresses of shared objects in a value. *)
Fixpoint addresses (v : val) : list nat :=
  match v with
  | VList l | VObj l => flat_map addresses l
  | VMap l => flat_map (fun p => addresses (snd p)) l
  | VVariant _ x | VSome x | VPtr x => addresses x
  | VShared a x => a :: addresses x
  | _ => []
  end.

(** The same graph with other addresses. *)
Fixpoint rename (r : nat -> nat) (v : val) : val :=
  match v with
  | VList l => VList (map (rename r) l)
  | VObj l => VObj (map (rename r) l)
  | VMap l => VMap (map (fun p => (fst p, rename r (snd p))) l)
  | VVariant i x => VVariant i (rename r x)
  | VSome x => VSome (rename r x)
  | VPtr x => VPtr (rename r x)
  | VShared a x => VShared (r a) (rename r x)
  | v => v
  end.

(** [x] of type [u] is a component of [v] of type [t], or what it points to. *)
Inductive vpart (e : env) : ty -> val -> ty -> val -> Prop :=
| vpart_vector : forall u l x, In x l -> vpart e (TVector u) (VList l) u x
| vpart_array : forall n u l x, In x l -> vpart e (TArray n u) (VList l) u x
| vpart_set : forall u l x, In x l -> vpart e (TSet u) (VList l) u x
| vpart_pair : forall a b l i u x, nth_error [a; b] i = Some u -> nth_error l i = Some x -> vpart e (TPair a b) (VList l) u x
| vpart_tuple : forall ts l i u x, nth_error ts i = Some u -> nth_error l i = Some x -> vpart e (TTuple ts) (VList l) u x
| vpart_map : forall o u l k x, In (k, x) l -> vpart e (TMap o u) (VMap l) u x
| vpart_member : forall c l i m x, nth_error (c_members (class_of e c)) i = Some m -> nth_error l i = Some x -> m_kind m <> MOptional ->
    vpart e (TClass c) (VObj l) (m_ty m) x
| vpart_optional : forall c l i m x, nth_error (c_members (class_of e c)) i = Some m -> nth_error l i = Some (VSome x) -> m_kind m = MOptional ->
    vpart e (TClass c) (VObj l) (m_ty m) x
| vpart_variant : forall ts i u x, nth_error ts i = Some u -> vpart e (TVariant ts) (VVariant i x) u x
| vpart_unique : forall u x, vpart e (TUnique u) (VPtr x) u x
| vpart_shared : forall u a x, vpart e (TShared u) (VShared a x) u x.

Inductive occurs (e : env) : ty -> val -> ty -> val -> Prop :=
| occurs_here : forall t v, occurs e t v t v
| occurs_part : forall t v u x t' v', vpart e t v u x -> occurs e u x t' v' -> occurs e t v t' v'.

(** What a shared pointer may point to: its document must not look like a reference, and it
    must not be a shared pointer itself, directly or behind unique pointers
    or in variants. *)
Fixpoint pointee (e : env) (u : ty) (x : val) : Prop :=
  match u with
  | TUnique w => match x with VPtr y => pointee e w y | _ => False end
  | TShared _ => False
  | TClass c => ~ In "$ref"%string (map m_name (c_members (class_of e c)))
  | TVariant ts =>
    match x with
    | VVariant i y =>
      (fix pick (ts : list ty) (i : nat) {struct ts} : Prop :=
         match ts, i with
         | [], _ => False
         | w :: _, O => pointee e w y
         | _ :: ts', S k => pick ts' k
         end) ts i
    | _ => False
    end
  | TMap _ _ => match x with VMap l => ~ In "$ref"%string (map fst l) | _ => False end
  | _ => True
  end.

(** The value is part of the heap [H], in which the objects have the types [T]. References
    are paths, hence the conditions on keys and lengths, unless there is nothing shared; sets
    have no shared objects in them. *)
Record graph (e : env) (H : nat -> val) (T : nat -> ty) (t : ty) (v : val) : Prop := {
  heap_objects : forall u a x, occurs e t v (TShared u) (VShared a x) -> H a = x /\ T a = u;
  heap_pointees : forall u a x, occurs e t v (TShared u) (VShared a x) -> pointee e u x;
  heap_sets : forall u l, occurs e t v (TSet u) (VList l) -> addresses (VList l) = [];
  heap_keys : forall o u l k x, occurs e t v (TMap o u) (VMap l) -> In (k, x) l -> addresses x <> [] -> plain_step (Member k);
  heap_lengths : forall u l, occurs e t v u (VList l) -> addresses (VList l) <> [] -> (N.of_nat (List.length l) < 2 ^ 32 - 1)%N }.

(** The same without conditions on keys, lengths and the heap: nothing is written as a
    reference if no address occurs twice. *)
Record simple (e : env) (t : ty) (v : val) : Prop := {
  simple_pointees : forall u a x, occurs e t v (TShared u) (VShared a x) -> pointee e u x;
  simple_sets : forall u l, occurs e t v (TSet u) (VList l) -> addresses (VList l) = [] }.

(** Different objects of [v] stay different. *)
Definition distinct (r : nat -> nat) (v : val) : Prop :=
  forall a b, In a (addresses v) -> In b (addresses v) -> r a = r b -> a = b.

(** Names of members that need no escape in paths. *)
Definition printable (e : env) : Prop := forall c m, In m (c_members (class_of e c)) -> plain_step (Member (m_name m)).

(** Values without parts. *)
Definition scalar_value (v : val) : bool :=
  match v with
  | VNull | VBool _ | VInt _ | VFlt _ | VStr _ | VBytes _ | VTime _ | VDate _ => true
  | _ => false
  end.

(** The document of a value with shared pointers, at the place reached by [path]. [home] is the
    path under which an object has been written; a pointer at any other place is a reference.
    Objects without a home are written wherever they are. *)
Section Parts.
Variable D : ty -> val -> list step -> json -> Prop.

Inductive items_placed (u : ty) (path : list step) : nat -> list val -> list json -> Prop :=
| iplaced_nil : forall n, items_placed u path n [] []
| iplaced_cons : forall n x l j js, D u x (path ++ [Element n]) j -> items_placed u path (S n) l js -> items_placed u path n (x :: l) (j :: js).

Inductive parts_placed (path : list step) : nat -> list ty -> list val -> list json -> Prop :=
| pplaced_nil : forall n, parts_placed path n [] [] []
| pplaced_cons : forall n u ts x l j js, D u x (path ++ [Element n]) j -> parts_placed path (S n) ts l js ->
    parts_placed path n (u :: ts) (x :: l) (j :: js).

Inductive entries_placed (u : ty) (path : list step) : list (string * val) -> list (string * json) -> Prop :=
| eplaced_nil : entries_placed u path [] []
| eplaced_cons : forall k x l j js, D u x (path ++ [Member k]) j -> entries_placed u path l js ->
    entries_placed u path ((k, x) :: l) ((k, j) :: js).

Inductive members_placed (path : list step) : list member -> list val -> list (string * json) -> Prop :=
| mplaced_nil : members_placed path [] [] []
| mplaced_plain : forall m ms x l j js, m_kind m <> MOptional -> D (m_ty m) x (path ++ [Member (m_name m)]) j -> members_placed path ms l js ->
    members_placed path (m :: ms) (x :: l) ((m_name m, j) :: js)
| mplaced_some : forall m ms x l j js, m_kind m = MOptional -> D (m_ty m) x (path ++ [Member (m_name m)]) j -> members_placed path ms l js ->
    members_placed path (m :: ms) (VSome x :: l) ((m_name m, j) :: js)
| mplaced_none : forall m ms l js, m_kind m = MOptional -> members_placed path ms l js -> members_placed path (m :: ms) (VNone :: l) js.
End Parts.

Definition reference (path : list step) : json :=
  JObj [("$ref"%string, JStr (string_of_list_ascii (path_str (rev (map segment_of path)))))].

Inductive placed (e : env) (home : nat -> option (list step)) : ty -> val -> list step -> json -> Prop :=
| placed_scalar : forall t v path j, scalar_value v = true -> doc e t v j -> placed e home t v path j
| placed_vector : forall u l path js, string_pair u = false -> items_placed (placed e home) u path 0 l js -> placed e home (TVector u) (VList l) path (JArr js)
| placed_array : forall u l path js, items_placed (placed e home) u path 0 l js -> placed e home (TArray (List.length l) u) (VList l) path (JArr js)
(* there is nothing shared in sets *)
| placed_set : forall u l path js, Forall2 (fun x j => placed e home u x path j) l js -> placed e home (TSet u) (VList l) path (JArr js)
| placed_pair : forall a b l path js, parts_placed (placed e home) path 0 [a; b] l js -> placed e home (TPair a b) (VList l) path (JArr js)
| placed_tuple : forall ts l path js, parts_placed (placed e home) path 0 ts l js -> placed e home (TTuple ts) (VList l) path (JArr js)
| placed_map : forall (o : bool) u l l' path ps, (if o then l = l' else Permutation l l') -> entries_placed (placed e home) u path l' ps ->
    placed e home (TMap o u) (VMap l) path (JObj ps)
| placed_class : forall c l path ps, members_placed (placed e home) path (c_members (class_of e c)) l ps ->
    placed e home (TClass c) (VObj l) path (JObj ps)
| placed_unique : forall u x path j, placed e home u x path j -> placed e home (TUnique u) (VPtr x) path j
| placed_only : forall u a x path j, home a = None -> placed e home u x path j -> placed e home (TShared u) (VShared a x) path j
| placed_first : forall u a x path j, home a = Some path -> placed e home u x path j -> placed e home (TShared u) (VShared a x) path j
| placed_again : forall u a x path first, home a = Some first -> first <> path -> placed e home (TShared u) (VShared a x) path (reference first)
| placed_variant : forall ts i u x path j, nth_error ts i = Some u -> placed e home u x path j -> placed e home (TVariant ts) (VVariant i x) path j.

(** Nothing is shared. *)
Definition homeless (a : nat) : option (list step) := None.
