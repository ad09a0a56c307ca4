(** Which values the parser should give: the counterpart of DenoteSpec.v for the SAX parser,
    which reads into objects that exist and merges documents into them. Written down without
    reference to events, handlers and stacks. Variants, shared and raw pointers are left out. *)
From Coq Require Import List Arith ZArith NArith Ascii String Bool.
From Verif Require Import Base Float NumericModel NumericSpec HashModel Json Types DenoteSpec ParseSpec.
Import ListNotations.
Local Open Scope Z_scope.

Definition scalar_type (t : ty) : bool :=
  match t with
  | TNull | TBool | TInt _ | TFloat | TDouble | TString | TBytes | TTime | TDate | TEnumInt _ | TEnumStr _ => true
  | _ => false
  end.

(** At most the largest finite float. *)
Definition float_range (f : fl) : Prop :=
  is_finite f = true /\ within binary32 (Z.min (expo f) 104) f.

(** Integers beyond 64 bits are doubles to the JSON reader. *)
Definition beyond_64 (z : Z) : Prop := ~ (- 2 ^ 63 <= z < 2 ^ 64).

(** Numbers accepted for floating-point types: integers that the type can count up to, and
    doubles in the range of the type. *)
Definition exact_number (t : ty) (j : json) : Prop :=
  match t, j with
  | TFloat, JInt z => Z.abs z < 2 ^ 24 \/ (beyond_64 z /\ float_range (Float.round binary64 (fl_of_Z z)))
  | TFloat, JDbl f => float_range f
  | TDouble, JInt z => Z.abs z < 2 ^ 53 \/ beyond_64 z
  | _, _ => True
  end.

(** Behind unique pointers. *)
Fixpoint behind (t : ty) : ty := match t with TUnique u => behind u | _ => t end.

(** The handler of such an enumeration never finishes. *)
Definition unfinished (t : ty) : bool := match behind t with TEnumStr _ => true | _ => false end.

(** Numbers for which vectors and sets have no special parser: one byte, enumerations, and
    all numbers behind pointers. *)
Definition odd_number (t : ty) : bool :=
  match t with
  | TInt k => Z.eqb (width k) 8
  | TEnumInt _ => true
  | TUnique u => match behind u with TInt _ | TFloat | TDouble | TEnumInt _ => true | _ => false end
  | _ => false
  end.

(** An array can be read into a vector or set of such elements. *)
Definition element (t : ty) : bool := negb (unfinished t) && negb (odd_number t).

Section Parts.
Variable R : ty -> val -> json -> val -> Prop.
Variable e : env.

Fixpoint entry (m : list (string * val)) (k : string) : option val :=
  match m with
  | [] => None
  | (n, v) :: m' => if String.eqb n k then Some v else entry m' k
  end.

Fixpoint change (m : list (string * val)) (k : string) (w : val) : list (string * val) :=
  match m with
  | [] => []
  | (n, v) :: m' => if String.eqb n k then (n, w) :: m' else (n, v) :: change m' k w
  end.

(** The entries of a document in turn: an entry that exists is read into, otherwise a new
    one is added. *)
Inductive entries_merge (u : ty) : list (string * json) -> list (string * val) -> list (string * val) -> Prop :=
| entries_nil : forall m, entries_merge u [] m m
| entries_old : forall k j l m x v m', entry m k = Some x -> R u x j v ->
    entries_merge u l (change m k v) m' -> entries_merge u ((k, j) :: l) m m'
| entries_new : forall k j l m v m', entry m k = None -> R u (vinit e u) j v ->
    entries_merge u l (map_assign m k v) m' -> entries_merge u ((k, j) :: l) m m'.

Definition with_item (l : list val) (i : nat) (w : val) : list val := firstn i l ++ w :: skipn (S i) l.

(** The members in a document in turn. *)
Inductive members_merge (ms : list member) : list (string * json) -> list val -> list val -> Prop :=
| merge_nil : forall vs, members_merge ms [] vs vs
| merge_plain : forall i m j l vs v vs', nth_error ms i = Some m -> m_kind m <> MOptional -> unfinished (m_ty m) = false ->
    R (m_ty m) (nth i vs VIndet) j v -> members_merge ms l (with_item vs i v) vs' ->
    members_merge ms ((m_name m, j) :: l) vs vs'
| merge_optional : forall i m j l vs v vs', nth_error ms i = Some m -> m_kind m = MOptional -> unfinished (m_ty m) = false ->
    R (m_ty m) (vinit e (m_ty m)) j v -> members_merge ms l (with_item vs i (VSome v)) vs' ->
    members_merge ms ((m_name m, j) :: l) vs vs'.
End Parts.

Definition finished (ts : list ty) : bool := forallb (fun t => negb (unfinished t)) ts.

(** The components of an object that held [old]. *)
Definition entries_of (old : val) : list (string * val) := match old with VMap m => m | _ => [] end.

(** The document [j], parsed into an object of type [t] that holds [old], gives [v]. *)
Inductive merges (e : env) : ty -> val -> json -> val -> Prop :=
| merges_scalar : forall t old j v, scalar_type t = true -> exact_number t j -> denotes e t old j v -> merges e t old j v
| merges_vector : forall u old js vs, js = [] \/ element u = true -> Forall2 (merges e u (vinit e u)) js vs ->
    merges e (TVector u) old (JArr js) (VList (components old ++ vs))
| merges_set : forall u old js vs, js = [] \/ element u = true -> Forall2 (merges e u (vinit e u)) js vs ->
    merges e (TSet u) old (JArr js) (VList (fold_left (set_insert (less e u)) vs (components old)))
| merges_array : forall n u old js vs, finished (repeat u n) = true ->
    parts_denote (merges e) (repeat u n) (components old) js vs -> merges e (TArray n u) old (JArr js) (VList vs)
| merges_pair : forall a b old js vs, finished [a; b] = true ->
    parts_denote (merges e) [a; b] (components old) js vs -> merges e (TPair a b) old (JArr js) (VList vs)
| merges_tuple : forall ts old js vs, finished ts = true ->
    parts_denote (merges e) ts (components old) js vs -> merges e (TTuple ts) old (JArr js) (VList vs)
| merges_map : forall o u old l m, l = [] \/ unfinished u = false -> entries_merge (merges e) e u l (entries_of old) m ->
    merges e (TMap o u) old (JObj l) (VMap m)
| merges_class : forall c old l vs, members_merge (merges e) e (c_members (class_of e c)) l (components old) vs ->
    merges e (TClass c) old (JObj l) (VObj vs)
| merges_unique : forall u old j v, merges e u (vinit e u) j v -> merges e (TUnique u) old j (VPtr v).

(** What the parser needs of the classes of a program: distinct names of members, and tables
    that the compiler could construct. *)
Definition routed (e : env) (fuel : nat) : Prop :=
  (N.of_nat fuel < 2 ^ 63)%N /\ forall c, let ms := c_members (class_of e c) in
  NoDup (map m_name ms) /\ (N.of_nat (List.length ms) <= 2 ^ 63)%N /\
  ((3 <= List.length ms)%nat -> exists table, build fuel (map (fun m => list_ascii_of_string (m_name m)) ms) = Ok table).

(** The programs of the theorems. *)
Definition supported (e : env) (fuel : nat) : Prop := ordinary e /\ shaped_classes e /\ routed e fuel.

(** [j'] of type [u] is a component of [j] of type [t]. *)
Inductive part (e : env) : ty -> json -> ty -> json -> Prop :=
| part_vector : forall u js j, In j js -> part e (TVector u) (JArr js) u j
| part_set : forall u js j, In j js -> part e (TSet u) (JArr js) u j
| part_array : forall n u js j, In j js -> part e (TArray n u) (JArr js) u j
| part_pair : forall a b js i u j, nth_error [a; b] i = Some u -> nth_error js i = Some j -> part e (TPair a b) (JArr js) u j
| part_tuple : forall ts js i u j, nth_error ts i = Some u -> nth_error js i = Some j -> part e (TTuple ts) (JArr js) u j
| part_map : forall o u l k j, In (k, j) l -> part e (TMap o u) (JObj l) u j
| part_member : forall c l m j, In m (c_members (class_of e c)) -> In (m_name m, j) l -> part e (TClass c) (JObj l) (m_ty m) j.

(** Reading [j] as [t] means to read [j'], which is somewhere in [j], as [t']. *)
Inductive reads_at (e : env) : ty -> json -> ty -> json -> Prop :=
| at_here : forall t j, reads_at e t j t j
| at_pointer : forall u j t' j', reads_at e u j t' j' -> reads_at e (TUnique u) j t' j'
| at_part : forall t j u j1 t' j', part e t j u j1 -> reads_at e u j1 t' j' -> reads_at e t j t' j'.

(** The same document except that objects have only some of the members. *)
Inductive fewer : json -> json -> Prop :=
| fewer_scalar : forall j, match j with JArr _ | JObj _ => False | _ => True end -> fewer j j
| fewer_array : forall js js', Forall2 fewer js js' -> fewer (JArr js) (JArr js')
| fewer_object : forall l l', Forall (fun q => Exists (fun p => fst p = fst q /\ fewer (snd p) (snd q)) l) l' ->
    fewer (JObj l) (JObj l').

(** Types whose values are replaced as a whole. *)
Inductive replacing : ty -> Prop :=
| replacing_scalar : forall t, scalar_type t = true -> replacing t
| replacing_unique : forall t, replacing (TUnique t)
| replacing_array : forall n t, replacing t -> replacing (TArray n t)
| replacing_pair : forall a b, replacing a -> replacing b -> replacing (TPair a b)
| replacing_tuple : forall ts, Forall replacing ts -> replacing (TTuple ts).

(** The types that the parser can read from all of their documents: no variants, shared or
    raw pointers, no string enumerations as parts of anything, no vectors or sets of odd
    numbers. *)
Fixpoint parser_type (t : ty) : bool :=
  match t with
  | TVector u | TSet u => element u && parser_type u
  | TArray _ u | TMap _ u => negb (unfinished u) && parser_type u
  | TPair a b => negb (unfinished a) && parser_type a && (negb (unfinished b) && parser_type b)
  | TTuple ts => forallb (fun u => negb (unfinished u) && parser_type u) ts
  | TUnique u => parser_type u
  | TVariant _ | TShared _ | TPtr _ => false
  | _ => true
  end.

Definition parser_classes (e : env) : Prop :=
  forall c, forallb (fun m => negb (unfinished (m_ty m)) && parser_type (m_ty m)) (c_members (class_of e c)) = true.
