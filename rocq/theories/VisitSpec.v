(** Which values of a document are read, and as what; how many there are. *)
From Coq Require Import Arith String List.
From Verif Require Import Json Types SchemaGenSpec.
Import ListNotations.

(** The first member of that name, and where it is. *)
Definition first_member (l : list (string * json)) (name : string) (i : nat) (x : json) : Prop :=
  nth_error l i = Some (name, x) /\ forall i' x', i' < i -> nth_error l i' <> Some (name, x').

(** An object with a member "$ref", which is read as a reference if it is shared. *)
Definition reference (j : json) : Prop := exists l x, j = JObj l /\ In ("$ref"%string, x) l.

(** Reading document [j] as [t] takes the value at place [p] for a [u]: what is at the places is
    given by the type. *)
Inductive reads (e : env) : json -> ty -> list nat -> ty -> Prop :=
| reads_here : forall j t, reads e j t [] t
| reads_number : forall j k, reads e j (TEnumInt k) [] (TInt k)
| reads_vector : forall l u i x p w, nth_error l i = Some x -> reads e x u p w -> reads e (JArr l) (TVector u) (i :: p) w
| reads_set : forall l u i x p w, nth_error l i = Some x -> reads e x u p w -> reads e (JArr l) (TSet u) (i :: p) w
| reads_array : forall l u i x p w,
    nth_error l i = Some x -> reads e x u p w -> reads e (JArr l) (TArray (length l) u) (i :: p) w
| reads_pair : forall x y a b i z u p w,
    nth_error [x; y] i = Some z -> nth_error [a; b] i = Some u -> reads e z u p w ->
    reads e (JArr [x; y]) (TPair a b) (i :: p) w
| reads_tuple : forall l ts i x u p w,
    length l = length ts -> nth_error l i = Some x -> nth_error ts i = Some u -> reads e x u p w ->
    reads e (JArr l) (TTuple ts) (i :: p) w
| reads_map : forall l o u i key x p w,
    nth_error l i = Some (key, x) -> reads e x u p w -> reads e (JObj l) (TMap o u) (i :: p) w
| reads_member : forall l c m i x p w,
    In m (c_members (class_of e c)) -> first_member l (m_name m) i x -> reads e x (m_ty m) p w ->
    reads e (JObj l) (TClass c) (i :: p) w
| reads_alternative : forall j ts u p w, In u ts -> reads e j u p w -> reads e j (TVariant ts) p w
| reads_unique : forall j u p w, reads e j u p w -> reads e j (TUnique u) p w
| reads_shared : forall j u p w, ~ reference j -> reads e j u p w -> reads e j (TShared u) p w.

(** The number of values in a document. *)
Fixpoint values (j : json) : nat :=
  match j with
  | JArr l => S (list_sum (map values l))
  | JObj l => S (list_sum (map (fun p => values (snd p)) l))
  | _ => 1
  end.

(** The same, where a value counts [b] times as much as the one it is in. *)
Fixpoint weight (b : nat) (j : json) : nat :=
  match j with
  | JArr l => S (b * list_sum (map (weight b) l))
  | JObj l => S (b * list_sum (map (fun p => weight b (snd p)) l))
  | _ => 1
  end.

(** As how many types one value is read, at most, that is a [t]. *)
Fixpoint attempts (t : ty) : nat :=
  match t with
  | TEnumInt _ => 2
  | TVariant ts => S (list_sum (map attempts ts))
  | TUnique u | TShared u => S (attempts u)
  | _ => 1
  end.

(** How many of them have parts of their own. *)
Fixpoint branches (t : ty) : nat :=
  match t with
  | TVariant ts => list_sum (map branches ts)
  | TUnique u | TShared u => branches u
  | _ => 1
  end.

(** The members of every class have different names. *)
Definition distinct_members (e : env) : Prop := forall c, NoDup (map m_name (c_members (class_of e c))).

Definition no_shared (e : env) (t : ty) : Prop := forall u, ~ reachable e (TShared u) t.
