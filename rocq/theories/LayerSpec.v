(** One document on top of another: what is read if both are read into the same object. *)
From Coq Require Import List Arith String Bool.
From Verif Require Import Base Json Types.
Import ListNotations.

(** The member of this name that is read into its old content. *)
Definition reread (ms : list member) (name : string) : option ty :=
  match find (fun m => String.eqb (m_name m) name) ms with
  | Some m => match m_kind m with MOptional => None | _ => Some (m_ty m) end
  | None => None
  end.

(** The members that keep their content if the upper document does not have them. *)
Definition kept_below (ms : list member) (above : list (string * json)) (name : string) : bool :=
  match find_member above name with Some _ => false | None => true end &&
  existsb (fun m => String.eqb (m_name m) name && match m_kind m with MDefault => true | _ => false end) ms.

(** The components of pairs and tuples one by one. *)
Fixpoint each (above : list (json * (ty -> json -> json))) (ts : list ty) (below : list json) : list json :=
  match above, ts, below with
  | (_, f) :: above', t :: ts', b :: below' => f t b :: each above' ts' below'
  | _, _, _ => map fst above
  end.

(** [above] on top of [below] as documents of type [t]: objects of classes take the members
    with a default that only [below] has, and so on in members and components that both have;
    anything else is [above]. *)
Fixpoint overlay (e : env) (above : json) : ty -> json -> json :=
  match above with
  | JObj l => fun t below =>
    match t, below with
    | TClass c, JObj l' =>
      JObj (map (fun p => (fst p,
              match reread (c_members (class_of e c)) (fst p), find_member l' (fst p) with
              | Some u, Some b => overlay e (snd p) u b
              | _, _ => snd p
              end)) l ++
            filter (fun p => kept_below (c_members (class_of e c)) l (fst p)) l')
    | _, _ => above
    end
  | JArr js => fun t below =>
    match t, below with
    | TPair a b, JArr js' => JArr (each (map (fun j => (j, overlay e j)) js) [a; b] js')
    | TTuple ts, JArr js' => JArr (each (map (fun j => (j, overlay e j)) js) ts js')
    | _, _ => above
    end
  | _ => fun _ _ => above
  end.

(** A [u] at a place in a [t] that the parser reads into as it is, instead of making a new
    object first: not behind unique pointers, in optional members, or in vectors and sets. *)
Inductive standing (e : env) (u : ty) : ty -> Prop :=
| standing_here : standing e u u
| standing_array : forall n t, standing e u t -> standing e u (TArray n t)
| standing_map : forall o t, standing e u t -> standing e u (TMap o t)
| standing_pair : forall a b t, In t [a; b] -> standing e u t -> standing e u (TPair a b)
| standing_tuple : forall ts t, In t ts -> standing e u t -> standing e u (TTuple ts)
| standing_member : forall c m, In m (c_members (class_of e c)) -> m_kind m <> MOptional -> standing e u (m_ty m) -> standing e u (TClass c).

(** No vector or set to which a document is added. *)
Definition overwritten (e : env) (t : ty) : Prop := forall u, ~ standing e (TVector u) t /\ ~ standing e (TSet u) t.

(** No object in the document has two members of one name. *)
Inductive tidy : json -> Prop :=
| tidy_scalar : forall j, (forall l, j <> JArr l) -> (forall l, j <> JObj l) -> tidy j
| tidy_array : forall l, Forall tidy l -> tidy (JArr l)
| tidy_object : forall l, NoDup (map fst l) -> Forall (fun p => tidy (snd p)) l -> tidy (JObj l).
