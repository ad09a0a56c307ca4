(** What the properties of the writer say. *)
From Coq Require Import List Bool Permutation.
From Verif Require Import Float Types Events.
Import ListNotations.

(** No class uses inheritance as far as the result flag goes: all members are visited by the
    original archive. *)
Definition no_bases (e : env) : Prop := forall c, List.length (c_members (class_of e c)) <= c_root (class_of e c).

(** Every floating-point number in the value is finite. *)
Fixpoint finite (v : val) : bool :=
  match v with
  | VFlt f => is_finite f
  | VList l | VObj l => forallb finite l
  | VMap l => forallb (fun p => finite (snd p)) l
  | VVariant _ x | VSome x | VPtr x | VShared _ x => finite x
  | _ => true
  end.

(** Every floating-point number that is not inside an object of a class is finite. *)
Fixpoint finite_outside (v : val) : bool :=
  match v with
  | VFlt f => is_finite f
  | VObj _ => true
  | VList l => forallb finite_outside l
  | VMap l => forallb (fun p => finite_outside (snd p)) l
  | VVariant _ x | VSome x | VPtr x | VShared _ x => finite_outside x
  | _ => true
  end.

(** The value is a view of one heap [H]: an address determines the object it points to. *)
Fixpoint in_heap (H : nat -> val) (v : val) : Prop :=
  match v with
  | VList l | VObj l => fold_right (fun x P => in_heap H x /\ P) True l
  | VMap l => fold_right (fun p P => in_heap H (snd p) /\ P) True l
  | VVariant _ x | VSome x | VPtr x => in_heap H x
  | VShared a x => x = H a /\ in_heap H x
  | _ => True
  end.

(** An unordered map is iterated over completely, each entry once. *)
Definition fair (e : env) : Prop :=
  forall keys, Permutation (iteration e keys) (seq 0 (List.length keys)).

(** The member is written to the document: not empty, and no non-finite number in it outside
    a further object. *)
Definition written (v : val) : bool :=
  match v with
  | VNone => false
  | VSome x => finite_outside x
  | _ => finite_outside v
  end.

(** The grammar of JSON: what may come next, at the top and in the arrays and objects that
    are open. *)
Inductive frame : Type :=
| FTop      (* a document *)
| FDone     (* nothing more *)
| FArr      (* an element, or the end of the array *)
| FKey      (* a key, or the end of the object *)
| FVal.     (* the value for a key *)

Definition after_value (s : list frame) : option (list frame) :=
  match s with
  | FTop :: r => Some (FDone :: r)
  | FArr :: r => Some (FArr :: r)
  | FVal :: r => Some (FKey :: r)
  | _ => None
  end.

Definition step (s : list frame) (ev : event) : option (list frame) :=
  match ev with
  | EStartArray => option_map (cons FArr) (after_value s)
  | EStartObject => option_map (cons FKey) (after_value s)
  | EEndArray => match s with FArr :: r => Some r | _ => None end
  | EEndObject => match s with FKey :: r => Some r | _ => None end
  | EKey _ => match s with FKey :: r => Some (FVal :: r) | _ => None end
  | _ => after_value s
  end.

Fixpoint run (s : list frame) (evs : list event) : option (list frame) :=
  match evs with
  | [] => Some s
  | ev :: evs' => match step s ev with Some s' => run s' evs' | None => None end
  end.

(** The events make up exactly one JSON document. *)
Definition well_formed (evs : list event) : Prop := run [FTop] evs = Some [FDone].
