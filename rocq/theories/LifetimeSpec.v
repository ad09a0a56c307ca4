(** What is said about lifetimes: a program that never uses what is gone, and the references
    that a caller can keep. *)
From Coq Require Import List Bool String.
From Verif Require Import Json Types ParseModel LifetimeModel.
Import ListNotations.

(** The state without times. *)
Definition forget_handler (h : lhandler) : handler := {| h_kind := l_kind h; h_ref := r_place (l_ref h) |}.

Definition forget (s : lstate) : pstate :=
  {| mem := l_mem s; stack := map forget_handler (l_stack s); fresh_address := l_fresh s |}.

(** The outcome is the one without lifetimes; nothing that is gone was used. *)
Definition agrees {A} (x : lres A) (y : pres) : Prop :=
  match x with
  | LOk _ s => y = POk (forget s)
  | LFail s => y = PFail (forget s)
  | LOver => y = POver
  | LUndef => y = PUndef
  | LOutside => y = POutside
  | LDangling | LGone => False
  end.

(** The state at the end, if there is one. *)
Definition ends {A} (x : lres A) (s : lstate) : Prop :=
  match x with LOk _ s' | LFail s' => s' = s | _ => False end.

(** A part of an object of a type that lies in the object itself or in a node of a map: members
    that are not optional, elements of arrays, components, and mapped values, but not what is
    in vectors, behind pointers or in optional members. *)
Inductive steady (e : env) : ty -> list pstep -> Prop :=
| steady_self : forall t, steady e t []
| steady_member : forall c i m p, nth_error (c_members (class_of e c)) i = Some m -> m_kind m <> MOptional ->
    steady e (m_ty m) p -> steady e (TClass c) (SItem i :: p)
| steady_optional : forall c i m, nth_error (c_members (class_of e c)) i = Some m -> m_kind m = MOptional ->
    steady e (TClass c) [SItem i]
| steady_element : forall n u i p, i < n -> steady e u p -> steady e (TArray n u) (SItem i :: p)
| steady_first : forall a b p, steady e a p -> steady e (TPair a b) (SItem 0 :: p)
| steady_second : forall a b p, steady e b p -> steady e (TPair a b) (SItem 1 :: p)
| steady_component : forall ts i t p, nth_error ts i = Some t -> steady e t p -> steady e (TTuple ts) (SItem i :: p)
| steady_mapped : forall b u k p, steady e u p -> steady e (TMap b u) (SKey k :: p).

(** A reference that the caller made before the call, to a part of its object. *)
Definition callers (p : list pstep) : reference := {| r_place := {| object := 0; path := p |}; r_born := 0 |}.

(** Parts of the object at a place, at any depth. *)
Definition inside (p q : place) : Prop :=
  object p = object q /\ exists st rest, path p = path q ++ st :: rest.

(** A reference is no good after something that contains its object became invalid. *)
Definition gone (s : lstate) (r : reference) : Prop :=
  exists n g, In (n, g) (l_ended s) /\ r_born r <= n /\
    match g with Inside q => inside (r_place r) q | Whole id => object (r_place r) = id end.

(** Handlers have different numbers, all of which were given. *)
Definition numbered (s : lstate) : Prop :=
  NoDup (map l_id (l_stack s)) /\ Forall (fun h => l_id h < l_serial s) (l_stack s).
