(** Model of include/persistence/detail/polymorphic_stack.hpp.

    Addresses are offsets into the array [memory]. The objects alive, with their addresses,
    and the log of destructor calls are kept beside the fields of the class, to say what the
    C++ operations do to objects: a destructor call at an address without an object, or
    through a null pointer, is undefined behaviour. *)
From Coq Require Import List ZArith Arith Bool.
From Verif Require Import HashModel.
Import ListNotations.
Local Open Scope Z_scope.

(** A class to be put on the stack: sizeof, alignof and an identity for the object. *)
Record frame : Type := { f_id : nat; f_size : Z; f_align : Z }.

Record pstack : Type := {
  s_current : option Z;
  s_next : Z;
  s_items : list (option Z);
  s_count : nat;
  s_live : list (Z * frame);
  s_destroyed : list nat
}.

Inductive outcome : Type :=
| Done (s : pstack)
| Thrown (s : pstack)
| Undefined.

(** polymorphic_stack.hpp:72-76 *)
Definition fresh (capacity : nat) : pstack :=
  {| s_current := None; s_next := 0; s_items := repeat None capacity; s_count := O;
     s_live := []; s_destroyed := [] |}.

(** std::size_t converted to std::ptrdiff_t *)
Definition to_ptrdiff (z : Z) : Z :=
  let m := z mod 2 ^ 64 in if m <? 2 ^ 63 then m else m - 2 ^ 64.

(** polymorphic_stack.hpp:22-38. [built] tells whether the constructor of the class returns;
    if it throws, the exception leaves emplace after the count has been increased. *)
Definition emplace (capacity : nat) (memory_size : Z) (built : bool) (f : frame) (s : pstack) : outcome :=
  if (capacity <=? s_count s)%nat || (to_ptrdiff (memory_size - f_align f - f_size f) <=? s_next s)
  then Thrown s
  else match upd (s_items s) (s_count s) (s_current s) with
       | None => Undefined
       | Some items =>
         if built
         then Done {| s_current := Some (s_next s); s_next := s_next s + f_size f; s_items := items;
                      s_count := S (s_count s); s_live := (s_next s, f) :: s_live s;
                      s_destroyed := s_destroyed s |}
         else Thrown {| s_current := s_current s; s_next := s_next s; s_items := items;
                        s_count := S (s_count s); s_live := s_live s; s_destroyed := s_destroyed s |}
       end.

Fixpoint object_at (live : list (Z * frame)) (a : Z) : option frame :=
  match live with
  | [] => None
  | (b, f) :: l => if Z.eqb b a then Some f else object_at l a
  end.

Fixpoint remove_at (live : list (Z * frame)) (a : Z) : list (Z * frame) :=
  match live with
  | [] => []
  | (b, f) :: l => if Z.eqb b a then l else (b, f) :: remove_at l a
  end.

(** polymorphic_stack.hpp:62-69 *)
Definition pop_unsafe (s : pstack) : option pstack :=
  match s_count s, s_current s with
  | S c, Some a =>
    match object_at (s_live s) a, nth_error (s_items s) c, upd (s_items s) c None with
    | Some f, Some prev, Some items =>
      Some {| s_current := prev; s_next := a; s_items := items; s_count := c;
              s_live := remove_at (s_live s) a; s_destroyed := s_destroyed s ++ [f_id f] |}
    | _, _, _ => None
    end
  | _, _ => None
  end.

(** polymorphic_stack.hpp:40-47 *)
Definition pop (s : pstack) : outcome :=
  match s_count s with
  | O => Thrown s
  | S _ => match pop_unsafe s with Some s' => Done s' | None => Undefined end
  end.

(** polymorphic_stack.hpp:49-52: the object at the top. *)
Definition back (s : pstack) : option frame :=
  match s_current s with
  | Some a => object_at (s_live s) a
  | None => None
  end.

(** polymorphic_stack.hpp:54-59 *)
Fixpoint pop_all (n : nat) (s : pstack) : option pstack :=
  match n with
  | O => Some s
  | S n' => match pop_unsafe s with Some s' => pop_all n' s' | None => None end
  end.

Definition destroy (s : pstack) : option pstack := pop_all (s_count s) s.

Inductive op : Type :=
| Emplace (f : frame)
| Pop.

Definition perform (capacity : nat) (memory_size : Z) (o : op) (s : pstack) : outcome :=
  match o with
  | Emplace f => emplace capacity memory_size true f s
  | Pop => pop s
  end.

(** A history: the state after it and, for each operation, whether it returned. Exceptions
    are caught by the caller, who goes on. *)
Fixpoint replay (capacity : nat) (memory_size : Z) (ops : list op) (s : pstack) : option (pstack * list bool) :=
  match ops with
  | [] => Some (s, [])
  | o :: ops' =>
    match perform capacity memory_size o s with
    | Done s' =>
      match replay capacity memory_size ops' s' with Some (t, l) => Some (t, true :: l) | None => None end
    | Thrown s' =>
      match replay capacity memory_size ops' s' with Some (t, l) => Some (t, false :: l) | None => None end
    | Undefined => None
    end
  end.
