(** What a bounded stack is: a list, the top first. *)
From Coq Require Import List ZArith Arith Bool.
From Verif Require Import StackModel.
Import ListNotations.
Local Open Scope Z_scope.

Definition used (l : list frame) : Z := fold_right (fun f a => f_size f + a) 0 l.

Definition fits (capacity : nat) (memory_size : Z) (l : list frame) (f : frame) : bool :=
  (List.length l <? capacity)%nat && (used l + f_size f + f_align f <? memory_size).

(** The stack after a history, the answers, and the frames that were popped, oldest first. *)
Fixpoint ideal (capacity : nat) (memory_size : Z) (ops : list op) (l : list frame)
  : list frame * list bool * list nat :=
  match ops with
  | [] => (l, [], [])
  | Emplace f :: ops' =>
    if fits capacity memory_size l f
    then let '(r, bs, ds) := ideal capacity memory_size ops' (f :: l) in (r, true :: bs, ds)
    else let '(r, bs, ds) := ideal capacity memory_size ops' l in (r, false :: bs, ds)
  | Pop :: ops' =>
    match l with
    | [] => let '(r, bs, ds) := ideal capacity memory_size ops' [] in (r, false :: bs, ds)
    | f :: l' => let '(r, bs, ds) := ideal capacity memory_size ops' l' in (r, true :: bs, f_id f :: ds)
    end
  end.

(** Frames given to emplace calls that returned. *)
Fixpoint emplaced (ops : list op) (answers : list bool) : list nat :=
  match ops, answers with
  | Emplace f :: ops', true :: bs => f_id f :: emplaced ops' bs
  | _ :: ops', _ :: bs => emplaced ops' bs
  | _, _ => []
  end.

(** Sizes and alignments of C++ classes. *)
Definition proper (f : frame) : Prop :=
  0 < f_align f /\ 0 < f_size f /\ (f_align f | f_size f) /\ f_size f + f_align f < 2 ^ 63.

Definition proper_op (o : op) : Prop := match o with Emplace f => proper f | Pop => True end.

(** No two objects share a byte. *)
Fixpoint disjoint (l : list (Z * frame)) : Prop :=
  match l with
  | [] => True
  | (a, f) :: l' => Forall (fun '(b, g) => a + f_size f <= b \/ b + f_size g <= a) l' /\ disjoint l'
  end.
