(** Model of threads that format times at once: to_iso_date and to_iso_datetime of datetime.hpp, statement by statement.

    std::gmtime answers with a pointer to one object that all threads share. Between the call and the last load from this
    object, other threads may run. An execution is a sequence of thread numbers; each number lets this thread do one load
    or one store. This is the most a C++ program can hope for: the standard calls simultaneous access undefined. *)
From Coq Require Import List ZArith Ascii Bool.
From Verif Require Import Base DatetimeModel.
Import ListNotations.
Local Open Scope Z_scope.

(** The members of std::tm that are used. *)
Inductive field := Year | Month | Day | Hour | Minute | Second.

Definition field_eqb (f g : field) : bool :=
  match f, g with
  | Year, Year | Month, Month | Day, Day | Hour, Hour | Minute, Minute | Second, Second => true
  | _, _ => false
  end.

Definition tm := field -> Z.

Definition store (b : tm) (f : field) (z : Z) : tm := fun g => if field_eqb f g then z else b g.

(** What gmtime answers, by member. *)
Definition calendar (cal : Z * Z * Z * Z * Z * Z) : tm :=
  let '(y, m, d, hh, mi, ss) := cal in
  fun f => match f with Year => y | Month => m | Day => d | Hour => hh | Minute => mi | Second => ss end.

Inductive kind := Date | Datetime.

Record call := { which : kind; ticks : Z }.

Inductive instruction := Put (f : field) (z : Z) | Get (f : field).

(** The loads: datetime.hpp:254-256 and 278-283. *)
Definition fields (k : kind) : list field :=
  match k with
  | Date => [Year; Month; Day]
  | Datetime => [Year; Month; Day; Hour; Minute; Second]
  end.

(** gmtime stores the members in some order (datetime.hpp:253 and 277), then they are loaded. *)
Definition code (order : list field) (k : kind) (cal : tm) : list instruction :=
  map (fun f => Put f (cal f)) order ++ map Get (fields k).

(** The rest, on local variables: datetime.hpp:254-255, 259-265 and 278-279, 286-295. *)
Definition text (k : kind) (l : tm) : option (list ascii) :=
  do! y <- full_year (l Year);
  let date := aligned4 (zeros 4) y ++ ["-"%char] ++ aligned2 (zeros 2) (l Month + 1) ++ ["-"%char] ++ aligned2 (zeros 2) (l Day) in
  match k with
  | Date => Some date
  | Datetime => Some (date ++ ["T"%char] ++ aligned2 (zeros 2) (l Hour) ++ [":"%char] ++ aligned2 (zeros 2) (l Minute) ++
                      [":"%char] ++ aligned2 (zeros 2) (l Second) ++ ["Z"%char])
  end.

(** A thread: the calls it will make, the call in progress with its local variables, and the texts it got. *)
Record thread := { todo : list call; doing : option (kind * list instruction * tm); got : list (list ascii) }.

(** [None] is undefined behaviour: the null pointer of gmtime, and overflow in the year. *)
Definition thread_step (tps : Z) (order : list field) (b : tm) (t : thread) : option (tm * thread) :=
  match doing t with
  | None =>
    match todo t with
    | [] => Some (b, t)
    | c :: cs =>
      do! cal <- gmtime (to_time_t tps (ticks c));
      Some (b, {| todo := cs; doing := Some (which c, code order (which c) (calendar cal), fun _ => 0); got := got t |})
    end
  | Some (k, Put f z :: p, l) => Some (store b f z, {| todo := todo t; doing := Some (k, p, l); got := got t |})
  | Some (k, Get f :: p, l) => Some (b, {| todo := todo t; doing := Some (k, p, store l f (b f)); got := got t |})
  | Some (k, [], l) =>
    do! s <- text k l;
    Some (b, {| todo := todo t; doing := None; got := got t ++ [s] |})
  end.

Record world := { buffer : tm; threads : list thread }.

Fixpoint put_at {A} (i : nat) (x : A) (l : list A) : list A :=
  match i, l with
  | _, [] => []
  | O, _ :: l' => x :: l'
  | S i', y :: l' => y :: put_at i' x l'
  end.

Definition step (tps : Z) (order : list field) (w : world) (i : nat) : option world :=
  match nth_error (threads w) i with
  | None => Some w
  | Some t =>
    do! r <- thread_step tps order (buffer w) t;
    Some {| buffer := fst r; threads := put_at i (snd r) (threads w) |}
  end.

Fixpoint run (tps : Z) (order : list field) (w : world) (schedule : list nat) : option world :=
  match schedule with
  | [] => Some w
  | i :: schedule' => do! w' <- step tps order w i; run tps order w' schedule'
  end.

Definition start (b : tm) (calls : list (list call)) : world :=
  {| buffer := b; threads := map (fun cs => {| todo := cs; doing := None; got := [] |}) calls |}.
