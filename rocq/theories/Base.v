(** Common notions: partiality, byte buffers. *)
From Coq Require Import List NArith ZArith Ascii String Bool Lia.
Import ListNotations.

(** [None] stands for undefined behaviour wherever a model function
    returns an [option] through [bind]. *)
Definition bind {A B} (x : option A) (f : A -> option B) : option B :=
  match x with
  | Some a => f a
  | None => None
  end.

Notation "'do!' x <- e1 ; e2" := (bind e1 (fun x => e2))
  (at level 200, x name, e1 at level 100, e2 at level 200, right associativity).

(** A byte (or [char]); the constructor carries eight bits, least significant first. *)
Notation byte := ascii (only parsing).

Definition byte_val (b : byte) : N := N_of_ascii b.

(** Store one byte in a buffer: [None] when the index is outside the buffer. *)
Definition store (buf : list byte) (i : nat) (c : byte) : option (list byte) :=
  if Nat.ltb i (List.length buf)
  then Some (firstn i buf ++ c :: skipn (S i) buf)
  else None.

(** Load one byte: [None] when the index is outside the readable memory. *)
Definition load (mem : list byte) (i : nat) : option byte := nth_error mem i.
