(** What a path means: steps taken from the root of a document. *)
From Coq Require Import List ZArith NArith Ascii String Bool.
From Verif Require Import Json PathModel.
Import ListNotations.

Inductive step : Type :=
| Member (name : string)
| Element (index : nat).

(** The first member of the name, or the element at the index. *)
Inductive leads : json -> list step -> json -> Prop :=
| leads_here : forall j, leads j [] j
| leads_member : forall l1 n v l2 ss r,
    ~ In n (map fst l1) -> leads v ss r -> leads (JObj (l1 ++ (n, v) :: l2)) (Member n :: ss) r
| leads_element : forall l1 v l2 ss r,
    leads v ss r -> leads (JArr (l1 ++ v :: l2)) (Element (List.length l1) :: ss) r.

(** Names that need no escape; indexes of 32-bit arrays. *)
Definition plain_char (c : ascii) : Prop := c <> "/"%char /\ c <> "~"%char.

Definition plain_step (s : step) : Prop :=
  match s with
  | Member n => n <> EmptyString /\ Forall plain_char (list_ascii_of_string n)
  | Element i => (N.of_nat i < 2 ^ 32 - 1)%N
  end.

(** The library's segment for a step. *)
Definition segment_of (s : step) : segment :=
  match s with
  | Member n => name_segment (list_ascii_of_string n)
  | Element i => index_segment (N.of_nat i)
  end.
