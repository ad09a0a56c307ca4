(** Documents without text. *)
From Coq Require Import List Bool.
From Verif Require Import Json.
Import ListNotations.

(** There is no string in the document, and no name of a member. *)
Fixpoint wordless (j : json) : bool :=
  match j with
  | JStr _ => false
  | JArr l => forallb wordless l
  | JObj l => match l with [] => true | _ => false end
  | _ => true
  end.
