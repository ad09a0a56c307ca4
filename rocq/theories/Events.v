(** The event interface of RapidJSON, shared by its Writer and its Reader, and the events of
    a document. The Writer prints integers of all widths alike, so one event stands for Int,
    Uint, Int64 and Uint64. *)
From Coq Require Import List ZArith String.
From Verif Require Import Float Json.
Import ListNotations.

Inductive event : Type :=
| ENull
| EBool (b : bool)
| EInt (z : Z)
| EDbl (f : fl)
| EStr (s : string)
| EStartArray
| EEndArray
| EStartObject
| EKey (s : string)
| EEndObject.

(** rapidjson::Value::Accept *)
Fixpoint events (j : json) : list event :=
  match j with
  | JNull => [ENull]
  | JBool b => [EBool b]
  | JInt z => [EInt z]
  | JDbl f => [EDbl f]
  | JStr s => [EStr s]
  | JArr l => EStartArray :: flat_map events l ++ [EEndArray]
  | JObj l => EStartObject :: flat_map (fun p => EKey (fst p) :: events (snd p)) l ++ [EEndObject]
  end.
