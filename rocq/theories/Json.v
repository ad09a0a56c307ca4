(** JSON documents as held by rapidjson::Value (RapidJSON is modelled, not verified).

    Integers are kept apart from doubles as in RapidJSON; strings are byte strings; the
    members of an object keep their order and may repeat. *)
From Coq Require Import List ZArith NArith Ascii String Bool.
From Verif Require Import Float.
Import ListNotations.

Inductive json : Type :=
| JNull
| JBool (b : bool)
| JInt (z : Z)
| JDbl (f : fl)
| JStr (s : string)
| JArr (l : list json)
| JObj (l : list (string * json)).

Fixpoint json_ind' (P : json -> Prop)
  (Hnull : P JNull) (Hbool : forall b, P (JBool b)) (Hint : forall z, P (JInt z))
  (Hdbl : forall f, P (JDbl f)) (Hstr : forall s, P (JStr s))
  (Harr : forall l, Forall P l -> P (JArr l))
  (Hobj : forall l, Forall (fun e => P (snd e)) l -> P (JObj l)) (j : json) : P j :=
  match j with
  | JNull => Hnull
  | JBool b => Hbool b
  | JInt z => Hint z
  | JDbl f => Hdbl f
  | JStr s => Hstr s
  | JArr l => Harr l
      ((fix go l := match l return Forall P l with
        | [] => Forall_nil P
        | x :: l' => Forall_cons x (json_ind' P Hnull Hbool Hint Hdbl Hstr Harr Hobj x) (go l')
        end) l)
  | JObj l => Hobj l
      ((fix go l := match l return Forall (fun e => P (snd e)) l with
        | [] => Forall_nil _
        | x :: l' => Forall_cons x (json_ind' P Hnull Hbool Hint Hdbl Hstr Harr Hobj (snd x)) (go l')
        end) l)
  end.

(** rapidjson::Value::FindMember: the first member of that name. *)
Fixpoint find_member (l : list (string * json)) (name : string) : option json :=
  match l with
  | [] => None
  | (n, v) :: l' => if String.eqb n name then Some v else find_member l' name
  end.

(** Position of the first member of that name. *)
Fixpoint find_index (l : list (string * json)) (name : string) : option nat :=
  match l with
  | [] => None
  | (n, _) :: l' => if String.eqb n name then Some 0 else option_map S (find_index l' name)
  end.
