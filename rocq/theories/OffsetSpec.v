(** Where a text stops being JSON, and the tokens of a text. *)
From Coq Require Import List Arith ZArith Ascii String Bool.
From Verif Require Import Float Json Events Types TextSpec ReaderModel.
Import ListNotations.
Local Open Scope char_scope.

(** Numbers of every size. *)
Definition any_number (_ : list ascii) : option fl := Some (FZero false).

(** Some JSON text starts with these characters. *)
Definition beginning (p : list ascii) : Prop := exists x j, spaced any_number (p ++ x) j.

(** The number of characters from the offset on that show the error: one, or an escape
    sequence of two characters, or a pair of escape sequences of six characters each. *)
Definition window (f : fault) : nat :=
  match f with InvalidHex | SurrogateInvalid => 12 | EscapeInvalid => 2 | _ => 1 end.

(** A token for which the reader sends an event. *)
Inductive token (nearest : list ascii -> option fl) : list ascii -> event -> Prop :=
| token_null : token nearest ["n"; "u"; "l"; "l"] ENull
| token_true : token nearest ["t"; "r"; "u"; "e"] (EBool true)
| token_false : token nearest ["f"; "a"; "l"; "s"; "e"] (EBool false)
| token_string : forall s b, chars s b -> token nearest ("""" :: s ++ [""""]) (EStr (string_of_list_ascii b))
| token_name : forall s b, chars s b -> token nearest ("""" :: s ++ [""""]) (EKey (string_of_list_ascii b))
| token_integer : forall s z, integer s z -> kept z -> token nearest s (EInt z)
| token_number : forall s f, number s -> (forall z, integer s z -> ~ kept z) -> nearest s = Some f -> token nearest s (EDbl f)
| token_start_array : token nearest ["["] EStartArray
| token_end_array : token nearest ["]"] EEndArray
| token_start_object : token nearest ["{"] EStartObject
| token_end_object : token nearest ["}"] EEndObject.

(** A text cut into tokens, with their events. White space, commas and colons have none. *)
Inductive tokens (nearest : list ascii -> option fl) : list ascii -> list event -> Prop :=
| tokens_none : tokens nearest [] []
| tokens_more : forall s ev s' evs, token nearest s ev -> tokens nearest s' evs -> tokens nearest (s ++ s') (ev :: evs)
| tokens_blank : forall w s evs, blank w -> tokens nearest s evs -> tokens nearest (w ++ s) evs
| tokens_comma : forall s evs, tokens nearest s evs -> tokens nearest ("," :: s) evs
| tokens_colon : forall s evs, tokens nearest s evs -> tokens nearest (":" :: s) evs.

(** Nothing, or the start of a token that is not a token itself. *)
Definition unfinished (q : list ascii) : Prop :=
  (forall ev, ~ token any_number q ev) /\ (q = [] \/ exists q' ev, token any_number (q ++ q') ev).

Definition is_number (ev : event) : bool := match ev with EInt _ | EDbl _ => true | _ => false end.
