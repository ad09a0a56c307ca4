(** What is said about threads that format times at once, by means of the texts only. *)
From Coq Require Import List ZArith Ascii.
From Verif Require Import DatetimeModel ThreadModel.
Import ListNotations.

(** The text that the call gives in a program without threads. *)
Definition own_text (tps : Z) (c : call) : option (list ascii) :=
  match which c with
  | Date => to_iso_date tps (ticks c)
  | Datetime => to_iso_datetime tps (ticks c)
  end.

(** The part of a text where a member is: 1982-10-23T01:20:40Z. *)
Definition piece (f : field) (s : list ascii) : list ascii :=
  match f with
  | Year => firstn 4 s
  | Month => firstn 2 (skipn 5 s)
  | Day => firstn 2 (skipn 8 s)
  | Hour => firstn 2 (skipn 11 s)
  | Minute => firstn 2 (skipn 14 s)
  | Second => firstn 2 (skipn 17 s)
  end.

Definition layout (k : kind) (s : list ascii) : Prop :=
  let date := piece Year s ++ ["-"%char] ++ piece Month s ++ ["-"%char] ++ piece Day s in
  s = match k with
      | Date => date
      | Datetime => date ++ ["T"%char] ++ piece Hour s ++ [":"%char] ++ piece Minute s ++ [":"%char] ++ piece Second s ++ ["Z"%char]
      end.

(** A text put together from the pieces of texts of some calls. *)
Definition pieced (tps : Z) (calls : list call) (k : kind) (s : list ascii) : Prop :=
  layout k s /\
  forall f, In f (fields k) ->
    exists c t, In c calls /\ to_iso_datetime tps (ticks c) = Some t /\ piece f s = piece f t.

(** No two calls are in progress at the same time, now or later. *)
Definition one_at_most (w : world) : Prop :=
  forall i j ti tj, nth_error (threads w) i = Some ti -> nth_error (threads w) j = Some tj ->
    doing ti <> None -> doing tj <> None -> i = j.

Fixpoint exclusive (tps : Z) (order : list field) (w : world) (schedule : list nat) : Prop :=
  one_at_most w /\
  match schedule with
  | [] => True
  | i :: schedule' => forall w', step tps order w i = Some w' -> exclusive tps order w' schedule'
  end.

(** Times that are not too far away: the call is defined. *)
Definition representable (tps : Z) (calls : list (list call)) : Prop :=
  forall cs c, In cs calls -> In c cs -> exists t, to_iso_datetime tps (ticks c) = Some t.
