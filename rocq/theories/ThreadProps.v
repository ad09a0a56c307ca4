(** C68: threads that format times at once. *)
From Coq Require Import List ZArith Ascii String Bool Lia.
From Verif Require Import Base DatetimeModel ThreadModel ThreadSpec ThreadProof.
Import ListNotations.
Local Open Scope Z_scope.

(** As long as no two calls are in progress at the same time, every thread gets the texts of its own times, in order. *)
Theorem C68_exclusive : forall tps order calls b schedule, (forall f, In f order) -> representable tps calls ->
  exclusive tps order (start b calls) schedule ->
  exists w, run tps order (start b calls) schedule = Some w /\
    forall i cs t, nth_error calls i = Some cs -> nth_error (threads w) i = Some t ->
      Forall2 (fun c s => own_text tps c = Some s) (firstn (List.length (got t)) cs) (got t).
Proof.
  intros tps order calls b schedule A R X. destruct (exclusive_run tps order calls b schedule A R X) as (w & E & _ & G).
  exists w. split; [exact E|]. intros i cs t C T. apply (good_got _ _ _ _ _ (G i cs t C T)).
Qed.
Print Assumptions C68_exclusive.

(** This is so in a program with one thread. *)
Theorem C68_one_thread : forall tps order cs b schedule, exclusive tps order (start b [cs]) schedule.
Proof.
  intros tps order cs b schedule.
  assert (H : forall w, List.length (threads w) = 1%nat -> exclusive tps order w schedule).
  { induction schedule as [|i schedule IH]; intros w L; cbn [exclusive].
    - split; [|exact I]. intros j k tj tk J K _ _. assert (j < 1)%nat by (rewrite <- L; apply nth_error_Some; congruence).
      assert (k < 1)%nat by (rewrite <- L; apply nth_error_Some; congruence). lia.
    - split.
      + intros j k tj tk J K _ _. assert (j < 1)%nat by (rewrite <- L; apply nth_error_Some; congruence).
        assert (k < 1)%nat by (rewrite <- L; apply nth_error_Some; congruence). lia.
      + intros w' S. apply IH. unfold step in S. destruct (nth_error (threads w) i); [|injection S as <-; exact L].
        destruct (thread_step tps order (buffer w) t); [|discriminate]. injection S as <-. cbn. rewrite put_at_length. exact L. }
  apply H. reflexivity.
Qed.
Print Assumptions C68_one_thread.

(** However the threads are interleaved, nothing is undefined, and every text is put together from pieces of texts of times
    that some thread formats. *)
Theorem C68_pieces : forall tps order calls b schedule, (forall f, In f order) -> representable tps calls ->
  exists w, run tps order (start b calls) schedule = Some w /\
    forall i cs t, nth_error calls i = Some cs -> nth_error (threads w) i = Some t ->
      Forall2 (fun c s => pieced tps (List.concat calls) (which c) s) (firstn (List.length (got t)) cs) (got t).
Proof.
  intros tps order calls b schedule A R. destruct (any_run tps order calls b schedule A R) as (w & E & _ & G).
  exists w. split; [exact E|]. intros i cs t C T. apply (good_got _ _ _ _ _ (G i cs t C T)).
Qed.
Print Assumptions C68_pieces.

(** A thread that is given enough steps has made all its calls, whatever the other threads do in between. *)
Theorem C68_finishes : forall tps order calls b schedule w i cs t, (forall f, In f order) -> representable tps calls ->
  run tps order (start b calls) schedule = Some w ->
  nth_error calls i = Some cs -> nth_error (threads w) i = Some t ->
  (List.length cs * (List.length order + 8) <= count_occ Nat.eq_dec schedule i)%nat ->
  List.length (got t) = List.length cs.
Proof.
  intros tps order calls b schedule w i cs t A R E C T N. destruct (any_run tps order calls b schedule A R) as (w' & E' & _ & G).
  rewrite E in E'. injection E' as <-. apply (good_finished _ _ order _ _ _ (G i cs t C T)).
  rewrite (left_over_run _ _ _ _ _ i {| todo := cs; doing := None; got := [] |} t E); [|cbn; rewrite nth_error_map, C; reflexivity|exact T].
  unfold left_over. cbn [doing todo Nat.add]. assert (total order cs <= List.length cs * (List.length order + 8))%nat; [|lia].
  clear. unfold total. induction cs as [|c cs IH]; [cbn; lia|]. cbn [map list_sum fold_right List.length Nat.mul]. unfold cost at 1.
  change (fold_right Nat.add 0%nat (map (cost order) cs)) with (list_sum (map (cost order) cs)).
  assert (List.length (fields (which c)) <= 6)%nat by (destruct (which c); cbn; lia). lia.
Qed.
Print Assumptions C68_finishes.

(** Dates are right however the threads are interleaved, if all times are on the same day. *)
Theorem C68_same_day : forall tps order calls b schedule w i cs t day, (forall f, In f order) -> representable tps calls ->
  (forall c, In c (List.concat calls) -> to_iso_date tps (ticks c) = Some day) ->
  run tps order (start b calls) schedule = Some w ->
  nth_error calls i = Some cs -> nth_error (threads w) i = Some t ->
  Forall2 (fun c s => which c = Date -> s = day) (firstn (List.length (got t)) cs) (got t).
Proof.
  intros tps order calls b schedule w i cs t day A R D E C T.
  destruct (C68_pieces tps order calls b schedule A R) as (w' & E' & G). rewrite E in E'. injection E' as <-.
  specialize (G i cs t C T). revert G. generalize (firstn (List.length (got t)) cs) as past. generalize (got t) as texts. clear T. intros texts past G. induction G as [|c s cs' ss (L & P) G IH]; constructor; [|exact IH]. intro K. rewrite K in *.
  assert (Q : forall f, In f (fields Date) -> piece f s = piece f day).
  { intros f F. destruct (P f F) as (c' & x & I & X & ->). apply (date_piece tps (ticks c') day x f (D c' I) X F). }
  destruct (P Year (or_introl eq_refl)) as (c' & x & I & X & _). pose proof (date_layout _ _ _ (D c' I)) as L'.
  unfold layout in L, L'. rewrite L, L'. rewrite !Q by (cbn; auto). reflexivity.
Qed.
Print Assumptions C68_same_day.

Definition ticks_per_second : Z := 1000000000.

(** 1999-12-31T23:59:59Z and 2000-01-01T00:00:00Z *)
Definition old_year : call := {| which := Datetime; ticks := 946684799 * ticks_per_second |}.
Definition new_year : call := {| which := Datetime; ticks := 946684800 * ticks_per_second |}.

(** The order of glibc. *)
Definition glibc : list field := [Hour; Minute; Second; Year; Month; Day].

(** The second thread has got as far as the year when the first one goes on. *)
Definition unlucky : list nat := repeat 0%nat 7 ++ repeat 1%nat 5 ++ repeat 0%nat 7 ++ repeat 1%nat 9.

Definition texts (w : world) : list (list string) := map (fun t => map string_of_list_ascii (got t)) (threads w).

(** In general, a thread may get the text of a time that nobody asked for, here almost a year later than both. *)
Theorem C68_own_text_refuted : exists tps order calls b schedule w t s,
  (forall f, In f order) /\ representable tps calls /\
  run tps order (start b calls) schedule = Some w /\ In t (threads w) /\ In s (got t) /\
  forall c, In c (List.concat calls) -> own_text tps c <> Some s.
Proof.
  exists ticks_per_second, glibc, [[old_year]; [new_year]], (fun _ => 0), unlucky.
  assert (T : option_map texts (run ticks_per_second glibc (start (fun _ => 0) [[old_year]; [new_year]]) unlucky) =
    Some [["2000-12-31T00:00:00Z"]; ["2000-01-01T00:00:00Z"]]%string) by (vm_compute; reflexivity).
  destruct (run ticks_per_second glibc (start (fun _ => 0) [[old_year]; [new_year]]) unlucky) as [w|]; [|discriminate].
  exists w. cbn [option_map] in T. apply (f_equal (fun o => match o with Some x => x | None => [] end)) in T.
  cbn beta in T. unfold texts in T. destruct (threads w) as [|t ts]; [discriminate|]. cbn [map] in T. destruct (got t) as [|s ss] eqn:Gt; [discriminate T|].
  exists t, s. cbn in T. injection T as T _ _. split; [intros []; cbn; auto 7|].
  split; [|split; [reflexivity|split; [left; reflexivity|split; [rewrite Gt; left; reflexivity|]]]].
  - intros cs c [<-|[<-|[]]] [<-|[]]; eexists; vm_compute; reflexivity.
  - intros c [<-|[<-|[]]] O; vm_compute in O; injection O as <-; vm_compute in T; discriminate.
Qed.
Print Assumptions C68_own_text_refuted.

(** One call after the other. *)
Example C68_example :
  option_map texts (run ticks_per_second glibc (start (fun _ => 0) [[old_year; {| which := Date; ticks := 0 |}]; [new_year]])
    (repeat 0%nat 14 ++ repeat 1%nat 14 ++ repeat 0%nat 14)) =
  Some [["1999-12-31T23:59:59Z"; "1970-01-01"]; ["2000-01-01T00:00:00Z"]]%string.
Proof. vm_compute. reflexivity. Qed.

Example C68_example_unlucky :
  option_map texts (run ticks_per_second glibc (start (fun _ => 0) [[old_year]; [new_year]]) unlucky) =
  Some [["2000-12-31T00:00:00Z"]; ["2000-01-01T00:00:00Z"]]%string.
Proof. vm_compute. reflexivity. Qed.
