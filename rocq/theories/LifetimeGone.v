(** What the model of lifetimes takes to be gone. *)
From Coq Require Import List Arith ZArith NArith Ascii String Bool Lia.
From Verif Require Import Base Json Events Types DispatchModel HashModel SerializeModel DeserializeModel ParseModel
  LifetimeModel LifetimeSpec.
Import ListNotations.
Local Open Scope act_scope.

Lemma step_eqb_eq : forall a b, step_eqb a b = true <-> a = b.
Proof.
  intros [] []; cbn; split; intros H; try discriminate; try reflexivity.
  - apply Nat.eqb_eq in H. now subst.
  - injection H as ->. apply Nat.eqb_refl.
  - apply String.eqb_eq in H. now subst.
  - injection H as ->. apply String.eqb_refl.
Qed.

Lemma beyond_iff : forall q p, beyond p q = true <-> exists st rest, p = q ++ st :: rest.
Proof.
  induction q as [|b q IH]; intros [|a p]; cbn; split; intros H; try discriminate; try (destruct H as (st & rest & H); discriminate).
  - now exists a, p.
  - reflexivity.
  - apply andb_prop in H. destruct H as [S H]. apply step_eqb_eq in S. subst b. apply IH in H. destruct H as (st & rest & ->). now exists st, rest.
  - destruct H as (st & rest & H). injection H as -> ->. apply andb_true_intro. split; [now apply step_eqb_eq|]. apply IH. now exists st, rest.
Qed.

Lemma covers_inside : forall p q, covers (Inside q) p = true <-> inside p q.
Proof.
  intros p q. unfold covers, inside. rewrite andb_true_iff, Nat.eqb_eq, beyond_iff. reflexivity.
Qed.

Lemma dangling_gone : forall s r, dangling s r = true <-> gone s r.
Proof.
  intros s r. unfold dangling, gone. rewrite existsb_exists. split.
  - intros ((n & g) & I & H). exists n, g. split; [exact I|]. apply andb_prop in H. destruct H as [L C]. apply Nat.leb_le in L.
    split; [exact L|]. cbn [fst snd] in *. destruct g; [now apply covers_inside|now apply Nat.eqb_eq].
  - intros (n & g & I & L & C). exists (n, g). split; [exact I|]. apply andb_true_intro. split; [now apply Nat.leb_le|].
    cbn [fst snd]. destruct g; [now apply covers_inside|now apply Nat.eqb_eq].
Qed.

Lemma gone_end : forall g s r, r_born r <= l_clock s ->
  match g with Inside q => inside (r_place r) q | Whole id => object (r_place r) = id end ->
  forall u s', end_of g s = LOk u s' -> gone s' r.
Proof.
  intros g s r B C u s' E. injection E as _ <-. exists (l_clock s), g. cbn. auto.
Qed.

(** [s'] is later than [s]. *)
Definition later (s s' : lstate) : Prop := (forall x, In x (l_ended s) -> In x (l_ended s')) /\ l_clock s <= l_clock s'.

Lemma later_refl : forall s, later s s.
Proof. split; auto. Qed.

Lemma later_trans : forall a b c, later a b -> later b c -> later a c.
Proof. intros a b c [H L] [H' L']. split; [auto|lia]. Qed.

Lemma gone_later : forall s s' r, later s s' -> gone s r -> gone s' r.
Proof. intros s s' r [L _] (n & g & I & H). exists n, g. auto. Qed.

Definition on {A} (P : lstate -> lstate -> Prop) (x : act A) : Prop :=
  forall s, match x s with LOk _ s' | LFail s' => P s s' | _ => True end.

Lemma on_bind : forall A B (P : lstate -> lstate -> Prop) (x : act A) (f : A -> act B), (forall a b c, P a b -> P b c -> P a c) ->
  on P x -> (forall a, on P (f a)) -> on P (andthen x f).
Proof.
  intros A B P x f T X F s. specialize (X s). unfold andthen. destruct (x s) as [a s'|s'| | | | |]; auto.
  specialize (F a s'). destruct (f a s'); eauto.
Qed.

Lemma on_ok : forall A (P : lstate -> lstate -> Prop) (x : act A) s a s', on P x -> x s = LOk a s' -> P s s'.
Proof. intros A P x s a s' O E. specialize (O s). now rewrite E in O. Qed.

Lemma later_deref : forall r, on later (deref r).
Proof. intros r s. unfold deref. destruct (dangling s r); [exact I|apply later_refl]. Qed.

Lemma later_sub : forall r st, on later (sub r st).
Proof. intros r st. apply on_bind; [apply later_trans|apply later_deref|]. intros _ s. apply later_refl. Qed.

Lemma later_assign : forall r w, on later (assign r w).
Proof. intros r w. apply on_bind; [apply later_trans|apply later_deref|]. intros _ s. split; cbn; auto. Qed.

Lemma later_end : forall g, on later (end_of g).
Proof. intros g s. split; cbn; auto. Qed.

Lemma later_make : forall e t r, on later (make e t r).
Proof.
  induction t; intros r; cbn [make]; try (intros s; apply later_refl).
  - apply on_bind; [apply later_trans|apply later_assign|]. intros _. apply on_bind; [apply later_trans|apply later_end|]. intros _.
    apply on_bind; [apply later_trans|apply later_sub|]. intros c. apply IHt.
  - apply on_bind; [apply later_trans|apply later_deref|]. intros _. apply on_bind; [apply later_trans|intros s; split; cbn; auto|]. intros _.
    apply on_bind; [apply later_trans|apply later_end|]. intros _. apply on_bind; [apply later_trans|apply later_sub|]. intros c. apply IHt.
Qed.

Lemma later_push : forall fits k r, on later (push fits k r).
Proof. intros fits k r s. unfold push. destruct (fits _ _); [split; cbn; auto|exact I]. Qed.

Lemma later_enter : forall e fits t r, on later (enter e fits t r).
Proof.
  intros e fits t r s. unfold enter. 
  assert (X : match (if fits (kinds (l_stack s)) (size_of (KValue (core t))) then (let* c := make e t r in push fits (KValue (core t)) c) s else LOver) with LOk _ s' | LFail s' => later s s' | _ => True end).
  { destruct (fits _ _); [|exact I]. apply (on_bind _ _ later); [apply later_trans|apply later_make|]. intros c. apply later_push. }
  destruct (core t); first [exact X|exact I].
Qed.

Lemma bind_ok : forall A B (x : act A) (f : A -> act B) s b s', andthen x f s = LOk b s' ->
  exists a s1, x s = LOk a s1 /\ f a s1 = LOk b s'.
Proof.
  intros A B x f s b s' H. unfold andthen in H. destruct (x s) as [a s1|s1| | | | |]; try discriminate. now exists a, s1.
Qed.

Lemma ends_gone : forall e fits moves s r, r_born r <= l_clock s ->
  (forall p w s' u, moves (items (l_mem s) p) = true -> inside (r_place r) p -> grow moves p w s = LOk u s' -> gone s' r) /\
  (forall q t u c s', t = TUnique u \/ t = TShared u -> inside (r_place r) (r_place q) -> make e t q s = LOk c s' -> gone s' r) /\
  (forall q m id s', m_kind m = MOptional -> inside (r_place r) (r_place q) -> enter_member e fits m q s = LOk id s' -> gone s' r) /\
  (forall h hs u id s' x, l_stack s = h :: hs -> l_kind h = KSet u id -> object (r_place r) = id -> drop s = LOk x s' -> gone s' r).
Proof.
  intros e fits moves s r B. split; [|split; [|split]].
  - intros p w s' u M I E. unfold grow in E. apply bind_ok in E. destruct E as (o & s1 & E1 & E). injection E1 as <- <-.
    apply bind_ok in E. destruct E as (x & s1 & E1 & E). injection E1 as _ <-.
    change (items_of (load (l_mem s) p)) with (items (l_mem s) p) in E. rewrite M in E.
    eapply (gone_end (Inside p)); [|exact I|exact E]. exact B.
  - intros q t u c s' [-> | ->] I E; cbn [make] in E; apply bind_ok in E; destruct E as (x & s1 & E1 & E).
    + apply on_ok with (P := later) in E1; [|apply later_assign].
      apply bind_ok in E. destruct E as (y & s2 & E2 & E).
      apply bind_ok in E. destruct E as (z & s3 & E3 & E).
      apply on_ok with (P := later) in E3; [|apply later_sub]. apply on_ok with (P := later) in E; [|apply later_make].
      eapply gone_later; [exact (later_trans _ _ _ E3 E)|]. eapply (gone_end (Inside (r_place q))); [|exact I|exact E2]. destruct E1. lia.
    + apply on_ok with (P := later) in E1; [|apply later_deref].
      apply bind_ok in E. destruct E as (y & s2 & E2 & E). injection E2 as _ <-.
      apply bind_ok in E. destruct E as (z & s3 & E3 & E). apply bind_ok in E. destruct E as (z' & s4 & E4 & E).
      apply on_ok with (P := later) in E4; [|apply later_sub]. apply on_ok with (P := later) in E; [|apply later_make].
      eapply gone_later; [exact (later_trans _ _ _ E4 E)|]. eapply (gone_end (Inside (r_place q))); [|exact I|exact E3]. destruct E1. cbn. lia.
  - intros q m id s' M I E. unfold enter_member in E. rewrite M in E.
    assert (X : (assign q (VSome (vinit e (m_ty m))) ;* end_of (Inside (r_place q)) ;* let* c := sub q SSome in enter e fits (m_ty m) c) s = LOk id s').
    { destruct (core (m_ty m)); try discriminate; (destruct (fits _ _); [exact E|discriminate]). }
    clear E. apply bind_ok in X. destruct X as (x & s1 & E1 & E). apply on_ok with (P := later) in E1; [|apply later_assign].
    apply bind_ok in E. destruct E as (y & s2 & E2 & E). apply bind_ok in E. destruct E as (z & s3 & E3 & E).
    apply on_ok with (P := later) in E3; [|apply later_sub]. apply on_ok with (P := later) in E; [|apply later_enter].
    eapply gone_later; [exact (later_trans _ _ _ E3 E)|]. eapply (gone_end (Inside (r_place q))); [|exact I|exact E2]. destruct E1. lia.
  - intros h hs u id s' x E K O D. unfold drop in D. rewrite E, K in D. eapply (gone_end (Whole id)); [|exact O|exact D]. exact B.
Qed.

(** * Numbers of handlers *)

Lemma this_in : forall id s h s', this id s = LOk h s' -> In h (l_stack s) /\ l_id h = id /\ s' = s.
Proof.
  intros id s h s' H. unfold this in H. destruct (find _ _) as [x|] eqn:F; [|discriminate]. injection H as -> ->.
  apply find_some in F. destruct F as [I E]. apply Nat.eqb_eq in E. auto.
Qed.

Lemma this_gone : forall id s, ~ In id (map l_id (l_stack s)) -> this id s = LGone.
Proof.
  intros id s N. unfold this. destruct (find _ _) as [x|] eqn:F; [|reflexivity]. exfalso.
  apply find_some in F. destruct F as [I E]. apply Nat.eqb_eq in E. apply N. subst id. now apply in_map.
Qed.

Lemma handler_gone : forall s h hs id s', numbered s -> l_stack s = h :: hs -> leave (l_id h) s = LOk id s' ->
  this (l_id h) s' = LGone /\ fail (l_id h) s' = LGone /\ leave (l_id h) s' = LGone.
Proof.
  intros s h hs id s' [N _] E L.
  assert (St : l_stack s' = hs).
  { unfold leave in L. apply bind_ok in L. destruct L as (x & s1 & E1 & L). apply this_in in E1. destruct E1 as (_ & _ & ->).
    apply bind_ok in L. destruct L as (y & s2 & E2 & L). injection L as _ <-. unfold drop in E2. rewrite E in E2.
    destruct (l_kind h); injection E2 as _ <-; reflexivity. }
  assert (G : this (l_id h) s' = LGone).
  { apply this_gone. rewrite St. rewrite E in N. cbn in N. now inversion N. }
  unfold fail, leave, andthen. rewrite G. auto.
Qed.

Definition keeps (s s' : lstate) : Prop := numbered s -> numbered s'.

Lemma keeps_trans : forall a b c, keeps a b -> keeps b c -> keeps a c.
Proof. unfold keeps. auto. Qed.

Ltac same := intros N; exact N.

Lemma keeps_this : forall id, on keeps (this id).
Proof. intros id s. unfold this. destruct (find _ _); [same|exact I]. Qed.

Lemma keeps_fail : forall id, on keeps (fail id).
Proof. intros id. apply on_bind; [apply keeps_trans|apply keeps_this|]. intros _ s N. exact N. Qed.

Lemma keeps_deref : forall r, on keeps (deref r).
Proof. intros r s. unfold deref. destruct (dangling s r); [exact I|intros N; exact N]. Qed.

Lemma keeps_sub : forall r st, on keeps (sub r st).
Proof. intros. apply on_bind; [apply keeps_trans|apply keeps_deref|]. intros _ s N. exact N. Qed.

Lemma keeps_look : forall p, on keeps (look p).
Proof. intros p s N. exact N. Qed.

Lemma keeps_write : forall p w, on keeps (write_at p w).
Proof. intros p w s N. exact N. Qed.

Lemma keeps_end : forall g, on keeps (end_of g).
Proof. intros g s N. exact N. Qed.

Lemma keeps_ret : forall A (a : A), on keeps (ret a).
Proof. intros A a s N. exact N. Qed.

Lemma keeps_assign : forall r w, on keeps (assign r w).
Proof. intros. apply on_bind; [apply keeps_trans|apply keeps_deref|]. intros _. apply keeps_write. Qed.

Lemma keeps_push : forall fits k r, on keeps (push fits k r).
Proof.
  intros fits k r s. unfold push. destruct (fits _ _); [|exact I]. intros [N L]. split; cbn.
  - constructor; [|exact N]. intros X. apply in_map_iff in X. destruct X as (h & E & X). rewrite Forall_forall in L.
    apply L in X. lia.
  - constructor; [cbn; lia|]. eapply Forall_impl; [|exact L]. cbn. intros. lia.
Qed.

Lemma keeps_drop : on keeps drop.
Proof.
  intros s. unfold drop. destruct (l_stack s) as [|h hs] eqn:E; [exact I|].
  assert (X : numbered s -> NoDup (map l_id hs) /\ Forall (fun h => l_id h < l_serial s) hs).
  { intros [N L]. rewrite E in N, L. inversion N. inversion L. auto. }
  destruct (l_kind h); intros N; apply X in N; exact N.
Qed.

Lemma keeps_leave : forall id, on keeps (leave id).
Proof.
  intros id. apply on_bind; [apply keeps_trans|apply keeps_this|]. intros _.
  apply on_bind; [apply keeps_trans|apply keeps_drop|]. intros _. apply keeps_ret.
Qed.

Lemma keeps_exchange : forall fits k r, on keeps (exchange fits k r).
Proof. intros. apply on_bind; [apply keeps_trans|apply keeps_drop|]. intros _. apply keeps_push. Qed.

Lemma keeps_grow : forall moves p w, on keeps (grow moves p w).
Proof.
  intros. apply on_bind; [apply keeps_trans|apply keeps_look|]. intros o. apply on_bind; [apply keeps_trans|apply keeps_write|].
  intros _. destruct (moves (items_of o)); [apply keeps_end|apply keeps_ret].
Qed.

Lemma keeps_make : forall e t r, on keeps (make e t r).
Proof.
  induction t; intros r; cbn [make]; try apply keeps_ret.
  - apply on_bind; [apply keeps_trans|apply keeps_assign|]. intros _. apply on_bind; [apply keeps_trans|apply keeps_end|]. intros _.
    apply on_bind; [apply keeps_trans|apply keeps_sub|]. intros c. apply IHt.
  - apply on_bind; [apply keeps_trans|apply keeps_deref|]. intros _. apply on_bind; [apply keeps_trans|intros s N; exact N|]. intros _.
    apply on_bind; [apply keeps_trans|apply keeps_end|]. intros _. apply on_bind; [apply keeps_trans|apply keeps_sub|]. intros c. apply IHt.
Qed.

Lemma keeps_here : forall A (f : lstate -> act A), (forall s, on keeps (f s)) -> on keeps (fun s => f s s).
Proof. intros A f H s. apply H. Qed.

Lemma keeps_stop : forall A (x : lres A), match x with LOk _ _ | LFail _ => False | _ => True end -> on keeps (fun _ => x).
Proof. intros A [] H s0; cbn; auto; contradiction. Qed.

Lemma keeps_enter : forall e fits t r, on keeps (enter e fits t r).
Proof.
  intros e fits t r s. unfold enter.
  assert (X : match (if fits (kinds (l_stack s)) (size_of (KValue (core t))) then (let* c := make e t r in push fits (KValue (core t)) c) s else LOver) with LOk _ s' | LFail s' => keeps s s' | _ => True end).
  { destruct (fits _ _); [|exact I]. apply (on_bind _ _ keeps); [apply keeps_trans|apply keeps_make|]. intros c. apply keeps_push. }
  destruct (core t); first [exact X|exact I].
Qed.

Lemma keeps_enter_member : forall e fits m r, on keeps (enter_member e fits m r).
Proof.
  intros e fits m r s. unfold enter_member. destruct (m_kind m); try apply keeps_enter.
  assert (X : match (if fits (kinds (l_stack s)) (size_of (KValue (core (m_ty m)))) then
      (assign r (VSome (vinit e (m_ty m))) ;* end_of (Inside (r_place r)) ;* let* c := sub r SSome in enter e fits (m_ty m) c) s
      else LOver) with LOk _ s' | LFail s' => keeps s s' | _ => True end).
  { destruct (fits _ _); [|exact I]. apply (on_bind _ _ keeps); [apply keeps_trans|apply keeps_assign|]. intros _.
    apply on_bind; [apply keeps_trans|apply keeps_end|]. intros _. apply on_bind; [apply keeps_trans|apply keeps_sub|]. intros c. apply keeps_enter. }
  destruct (core (m_ty m)); first [exact X|exact I].
Qed.

Ltac keeping :=
  repeat first
    [ apply keeps_this | apply keeps_fail | apply keeps_deref | apply keeps_sub | apply keeps_look | apply keeps_write
    | apply keeps_end | apply keeps_ret | apply keeps_assign | apply keeps_push | apply keeps_drop | apply keeps_leave
    | apply keeps_exchange | apply keeps_grow | apply keeps_enter | apply keeps_enter_member
    | (apply keeps_stop; exact I) | (intros ? N; exact N)
    | (apply on_bind; [apply keeps_trans| |intros ?]) ].

Lemma keeps_begin : forall e fits id t ev, on keeps (begin_value e fits id t ev).
Proof.
  intros e fits id t ev.
  assert (Sc : on keeps (match scalar e t ev with
    | SAssign v => let* h := this id in assign (l_ref h) v ;* leave id
    | SStay v => let* h := this id in assign (l_ref h) v ;* ret id
    | SReject => fail id
    | SRejectAssign v => let* h := this id in assign (l_ref h) v ;* fail id
    | SUndefined => fun _ => LUndef
    end)) by (destruct (scalar e t ev); keeping).
  unfold begin_value. cbv zeta. destruct t; try exact Sc; try (destruct ev; keeping).
  - destruct (fast t); keeping.
    apply (keeps_here _ (fun s0 => drop ;* push_storage fits (KSet t (List.length (l_mem s0))) (l_ref a))). intros s0. unfold push_storage. keeping.
Qed.

Lemma keeps_handle : forall e fuel fits moves ev, on keeps (handle e fuel fits moves ev).
Proof.
  intros e fuel fits moves ev s. unfold handle. destruct (l_stack s) as [|h hs]; [exact I|]. destruct (l_kind h).
  - apply keeps_begin.
  - apply (fun X : on keeps (vector_event e fits moves (l_id h) u ev) => X s). unfold vector_event.
    destruct ev; keeping; destruct (fast u); try (destruct (scalar _ _ _)); keeping; destruct (is_json_type _ _); keeping; apply keeps_begin.
  - apply (fun X : on keeps (set_event e fits moves (l_id h) u {| object := id; path := [] |} ev) => X s). unfold set_event.
    destruct ev; keeping; destruct (is_json_type _ _); keeping;
      first [apply keeps_begin|intros at_s; exact (keeps_enter _ _ _ _ at_s)].
  - apply (fun X : on keeps (fast_set_event e (l_id h) u ev) => X s). unfold fast_set_event.
    destruct ev; keeping; destruct (scalar _ _ _); keeping.
  - apply (fun X : on keeps (map_event e fits (l_id h) u ev) => X s). unfold map_event. destruct ev; keeping.
  - apply (fun X : on keeps (object_event e fuel fits (l_id h) c ev) => X s). unfold object_event.
    destruct ev; keeping. destruct (dispatch _ _ _) as [[i|]| |]; keeping. destruct (nth_error _ _); keeping.
  - apply (fun X : on keeps (fixed_event e fits (l_id h) i ts ev) => X s). unfold fixed_event.
    destruct ts; destruct ev; keeping; apply keeps_begin.
Qed.

Lemma keeps_handle_all : forall e fuel fits moves evs, on keeps (handle_all e fuel fits moves evs).
Proof.
  induction evs as [|ev evs IH]; cbn [handle_all]; [apply keeps_ret|].
  apply on_bind; [apply keeps_trans|apply keeps_handle|]. intros _. exact IH.
Qed.

Lemma parse_numbered : forall e fuel fits moves t obj evs s,
  ends (parse_with_lifetimes e fuel fits moves t obj evs) s -> numbered s.
Proof.
  intros e fuel fits moves t obj evs s E. unfold parse_with_lifetimes in E.
  assert (O : on keeps (enter e fits t {| r_place := root_place; r_born := 1 |} ;* handle_all e fuel fits moves evs)).
  { apply on_bind; [apply keeps_trans|apply keeps_enter|]. intros _. apply keeps_handle_all. }
  specialize (O (nothing_yet obj)).
  destruct ((enter e fits t _ ;* handle_all e fuel fits moves evs) (nothing_yet obj)); cbn in E; try contradiction; subst; apply O; split; cbn; constructor.
Qed.
