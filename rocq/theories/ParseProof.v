(** The event handlers compute [pread]. *)
From Coq Require Import List Arith Lia ZArith NArith Ascii String Bool.
From Verif Require Import Base Float NumericModel HashModel DispatchModel Json Events Types SerializeModel DeserializeModel
  ParseModel ParseRead ParseSpec MapFacts PlaceFacts.
Import ListNotations.

Lemma shaped_repeat : forall e u x n, shaped e u x -> Forall (shaped e u) (repeat x n).
Proof. intros. induction n; cbn; auto. Qed.

Lemma vinit_shaped : forall e, shaped_classes e -> forall t, shaped e t (vinit e t).
Proof.
  intros e He t. induction t using ty_ind'; cbn [vinit]; try (apply shaped_other; reflexivity).
  - apply shaped_vector.
  - apply shaped_array; [apply repeat_length|now apply shaped_repeat].
  - apply shaped_set.
  - apply shaped_map; constructor.
  - now apply shaped_pair.
  - apply shaped_tuple. induction H; cbn; auto.
  - apply He.
Qed.

Lemma dinit_shaped : forall e, shaped_classes e -> forall t, shaped e t (dinit e t).
Proof.
  intros e He t. induction t using ty_ind'; cbn [dinit]; try apply vinit_shaped; auto; try (apply shaped_other; reflexivity).
  - apply shaped_array; [apply repeat_length|now apply shaped_repeat].
  - apply He.
Qed.

Section Proof.
Variable e : env.
Variable fuel : nat.
Variable fits : capacity.
Hypothesis shapes : shaped_classes e.

Notation pread := (pread e fuel fits).
Notation ropen := (ropen e fits).
Notation rmember := (rmember e fits).
Notation ritems := (ritems e fits).
Notation rfixed := (rfixed e fits).
Notation rentries := (rentries e fits).
Notation rmembers := (rmembers e fuel fits).
Notation step := (step e fuel fits).
Notation run := (run e fuel fits).
Notation open := (open e fits).

Definition elem (j : json) : event * rdr := (head j, pread j).
Definition entry (p : string * json) : string * rdr := (fst p, pread (snd p)).

(** * Shape of the results *)
Definition good_shape (f : rdr) : Prop := forall below t old a v a',
  f below t old a = RDone v a' -> shaped e t old -> shaped e t v.

Lemma rmap_done : forall w x v a, rmap w x = RDone v a -> exists v', x = RDone v' a /\ v = w v'.
Proof. intros w x v a H. destruct x; cbn in H; inversion H; subst; eauto. Qed.

Lemma andthen_done : forall x k v a, andthen x k = RDone v a -> exists v' a', x = RDone v' a' /\ k v' a' = RDone v a.
Proof. intros x k v a H. destruct x; cbn in H; try discriminate; eauto. Qed.

Lemma ropen_shape : forall f below t old a v a', good_shape f -> ropen below t f old a = RDone v a' ->
  shaped e t old -> shaped e t v.
Proof.
  intros f below t old a v a' Hf H Ho. unfold ParseRead.ropen in H.
  destruct (compiles t); [|discriminate]. destruct (fits below _); [|discriminate].
  destruct t; try (apply shaped_other; reflexivity); cbn [boxed core] in H; eapply Hf; eauto.
Qed.

Lemma ritems_shape : forall u below fs acc a v a', ritems u below fs acc a = RDone v a' -> exists l, v = VList l.
Proof.
  induction fs as [|[ev f] fs IH]; intros acc a v a' H; cbn in H; [inversion H; eauto|].
  destruct (is_json_type u ev); [|discriminate]. apply andthen_done in H. destruct H as (? & ? & _ & H). eauto.
Qed.

Lemma rfast_shape : forall u add evs acc a v a', rfast e u add evs acc a = RDone v a' -> exists l, v = VList l.
Proof.
  induction evs as [|ev evs IH]; intros acc a v a' H; cbn in H; [inversion H; eauto|].
  destruct (scalar e u ev); try discriminate. eauto.
Qed.

Lemma set_skipn : forall A (l : list A) i x, skipn (S i) (set_nth l i x) = skipn (S i) l.
Proof. induction l as [|y l IH]; intros [|i] x; cbn; auto. apply (IH i). Qed.

Lemma set_firstn : forall A (l : list A) i x, i < List.length l -> firstn (S i) (set_nth l i x) = firstn i l ++ [x].
Proof. induction l as [|y l IH]; intros [|i] x H; cbn in *; try lia; auto. rewrite <- IH by lia. reflexivity. Qed.

Lemma skipn_cons : forall A (l : list A) i, i < List.length l -> exists x, skipn i l = x :: skipn (S i) l /\ nth_error l i = Some x.
Proof.
  induction l as [|y l IH]; intros [|i] H; cbn in *; try lia; eauto. destruct (IH i) as (x & ? & ?); [lia|]. eauto.
Qed.

Lemma firstn_last : forall A (l : list A) i x, nth_error l i = Some x -> firstn (S i) l = firstn i l ++ [x].
Proof. induction l as [|y l IH]; intros [|i] x H; cbn in *; try discriminate; [inversion H; auto|]. f_equal. now apply IH. Qed.

(** [all] are the types of all components, the first [i] of which are read. *)
Lemma rfixed_shape : forall fs i ts below vs a v a' all, Forall (fun p => good_shape (snd p)) fs ->
  rfixed i ts below fs vs a = RDone v a' -> skipn i all = ts -> Forall2 (shaped e) all vs ->
  exists l, v = VList l /\ Forall2 (shaped e) all l.
Proof.
  induction fs as [|[ev f] fs IH]; intros i ts below vs a v a' all Hf H Ha Hv.
  - destruct ts; cbn in H; inversion H; eauto.
  - destruct ts as [|t ts]; cbn in H; [discriminate|]. destruct (fits below _); [|discriminate].
    apply andthen_done in H. destruct H as (v1 & a1 & H1 & H). inversion Hf; subst.
    assert (Hi : i < List.length all).
    { apply (f_equal (@List.length _)) in Ha. rewrite skipn_length in Ha. cbn in Ha. lia. }
    destruct (skipn_cons _ _ _ Hi) as (t' & Hs & Hn). rewrite Hs in Ha. inversion Ha; subst t' ts.
    assert (Hx : exists x, nth_error vs i = Some x /\ shaped e t x).
    { clear - Hv Hn. revert i Hn. induction Hv; intros [|i] Hn; cbn in *; try discriminate.
      - inversion Hn; subst; eauto.
      - eauto. }
    destruct Hx as (x & Hx & Hsx).
    eapply IH; eauto.
    rewrite (nth_error_nth vs i _ Hx) in H1.
    assert (shaped e t v1) by (eapply ropen_shape; eauto).
    clear - Hv Hn H0. revert i Hn. induction Hv; intros [|i] Hn; cbn in *; try discriminate; auto.
    inversion Hn; subst; auto.
Qed.

Lemma assign_shape : forall (P : val -> Prop) l k v, Forall (fun p => P (snd p)) l -> P v ->
  Forall (fun p => P (snd p)) (map_assign l k v).
Proof.
  induction l as [|[k' x] l IH]; intros k v H Hv; cbn; auto.
  inversion H; subst. destruct (str_ltb k k'); auto. destruct (str_ltb k' k); auto.
Qed.

Lemma emplace_shape : forall (P : val -> Prop) l k v, Forall (fun p => P (snd p)) l -> P v ->
  Forall (fun p => P (snd p)) (try_emplace l k v).
Proof. intros. unfold try_emplace. destruct (map_find l k); auto. now apply assign_shape. Qed.

Lemma replace_shape : forall (P : val -> Prop) l k v, Forall (fun p => P (snd p)) l -> P v ->
  Forall (fun p => P (snd p)) (map_replace l k v).
Proof.
  induction l as [|[k' x] l IH]; intros k v H Hv; cbn; auto.
  inversion H; subst. destruct (String.eqb k' k); auto.
Qed.

Lemma find_shape : forall (P : val -> Prop) l k v, Forall (fun p => P (snd p)) l -> map_find l k = Some v -> P v.
Proof.
  induction l as [|[k' x] l IH]; intros k v H Hv; cbn in *; try discriminate.
  inversion H; subst. destruct (String.eqb k' k); eauto. inversion Hv; subst; auto.
Qed.

Lemma replace_above : forall l k w q, Forall (fun p => str_ltb q (fst p) = true) l ->
  Forall (fun p : string * val => str_ltb q (fst p) = true) (map_replace l k w).
Proof. intros l k w q F. induction F as [|[n x] l H F IH]; cbn; auto. destruct (String.eqb n k); auto. Qed.

Lemma replace_ascending : forall l k w, ascending l -> ascending (map_replace l k w).
Proof.
  intros l k w S. induction S as [|[n x] l S IH F]; cbn; [constructor|]. destruct (String.eqb n k); constructor; auto.
  now apply replace_above.
Qed.

Lemma emplace_ascending : forall l k w, ascending l -> ascending (try_emplace l k w).
Proof. intros l k w S. unfold try_emplace. destruct (map_find l k); auto. now apply map_assign_ascending. Qed.

Lemma rentries_shape : forall fs u below acc a v a', Forall (fun p => good_shape (snd p)) fs ->
  rentries u below fs acc a = RDone v a' -> ascending acc -> Forall (fun p => shaped e u (snd p)) acc ->
  exists l, v = VMap l /\ ascending l /\ Forall (fun p => shaped e u (snd p)) l.
Proof.
  induction fs as [|[k f] fs IH]; intros u below acc a v a' Hf H Hs Ha; cbn in H; [inversion H; eauto|].
  apply andthen_done in H. destruct H as (v1 & a1 & H1 & H). inversion Hf; subst.
  pose proof (emplace_shape (shaped e u) acc k (vinit e u) Ha (vinit_shaped e shapes u)) as Hacc.
  destruct (emplace_find acc k (vinit e u)) as (x & Hx & _). rewrite Hx in H1.
  eapply IH; [eassumption|eassumption|now apply replace_ascending, emplace_ascending|]. apply replace_shape; auto.
  eapply ropen_shape; [eassumption|exact H1|]. eapply (find_shape (shaped e u)); eauto.
Qed.

Definition member_shape (m : member) (v : val) : Prop := m_kind m <> MOptional -> shaped e (m_ty m) v.

Lemma forall2_nth : forall A B (R : A -> B -> Prop) l l' i x, Forall2 R l l' -> nth_error l i = Some x ->
  exists y, nth_error l' i = Some y /\ R x y.
Proof.
  intros A B R l l' i x H. revert i. induction H; intros [|i] Hi; cbn in *; try discriminate; eauto.
  inversion Hi; subst; eauto.
Qed.

Lemma forall2_set : forall A B (R : A -> B -> Prop) l l' i x y, Forall2 R l l' -> nth_error l i = Some x -> R x y ->
  Forall2 R l (set_nth l' i y).
Proof.
  intros A B R l l' i x y H. revert i. induction H; intros [|i] Hi Hx; cbn in *; try discriminate; auto.
  inversion Hi; subst; auto.
Qed.

Lemma rmember_shape : forall f below m old a v a', good_shape f -> rmember below m f old a = RDone v a' ->
  member_shape m old -> member_shape m v.
Proof.
  intros f below m old a v a' Hf H Ho Hk. unfold ParseRead.rmember in H.
  destruct (m_kind m) eqn:E; try congruence; eapply ropen_shape; eauto; apply Ho; congruence.
Qed.

Lemma rmembers_shape : forall fs ms below vs a v a', Forall (fun p => good_shape (snd p)) fs ->
  rmembers ms below fs vs a = RDone v a' -> Forall2 member_shape ms vs ->
  exists l, v = VObj l /\ Forall2 member_shape ms l.
Proof.
  induction fs as [|[k f] fs IH]; intros ms below vs a v a' Hf H Ha; cbn in H; [inversion H; eauto|].
  destruct (dispatch _ _ _) as [[i|]| |]; try discriminate.
  destruct (nth_error ms i) as [m|] eqn:E; [|discriminate].
  apply andthen_done in H. destruct H as (v1 & a1 & H1 & H). inversion Hf; subst.
  eapply IH; [eassumption|eassumption|].
  destruct (forall2_nth _ _ _ _ _ _ _ Ha E) as (x & Hx & Hm).
  rewrite (nth_error_nth vs i _ Hx) in H1.
  eapply forall2_set; eauto. eapply rmember_shape; eauto.
Qed.

Lemma shaped_components : forall t l v, shaped e t v ->
  (exists n u, t = TArray n u /\ l = repeat u n) \/ (exists a b, t = TPair a b /\ l = [a; b]) \/ t = TTuple l ->
  exists vs, v = VList vs /\ Forall2 (shaped e) l vs.
Proof.
  intros t l v H [(n & u & -> & ->)|[(a & b & -> & ->)| ->]]; inversion H; subst; try discriminate.
  - exists l. split; auto. clear - H4. induction H4; cbn; auto.
  - exists [x; y]. auto.
  - eauto.
Qed.

Lemma components_shaped : forall t l vs, Forall2 (shaped e) l vs ->
  (exists n u, t = TArray n u /\ l = repeat u n) \/ (exists a b, t = TPair a b /\ l = [a; b]) \/ t = TTuple l ->
  shaped e t (VList vs).
Proof.
  intros t l vs H [(n & u & -> & ->)|[(a & b & -> & ->)| ->]].
  - apply shaped_array.
    + revert vs H. induction n; cbn; intros vs H; inversion H; subst; cbn; auto.
    + revert vs H. induction n; cbn; intros vs H; inversion H; subst; auto.
  - inversion H as [|? ? ? ? Hx H']; subst. inversion H' as [|? ? ? ? Hy H'']; subst. inversion H''; subst. now apply shaped_pair.
  - now apply shaped_tuple.
Qed.

Lemma replaced_done : forall below k x v a, replaced fits below k x = RDone v a -> x = RDone v a.
Proof. intros below k x v a H. unfold replaced in H. destruct (fits below _); auto; discriminate. Qed.

Lemma elems_good : forall js, Forall (fun j => good_shape (pread j)) js -> Forall (fun p => good_shape (snd p)) (map elem js).
Proof. intros. now apply Forall_map. Qed.

Lemma pread_shape : forall j, good_shape (pread j).
Proof.
  induction j using json_ind'; intros below t old a v a' H0 Ho;
    try (destruct t; cbn in H0; try discriminate; try (apply shaped_other; reflexivity); fail).
  - destruct t; cbn [ParseRead.pread] in H0; try discriminate; try (apply shaped_other; reflexivity).
    + apply replaced_done in H0. destruct (fast t).
      * destruct (rfast_shape _ _ _ _ _ _ _ H0) as (? & ->). apply shaped_vector.
      * destruct (ritems_shape _ _ _ _ _ _ _ H0) as (? & ->). apply shaped_vector.
    + apply replaced_done in H0. pose proof (shaped_components _ (repeat t n) _ Ho) as Hc.
      destruct Hc as (vs & -> & Hc); [left; eauto|].
      destruct (rfixed_shape _ _ _ _ _ _ _ _ (repeat t n) (elems_good _ H) H0 eq_refl Hc) as (l' & -> & Hl).
      eapply components_shaped; eauto 6.
    + destruct (fast t).
      * apply replaced_done in H0. destruct (rfast_shape _ _ _ _ _ _ _ H0) as (? & ->). apply shaped_set.
      * apply replaced_done in H0. apply rmap_done in H0. destruct H0 as (? & ? & ->). apply shaped_set.
    + apply replaced_done in H0. pose proof (shaped_components _ [t1; t2] _ Ho) as Hc.
      destruct Hc as (vs & -> & Hc); [right; left; eauto|].
      destruct (rfixed_shape _ _ _ _ _ _ _ _ [t1; t2] (elems_good _ H) H0 eq_refl Hc) as (l' & -> & Hl).
      eapply components_shaped; eauto 6.
    + apply replaced_done in H0. pose proof (shaped_components _ ts _ Ho) as Hc.
      destruct Hc as (vs & -> & Hc); [right; right; auto|].
      destruct (rfixed_shape _ _ _ _ _ _ _ _ ts (elems_good _ H) H0 eq_refl Hc) as (l' & -> & Hl).
      eapply components_shaped; eauto 6.
  - assert (Hg : Forall (fun p => good_shape (snd p)) (map entry l)) by now apply Forall_map.
    destruct t; cbn [ParseRead.pread] in H0; try discriminate; try (apply shaped_other; reflexivity).
    + apply replaced_done in H0. inversion Ho as [| | | |o' u' l0 Hs Hm| | |]; subst; try discriminate. cbn [pairs_of] in H0.
      destruct (rentries_shape _ _ _ _ _ _ _ Hg H0 Hs Hm) as (l' & -> & Hl & Hl'). now apply shaped_map.
    + apply replaced_done in H0. inversion Ho as [| | | | | | |c' l0 Hm]; subst; try discriminate. cbn [parts_of] in H0.
      destruct (rmembers_shape _ _ _ _ _ _ _ Hg H0 Hm) as (l' & -> & Hl). now apply shaped_class.
Qed.

(** * Outcomes *)
Definition st (m : memory) (hs : list handler) (a : nat) : pstate := {| mem := m; stack := hs; fresh_address := a |}.
Definition hd_ (k : kind) (r : place) : handler := {| h_kind := k; h_ref := r |}.
Definition after (x : pres) (k : pstate -> pres) : pres := match x with POk s => k s | x => x end.

Definition within (m : memory) (r : place) (m' : memory) : Prop :=
  exists w extra, m' = store m r w ++ extra.

Definition fails (m : memory) (r : place) (x : pres) : Prop :=
  exists m' hs a, x = PFail (st m' hs a) /\ within m r m'.

Definition agrees (m : memory) (r : place) (hs : list handler) (rest : list event) (res : rres) (x : pres) : Prop :=
  match res with
  | RDone v a => x = run rest (st (store m r v) hs a)
  | ROpen v a => exists names r1 w y, v = w y /\
      (forall y y', store (store m r (w y)) r1 y' = store m r (w y')) /\
      x = run rest (st (store m r v) (hd_ (KValue (TEnumStr names)) r1 :: hs) a)
  | RFail => fails m r x
  | ROver => x = POver
  | RUndef => x = PUndef
  | ROutside => x = POutside
  end.

Lemma run_cons : forall ev evs s, run (ev :: evs) s = after (step ev s) (run evs).
Proof. intros. cbn. destruct (step ev s); reflexivity. Qed.

Lemma agrees_rmap : forall m r m1 r1 w hs rest x y, (forall v, store m1 r1 v = store m r (w v)) ->
  agrees m1 r1 hs rest x y -> agrees m r hs rest (rmap w x) y.
Proof.
  intros m r m1 r1 w hs rest x y Hw H. destruct x; cbn in *; auto.
  - now rewrite <- Hw.
  - destruct H as (names & r2 & w2 & z & -> & Hs & ->). exists names, r2, (fun u => w (w2 u)), z.
    split; auto. split; [|now rewrite <- Hw].
    intros. rewrite <- !Hw. apply Hs.
  - destruct H as (m' & hs' & a' & -> & w1 & extra & ->). exists (store m1 r1 w1 ++ extra), hs', a'.
    split; auto. exists (w w1), extra. now rewrite Hw.
Qed.

Lemma fails_lift : forall m r m1 r1 x, (forall w, exists w', store m1 r1 w = store m r w') -> fails m1 r1 x -> fails m r x.
Proof.
  intros m r m1 r1 x Hw (m' & hs & a & -> & w & extra & ->). destruct (Hw w) as (w' & ->).
  exists (store m r w' ++ extra), hs, a. split; auto. exists w', extra. auto.
Qed.

(** Events at which a handler that has not been popped fails. *)
Definition blocks (evs : list event) : Prop := forall m r names r1 w y hs a,
  (forall y y', store (store m r (w y)) r1 y' = store m r (w y')) ->
  fails m r (run evs (st (store m r (w y)) (hd_ (KValue (TEnumStr names)) r1 :: hs) a)).

Lemma fails_at : forall m r w hs a, fails m r (PFail (st (store m r w) hs a)).
Proof. intros. exists (store m r w), hs, a. split; auto. exists w, []. now rewrite app_nil_r. Qed.

Lemma blocks_key : forall k rest, blocks (EKey k :: rest).
Proof. intros k rest m r names r1 w y hs a Hs. cbn. apply fails_at. Qed.

Lemma blocks_end_object : forall rest, blocks (EEndObject :: rest).
Proof. intros rest m r names r1 w y hs a Hs. cbn. apply fails_at. Qed.

Lemma blocks_array : forall js rest, blocks (flat_map events js ++ EEndArray :: rest).
Proof.
  induction js as [|j js IH]; intros rest m r names r1 w y hs a Hs; [cbn; apply fails_at|].
  destruct j; try (cbn; apply fails_at).
  cbn [flat_map events app]. rewrite run_cons. cbn -[EnumModel.enum_from_string].
  destruct (EnumModel.enum_from_string names s) as [z|]; [|apply fails_at].
  cbn. unfold put. cbn. rewrite Hs. apply IH. auto.
Qed.

Lemma agrees_then : forall m r m1 r1 hs1 rest1 hs rest X k x, agrees m1 r1 hs1 rest1 X x ->
  (forall w, exists w', store m1 r1 w = store m r w') -> blocks rest1 ->
  (forall v a, X = RDone v a -> agrees m r hs rest (k v a) (run rest1 (st (store m1 r1 v) hs1 a))) ->
  agrees m r hs rest (andthen X k) x.
Proof.
  intros m r m1 r1 hs1 rest1 hs rest X k x H Hw Hb Hk. destruct X; cbn in *; auto.
  - subst. auto.
  - destruct H as (names & r2 & w & y & -> & Hs & ->). eapply fails_lift; eauto. 
  - eapply fails_lift; eauto.
Qed.

(** * Opening a handler *)
Lemma construct_spec : forall t r m hs a old, load m r = Some old -> shaped e t old ->
  exists w r1 m1 a1 old1, construct e t r (st m hs a) = (r1, st m1 hs a1) /\
    (forall k, boxed e t old a k = rmap w (k old1 a1)) /\ load m1 r1 = Some old1 /\ shaped e (core t) old1 /\
    (forall v, store m1 r1 v = store m r (w v)).
Proof.
  assert (Hid : forall x, rmap (fun v => v) x = x) by now destruct x.
  induction t; intros r m hs a old Hl Ho; cbn [construct boxed core];
    try (exists (fun v => v), r, m, a, old; repeat split; auto; fail).
  - destruct (IHt (into r SPtr) (store m r (VPtr (vinit e t))) hs a (vinit e t)) as (w & r1 & m1 & a1 & old1 & Hc & Hb & Hl1 & Hs1 & Hw).
    + rewrite (load_into _ _ _ _ (load_store _ _ _ _ Hl)). reflexivity.
    + now apply vinit_shaped.
    + exists (fun v => VPtr (w v)), r1, m1, a1, old1. split; [exact Hc|]. split.
      * intros k. rewrite Hb. now destruct (k old1 a1).
      * split; [auto|]. split; [auto|]. intros v. rewrite Hw.
        erewrite store_into; [|eapply load_store; eauto|reflexivity]. cbn. eapply store_store; eauto.
  - destruct (IHt (into r SPtr) (store m r (VShared a (vinit e t))) hs (S a) (vinit e t)) as (w & r1 & m1 & a1 & old1 & Hc & Hb & Hl1 & Hs1 & Hw).
    + rewrite (load_into _ _ _ _ (load_store _ _ _ _ Hl)). reflexivity.
    + now apply vinit_shaped.
    + exists (fun v => VShared a (w v)), r1, m1, a1, old1. split; [exact Hc|]. split.
      * intros k. rewrite Hb. now destruct (k old1 a1).
      * split; [auto|]. split; [auto|]. intros v. rewrite Hw.
        erewrite store_into; [|eapply load_store; eauto|reflexivity]. cbn. eapply store_store; eauto.
Qed.

(** What is to be proved about a document. *)
Definition reads (j : json) : Prop := forall t old a m hs r rest, load m r = Some old -> shaped e t old ->
  agrees m r hs rest (pread j (sizes hs) t old a) (run (events j ++ rest) (st m (hd_ (KValue t) r :: hs) a)).

Lemma open_eq : forall t r s, open t r s =
  if compiles t then
    if fits (sizes (stack s)) (size_of (KValue (core t)))
    then let '(r, s) := construct e t r s in emplace fits (KValue (core t)) r s
    else POver
  else POutside.
Proof. intros. unfold ParseModel.open, compiles. destruct (core t); reflexivity. Qed.

Lemma opened : forall j t old a m hs r rest, reads j -> load m r = Some old -> shaped e t old ->
  agrees m r hs rest (ropen (sizes hs) t (pread j) old a) (after (open t r (st m hs a)) (run (events j ++ rest))).
Proof.
  intros j t old a m hs r rest Hj Hl Ho. rewrite open_eq. unfold ParseRead.ropen. cbn [stack st].
  destruct (compiles t); [|reflexivity]. destruct (fits (sizes hs) _) eqn:F; [|reflexivity].
  destruct (construct_spec t r m hs a old Hl Ho) as (w & r1 & m1 & a1 & old1 & Hc & Hb & Hl1 & Hs1 & Hw).
  rewrite Hc, Hb. unfold emplace. cbn [stack st]. rewrite F. cbn [after mem fresh_address st].
  eapply agrees_rmap; [exact Hw|]. apply Hj; auto.
Qed.

Lemma forward_open : forall ev evs t r s,
  after (forward e fits ev (open t r s)) (run evs) = after (open t r s) (run (ev :: evs)).
Proof.
  intros. rewrite open_eq. destruct (compiles t); [|reflexivity]. destruct (fits _ _); [|reflexivity].
  destruct (construct e t r s) as [r1 s1]. unfold emplace. destruct (fits (sizes (stack s1)) _); [|reflexivity].
  match goal with |- _ = after (POk ?s) (run (ev :: evs)) => change (after (POk s) (run (ev :: evs))) with (run (ev :: evs) s) end. rewrite run_cons. reflexivity.
Qed.

Lemma events_head : forall j, exists evs, events j = head j :: evs.
Proof. destruct j; cbn; eauto. Qed.

Lemma opened_forward : forall j t old a m hs r rest evs, reads j -> load m r = Some old -> shaped e t old ->
  events j = head j :: evs ->
  agrees m r hs rest (ropen (sizes hs) t (pread j) old a)
    (after (forward e fits (head j) (open t r (st m hs a))) (run (evs ++ rest))).
Proof.
  intros. rewrite forward_open. change (head j :: evs ++ rest) with ((head j :: evs) ++ rest). rewrite <- H2. now apply opened.
Qed.

Lemma opened_member : forall j c old a m hs r rest, reads j -> load m r = Some old -> member_shape c old ->
  agrees m r hs rest (rmember (sizes hs) c (pread j) old a) (after (open_member e fits c r (st m hs a)) (run (events j ++ rest))).
Proof.
  intros j c old a m hs r rest Hj Hl Ho. unfold ParseRead.rmember, open_member, member_shape in *.
  destruct (m_kind c) eqn:Ek; try (apply opened; auto; apply Ho; congruence).
  assert (E : forall (x : pres), (match core (m_ty c) with TVariant _ | TPtr _ => POutside | t' =>
      if fits (sizes (stack (st m hs a))) (size_of (KValue t')) then x else POver end) =
      if compiles (m_ty c) then if fits (sizes hs) (size_of (KValue (core (m_ty c)))) then x else POver else POutside).
  { intros. unfold compiles. cbn [stack st]. destruct (core (m_ty c)); reflexivity. }
  rewrite E. clear E.
  set (V := vinit e (m_ty c)).
  assert (H1 : agrees (store m r (VSome V)) (into r SSome) hs rest (ropen (sizes hs) (m_ty c) (pread j) V a)
                 (after (open (m_ty c) (into r SSome) (st (store m r (VSome V)) hs a)) (run (events j ++ rest)))).
  { apply opened; auto; [|now apply vinit_shaped].
    rewrite (load_into _ _ _ _ (load_store _ _ _ _ Hl)). reflexivity. }
  eapply agrees_rmap with (w := VSome) (m := m) (r := r) in H1.
  2:{ intros v. erewrite store_into; [|eapply load_store; eauto|reflexivity]. cbn. eapply store_store; eauto. }
  unfold ParseRead.ropen in *. rewrite open_eq in *. cbn [stack st] in *. unfold put. cbn [stack mem fresh_address st]. fold (st (store m r (VSome V)) hs a).
  destruct (compiles (m_ty c)); [|exact H1]. destruct (fits (sizes hs) _) eqn:F; [|exact H1].
  exact H1.
Qed.
(** * Scalars *)
Lemma scalar_single : forall t j v, scalar e t (head j) = SAssign v \/ scalar e t (head j) = SStay v -> events j = [head j].
Proof.
  intros t j v H. destruct j; try reflexivity; exfalso; destruct t; cbn in H; destruct H; discriminate.
Qed.

Lemma stay_enum : forall t ev v, scalar e t ev = SStay v -> exists names, t = TEnumStr names.
Proof.
  intros t ev v H. destruct t; cbn -[assign_number] in H; try (destruct ev; discriminate); eauto.
  all: repeat match type of H with
    | match ?x with _ => _ end = _ => let E := fresh in destruct x eqn:E; try discriminate
    end.
Qed.

Lemma no_stay_fast : forall t ev, fast t = true -> match scalar e t ev with SStay _ | SRejectAssign _ | SUndefined => False | _ => True end.
Proof.
  intros t ev H. destruct t; cbn in H; try discriminate; cbn -[assign_number]; try (destruct ev; exact I);
  destruct (number_event ev) as [n|]; try exact I; destruct (assign_number _ n); exact I.
Qed.

Definition scalar_type (t : ty) : bool :=
  negb (composite t) && match t with TVariant _ | TPtr _ | TUnique _ | TShared _ => false | _ => true end.

Definition scalar_result (a : nat) (x : sres) : rres :=
  match x with
  | SAssign v => RDone v a
  | SStay v => ROpen v a
  | SReject | SRejectAssign _ => RFail
  | SUndefined => RUndef
  end.

Lemma pread_scalar : forall t j below old a, scalar_type t = true -> pread j below t old a = scalar_result a (scalar e t (head j)).
Proof. intros t j below old a H. destruct t; try discriminate H; destruct j; reflexivity. Qed.

Lemma on_scalar : forall t r ev s, scalar_type t = true -> on_value e fits t r ev s =
  match scalar e t ev with
  | SAssign v => POk (pop (put r v s))
  | SStay v => POk (put r v s)
  | SReject => PFail s
  | SRejectAssign v => PFail (put r v s)
  | SUndefined => PUndef
  end.
Proof. intros t r ev s H. destruct t; try discriminate H; reflexivity. Qed.

Lemma fails_here : forall m r old hs a, load m r = Some old -> fails m r (PFail (st m hs a)).
Proof.
  intros m r old hs a Hl. exists m, hs, a. split; auto. exists old, []. now rewrite (store_same _ _ _ Hl), app_nil_r.
Qed.

Lemma scalar_reads : forall t j old a m hs r rest, scalar_type t = true -> load m r = Some old ->
  agrees m r hs rest (pread j (sizes hs) t old a) (run (events j ++ rest) (st m (hd_ (KValue t) r :: hs) a)).
Proof.
  intros t j old a m hs r rest Ht Hl. rewrite pread_scalar by auto.
  destruct (events_head j) as (evs & He). rewrite He. cbn [app]. rewrite run_cons.
  change (step (head j) (st m (hd_ (KValue t) r :: hs) a)) with (on_value e fits t r (head j) (st m (hd_ (KValue t) r :: hs) a)).
  rewrite on_scalar by auto. destruct (scalar e t (head j)) as [v|v| |v|] eqn:E; cbn [after scalar_result agrees].
  - rewrite (scalar_single t j v) in He by auto. inversion He; subst. reflexivity.
  - rewrite (scalar_single t j v) in He by auto. inversion He; subst.
    destruct (stay_enum _ _ _ E) as (names & ->). exists names, r, (fun v => v), v. repeat split.
    intros. eapply store_store; eauto.
  - eapply fails_here; eauto.
  - unfold put. cbn. apply fails_at.
  - reflexivity.
Qed.

(** * Arrays *)
Lemma head_no_end : forall j, head j <> EEndArray.
Proof. now destruct j. Qed.

Section Items.
Variable u : ty.
Variable H : handler.
Variable hs : list handler.
Variable q : place.

Lemma fast_run : forall add rest,
  (forall ev s, stack s = H :: hs -> ev <> EEndArray -> step ev s = fast_item e u q add ev s) ->
  fast u = true -> forall js acc a m, load m q = Some (VList acc) ->
  agrees m q (H :: hs) (EEndArray :: rest) (rfast e u add (map fst (map elem js)) acc a)
    (run (flat_map events js ++ EEndArray :: rest) (st m (H :: hs) a)).
Proof.
  intros add rest Hstep Hu. induction js as [|j js IH]; intros acc a m Hl; cbn [map rfast flat_map].
  - cbn [app agrees]. now rewrite (store_same _ _ _ Hl).
  - destruct (events_head j) as (evs & He). rewrite He. cbn [app]. rewrite run_cons.
    rewrite Hstep by (auto using head_no_end). unfold fast_item. cbn [fst elem].
    pose proof (no_stay_fast u (head j) Hu) as Hn.
    destruct (scalar e u (head j)) as [v|v| |v|] eqn:E; try contradiction.
    + rewrite (scalar_single u j v) in He by auto. inversion He; subst. cbn [app after].
      unfold put, items. cbn [mem stack fresh_address st]. rewrite Hl. fold (st (store m q (VList (add acc v))) (H :: hs) a).
      specialize (IH (add acc v) a (store m q (VList (add acc v))) (load_store _ _ _ _ Hl)).
      destruct (rfast e u add _ _ a) eqn:R; cbn [agrees] in *.
      * now rewrite (store_store _ _ _ _ _ Hl) in IH.
      * exfalso. clear - R. revert R. generalize (add acc v). generalize (map fst (map elem js)).
        induction l as [|ev l IH]; cbn; intros acc' R; [discriminate|]. destruct (scalar e u ev); try discriminate. eauto.
      * eapply fails_lift; [|exact IH]. intros. exists w. eapply store_store; eauto.
      * auto.
      * auto.
      * auto.
    + cbn [after agrees]. eapply fails_here; eauto.
Qed.

Lemma items_run : forall rest,
  (forall ev s, stack s = H :: hs -> ev <> EEndArray -> step ev s =
     if is_json_type u ev then
       forward e fits ev (open u (into q (SItem (List.length (items (mem s) q))))
                             (put q (VList (push_back (items (mem s) q) (vinit e u))) s))
     else PFail s) ->
  forall js, Forall reads js -> forall acc a m, load m q = Some (VList acc) ->
  agrees m q (H :: hs) (EEndArray :: rest) (ritems u (sizes (H :: hs)) (map elem js) acc a)
    (run (flat_map events js ++ EEndArray :: rest) (st m (H :: hs) a)).
Proof.
  intros rest Hstep js Hjs. induction Hjs as [|j js Hj Hjs IH]; intros acc a m Hl; cbn [map ParseRead.ritems flat_map].
  - cbn [app agrees]. now rewrite (store_same _ _ _ Hl).
  - destruct (events_head j) as (evs & He). rewrite He. cbn [app]. rewrite run_cons.
    rewrite Hstep by (auto using head_no_end). cbn [elem].
    destruct (is_json_type u (head j)); [|cbn [after agrees]; eapply fails_here; eauto].
    unfold items. cbn [mem st]. rewrite Hl. unfold put. cbn [mem stack fresh_address st].
    set (m1 := store m q (VList (push_back acc (vinit e u)))). fold (st m1 (H :: hs) a).
    assert (Hl1 : load m1 q = Some (VList (push_back acc (vinit e u)))) by (eapply load_store; eauto).
    assert (Hg : get_step (SItem (List.length acc)) (VList (push_back acc (vinit e u))) = Some (vinit e u)).
    { cbn. unfold push_back. now rewrite nth_error_app2, Nat.sub_diag by lia. }
    assert (Hst : forall w, store m1 (into q (SItem (List.length acc))) w = store m q (VList (push_back acc w))).
    { intros w. rewrite (store_into _ _ _ _ _ _ Hl1 Hg). cbn. unfold push_back. rewrite set_nth_end. unfold m1. eapply store_store; eauto. }
    rewrite <- app_assoc.
    eapply agrees_then with (m1 := m1) (r1 := into q (SItem (List.length acc))) (hs1 := H :: hs)
      (rest1 := flat_map events js ++ EEndArray :: rest).
    + apply opened_forward; auto; [|now apply vinit_shaped]. now rewrite (load_into _ _ _ _ Hl1).
    + intros w. rewrite Hst. eauto.
    + apply blocks_array.
    + intros v a' _. rewrite Hst.
      specialize (IH (push_back acc v) a' (store m q (VList (push_back acc v))) (load_store _ _ _ _ Hl)).
      destruct (ritems u (sizes (H :: hs)) (map elem js) (push_back acc v) a') eqn:R; cbn [agrees] in *; auto.
      * now rewrite (store_store _ _ _ _ _ Hl) in IH.
      * exfalso. clear - R. revert R. generalize (push_back acc v), a'. generalize (map elem js).
        induction l as [|[ev f] l IH]; cbn; intros acc' a'' R; [discriminate|]. destruct (is_json_type u ev); [|discriminate].
        destruct (ropen _ u f _ a''); cbn in R; try discriminate. eauto.
      * eapply fails_lift; [|exact IH]. intros. exists w. eapply store_store; eauto.
Qed.
End Items.

Lemma fixed_run : forall rest js, Forall reads js -> forall i ts vs a m hs r all,
  load m r = Some (VList vs) -> skipn i all = ts -> Forall2 (shaped e) all vs ->
  agrees m r hs rest (rfixed i ts (sizes hs) (map elem js) vs a)
    (run (flat_map events js ++ EEndArray :: rest) (st m (hd_ (KFixed i ts) r :: hs) a)).
Proof.
  intros rest js Hjs. induction Hjs as [|j js Hj Hjs IH]; intros i ts vs a m hs r all Hl Ha Hv.
  - cbn [map flat_map app]. rewrite run_cons. cbn [ParseModel.step stack st hd_ h_kind h_ref on_fixed].
    destruct ts as [|t ts]; cbn [ParseRead.rfixed after agrees].
    + rewrite (store_same _ _ _ Hl). reflexivity.
    + eapply fails_here; eauto.
  - cbn [map flat_map]. destruct (events_head j) as (evs & He). rewrite He. cbn [app]. rewrite run_cons.
    cbn [ParseModel.step stack st hd_ h_kind h_ref on_fixed].
    destruct ts as [|t ts]; cbn [ParseRead.rfixed elem].
    + assert (Hf : on_fixed e fits i [] r (head j) (st m (hd_ (KFixed i []) r :: hs) a) = PFail (st m (hd_ (KFixed i []) r :: hs) a)).
      { destruct j; reflexivity. }
      unfold hd_, st in Hf |- *. rewrite Hf. cbn [after agrees]. eapply fails_here; eauto.
    + assert (Hf : on_fixed e fits i (t :: ts) r (head j) (st m (hd_ (KFixed i (t :: ts)) r :: hs) a) =
        if fits (sizes hs) (size_of (KFixed (S i) ts))
        then forward e fits (head j) (open t (into r (SItem i)) (st m (hd_ (KFixed (S i) ts) r :: hs) a))
        else POver).
      { destruct j; cbn [head on_fixed]; unfold replace, emplace, pop; cbn [stack tl st mem fresh_address];
        destruct (fits (sizes hs) _); reflexivity. }
      unfold hd_, st in Hf |- *. rewrite Hf. destruct (fits (sizes hs) (size_of (KFixed (S i) ts))); [|reflexivity].
      fold (hd_ (KFixed (S i) ts) r). fold (st m (hd_ (KFixed (S i) ts) r :: hs) a).
      assert (Hi : i < List.length all).
      { apply (f_equal (@List.length _)) in Ha. rewrite skipn_length in Ha. cbn in Ha. lia. }
      destruct (skipn_cons _ _ _ Hi) as (t' & Hs & Hn). rewrite Hs in Ha. assert (t' = t) by congruence. assert (ts = skipn (S i) all) by congruence. subst t' ts.
      destruct (forall2_nth _ _ _ _ _ _ _ Hv Hn) as (x & Hx & Hsx).
      rewrite (nth_error_nth vs i _ Hx).
      assert (Hst : forall w, store m (into r (SItem i)) w = store m r (VList (set_nth vs i w))).
      { intros w. now rewrite (store_into m r (SItem i) (VList vs) x w Hl Hx). }
      rewrite <- app_assoc.
      eapply agrees_then with (m1 := m) (r1 := into r (SItem i)) (hs1 := hd_ (KFixed (S i) (skipn (S i) all)) r :: hs)
        (rest1 := flat_map events js ++ EEndArray :: rest).
      * apply opened_forward with (hs := hd_ (KFixed (S i) (skipn (S i) all)) r :: hs); auto. now rewrite (load_into _ _ _ _ Hl).
      * intros w. rewrite Hst. eauto.
      * apply blocks_array.
      * intros v a' Hd. rewrite Hst.
        assert (Hv1 : shaped e t v) by (eapply ropen_shape; [apply pread_shape|exact Hd|exact Hsx]).
        specialize (IH (S i) (skipn (S i) all) (set_nth vs i v) a' (store m r (VList (set_nth vs i v))) hs r all
                      (load_store _ _ _ _ Hl) eq_refl (forall2_set _ _ _ _ _ _ _ _ Hv Hn Hv1)).
        destruct (rfixed (S i) _ (sizes hs) (map elem js) (set_nth vs i v) a') eqn:R; cbn [agrees] in *; auto.
        -- now rewrite (store_store _ _ _ _ _ Hl) in IH.
        -- destruct IH as (names & r2 & w & y & -> & IH1 & ->). exists names, r2, w, y. split; auto. split.
           ++ intros y0 y'. specialize (IH1 y0 y'). now rewrite !(store_store _ _ _ _ _ Hl) in IH1.
           ++ now rewrite (store_store _ _ _ _ _ Hl).
        -- eapply fails_lift; [|exact IH]. intros. exists w. eapply store_store; eauto.
Qed.

(** * Objects *)
Definition member_events (l : list (string * json)) : list event := flat_map (fun p => EKey (fst p) :: events (snd p)) l.

Lemma blocks_members : forall l rest, blocks (member_events l ++ EEndObject :: rest).
Proof. destruct l as [|[k j] l]; intros; cbn; [apply blocks_end_object|apply blocks_key]. Qed.

Lemma agrees_store : forall m r old x hs rest res y, load m r = Some old ->
  agrees (store m r x) r hs rest res y -> agrees m r hs rest res y.
Proof.
  intros m r old x hs rest res y Hl IH. destruct res; cbn [agrees] in *; auto.
  - now rewrite (store_store _ _ _ _ _ Hl) in IH.
  - destruct IH as (names & r2 & w & z & -> & IH1 & ->). exists names, r2, w, z. split; auto. split.
    + intros y0 y'. specialize (IH1 y0 y'). now rewrite !(store_store _ _ _ _ _ Hl) in IH1.
    + now rewrite (store_store _ _ _ _ _ Hl).
  - eapply fails_lift; [|exact IH]. intros. exists w. eapply store_store; eauto.
Qed.

Lemma entries_run : forall u rest l, Forall (fun p => reads (snd p)) l -> forall acc a m hs r,
  load m r = Some (VMap acc) -> Forall (fun p => shaped e u (snd p)) acc ->
  agrees m r hs rest (rentries u (sizes (hd_ (KMap u) r :: hs)) (map entry l) acc a)
    (run (member_events l ++ EEndObject :: rest) (st m (hd_ (KMap u) r :: hs) a)).
Proof.
  intros u rest l Hl. induction Hl as [|[k j] l Hj Hl IH]; intros acc a m hs r Hm Ha.
  - cbn. now rewrite (store_same _ _ _ Hm).
  - cbn [map ParseRead.rentries member_events flat_map entry fst snd app]. fold (member_events l).
    rewrite run_cons. cbn [ParseModel.step stack st hd_ h_kind h_ref on_map].
    unfold entries. cbn [mem st]. rewrite Hm. unfold put. cbn [mem stack fresh_address st].
    fold (hd_ (KMap u) r). set (acc1 := try_emplace acc k (vinit e u)).
    set (m1 := store m r (VMap acc1)). fold (st m1 (hd_ (KMap u) r :: hs) a).
    assert (Hm1 : load m1 r = Some (VMap acc1)) by (eapply load_store; eauto).
    assert (Hacc1 : Forall (fun p => shaped e u (snd p)) acc1).
    { apply (emplace_shape (shaped e u)); auto. now apply vinit_shaped. }
    destruct (emplace_find acc k (vinit e u)) as (x & Hx & _). fold acc1 in Hx. rewrite Hx.
    assert (Hsx : shaped e u x) by (eapply (find_shape (shaped e u)); eauto).
    assert (Hst : forall w, store m1 (into r (SKey k)) w = store m r (VMap (map_replace acc1 k w))).
    { intros w. rewrite (store_into m1 r (SKey k) (VMap acc1) x w Hm1 Hx). cbn. unfold m1. eapply store_store; eauto. }
    rewrite <- app_assoc.
    eapply agrees_then with (m1 := m1) (r1 := into r (SKey k)) (hs1 := hd_ (KMap u) r :: hs)
      (rest1 := member_events l ++ EEndObject :: rest).
    + apply opened with (hs := hd_ (KMap u) r :: hs); auto. now rewrite (load_into _ _ _ _ Hm1).
    + intros w. rewrite Hst. eauto.
    + apply blocks_members.
    + intros v a' Hd. rewrite Hst.
      assert (Hv1 : shaped e u v) by (eapply ropen_shape; [apply pread_shape|exact Hd|exact Hsx]).
      eapply agrees_store; [exact Hm|]. apply IH; [eapply load_store; eauto|]. now apply (replace_shape (shaped e u)).
Qed.

Lemma members_run : forall c rest l, Forall (fun p => reads (snd p)) l -> forall vs a m hs r,
  load m r = Some (VObj vs) -> Forall2 member_shape (c_members (class_of e c)) vs ->
  agrees m r hs rest (rmembers (c_members (class_of e c)) (sizes (hd_ (KObject c) r :: hs)) (map entry l) vs a)
    (run (member_events l ++ EEndObject :: rest) (st m (hd_ (KObject c) r :: hs) a)).
Proof.
  intros c rest l Hl. induction Hl as [|[k j] l Hj Hl IH]; intros vs a m hs r Hm Ha.
  - cbn. now rewrite (store_same _ _ _ Hm).
  - cbn [map ParseRead.rmembers member_events flat_map entry fst snd app]. fold (member_events l).
    rewrite run_cons. cbn [ParseModel.step stack st hd_ h_kind h_ref on_object].
    destruct (dispatch fuel _ (list_ascii_of_string k)) as [[i|]| |]; cbn [after agrees]; auto.
    2:{ fold (hd_ (KObject c) r). fold (st m (hd_ (KObject c) r :: hs) a). eapply fails_here; eauto. }
    destruct (nth_error (c_members (class_of e c)) i) as [f|] eqn:Ei; [|reflexivity].
    destruct (forall2_nth _ _ _ _ _ _ _ Ha Ei) as (x & Hx & Hsx). rewrite (nth_error_nth vs i _ Hx).
    fold (hd_ (KObject c) r). fold (st m (hd_ (KObject c) r :: hs) a).
    assert (Hst : forall w, store m (into r (SItem i)) w = store m r (VObj (set_nth vs i w))).
    { intros w. now rewrite (store_into m r (SItem i) (VObj vs) x w Hm Hx). }
    rewrite <- app_assoc.
    eapply agrees_then with (m1 := m) (r1 := into r (SItem i)) (hs1 := hd_ (KObject c) r :: hs)
      (rest1 := member_events l ++ EEndObject :: rest).
    + apply opened_member with (hs := hd_ (KObject c) r :: hs); auto. now rewrite (load_into _ _ _ _ Hm).
    + intros w. rewrite Hst. eauto.
    + apply blocks_members.
    + intros v a' Hd. rewrite Hst.
      assert (Hv1 : member_shape f v) by (eapply rmember_shape; [apply pread_shape|exact Hd|exact Hsx]).
      eapply agrees_store; [exact Hm|]. apply IH; [eapply load_store; eauto|]. eapply forall2_set; eauto.
Qed.

(** * All documents *)
Lemma replaced_agrees : forall k m r hs rest res x s, stack s = x :: hs ->
  forall y, (fits (sizes hs) (size_of k) = true ->
     agrees m r hs rest res (after (POk (st (mem s) (hd_ k r :: hs) (fresh_address s))) y)) ->
  agrees m r hs rest (replaced fits (sizes hs) k res) (after (replace fits k r s) y).
Proof.
  intros k m r hs rest res x s Hs y H. unfold replaced, replace, emplace, pop. rewrite Hs. cbn [tl stack mem fresh_address].
  destruct (fits (sizes hs) (size_of k)); [now apply H|reflexivity].
Qed.

Lemma all_read : forall j, reads j.
Proof.
  induction j using json_ind'; intros t old a m hs r rest Hl Ho;
    try (destruct (scalar_type t) eqn:Es; [now apply scalar_reads|];
         destruct t; try discriminate Es; try reflexivity; cbn; eapply fails_here; eauto; fail).
  - destruct (scalar_type t) eqn:Es; [now apply scalar_reads|].
    cbn [events app]. rewrite <- app_assoc. cbn [app]. rewrite run_cons.
    change (step EStartArray (st m (hd_ (KValue t) r :: hs) a)) with (on_value e fits t r EStartArray (st m (hd_ (KValue t) r :: hs) a)).
    destruct t; try discriminate Es; try reflexivity; cbn [on_value ParseRead.pread];
      try (cbn [after agrees]; eapply fails_here; eauto; fail).
    + inversion Ho; subst; try discriminate. cbn [items_of]. eapply replaced_agrees; [reflexivity|]. intros _.
      cbn [after mem st fresh_address].
      assert (Hpop : forall m', run (EEndArray :: rest) (st m' (hd_ (KVector t) r :: hs) a) = run rest (st m' hs a)) by reflexivity.
      destruct (fast t) eqn:Ef.
      * pose proof (fast_run t (hd_ (KVector t) r) hs r push_back rest) as Hr.
        specialize (Hr) with (2 := Ef) (js := l) (a := a) (3 := Hl).
        assert (Hs : forall ev s, stack s = hd_ (KVector t) r :: hs -> ev <> EEndArray -> step ev s = fast_item e t r push_back ev s).
        { intros ev s Hst Hev. unfold ParseModel.step. rewrite Hst. cbn [h_kind hd_ h_ref]. unfold on_vector. rewrite Ef.
          destruct ev; congruence. }
        specialize (Hr Hs). change (map fst (map (fun x => (head x, pread x)) l)) with (map fst (map elem l)).
        destruct (rfast e t push_back (map fst (map elem l)) l0 a) eqn:R; cbn [agrees] in *; auto.
        exfalso. clear - R. revert R. generalize l0. generalize (map fst (map elem l)).
        induction l1 as [|ev l1 IH]; cbn; intros acc' R; [discriminate|]. destruct (scalar e t ev); try discriminate. eauto.
      * pose proof (items_run t (hd_ (KVector t) r) hs r rest) as Hr.
        assert (Hs : forall ev s, stack s = hd_ (KVector t) r :: hs -> ev <> EEndArray -> step ev s =
           if is_json_type t ev then
             forward e fits ev (open t (into r (SItem (List.length (items (mem s) r))))
                             (put r (VList (push_back (items (mem s) r) (vinit e t))) s))
           else PFail s).
        { intros ev s Hst Hev. unfold ParseModel.step. rewrite Hst. cbn [h_kind hd_ h_ref]. unfold on_vector. rewrite Ef.
          destruct ev; congruence. }
        specialize (Hr Hs l H l0 a m Hl). change (map (fun x => (head x, pread x)) l) with (map elem l).
        change (size_of (KVector t) :: sizes hs) with (sizes (hd_ (KVector t) r :: hs)).
        destruct (ritems t (sizes (hd_ (KVector t) r :: hs)) (map elem l) l0 a) eqn:R; cbn [agrees] in *; auto.
        exfalso. clear - R. revert R. generalize l0, a. generalize (map elem l).
        induction l1 as [|[ev f] l1 IH]; cbn; intros acc' a' R; [discriminate|]. destruct (is_json_type t ev); [|discriminate].
        destruct (ropen _ t f _ a'); cbn in R; try discriminate. eauto.
    + (* array *)
      destruct (shaped_components _ (repeat t n) _ Ho) as (vs & -> & Hc); [left; eauto|].
      eapply replaced_agrees; [reflexivity|]. intros _. cbn [after mem st fresh_address items_of].
      change (map (fun x => (head x, pread x)) l) with (map elem l). eapply fixed_run; eauto. reflexivity.
    + (* set *)
      inversion Ho; subst; try discriminate. cbn [items_of].
      destruct (fast t) eqn:Ef.
      * eapply replaced_agrees; [reflexivity|]. intros _. cbn [after mem st fresh_address].
        pose proof (fast_run t (hd_ (KFastSet t) r) hs r (set_insert (less e t)) rest) as Hr.
        assert (Hs : forall ev s, stack s = hd_ (KFastSet t) r :: hs -> ev <> EEndArray -> step ev s = fast_item e t r (set_insert (less e t)) ev s).
        { intros ev s Hst Hev. unfold ParseModel.step. rewrite Hst. cbn [h_kind hd_ h_ref]. unfold on_fast_set.
          destruct ev; congruence. }
        specialize (Hr Hs Ef l l0 a m Hl). change (map fst (map (fun x => (head x, pread x)) l)) with (map fst (map elem l)).
        destruct (rfast e t _ (map fst (map elem l)) l0 a) eqn:R; cbn [agrees] in *; auto.
        exfalso. clear - R. revert R. generalize l0. generalize (map fst (map elem l)).
        induction l1 as [|ev l1 IH]; cbn; intros acc' R; [discriminate|]. destruct (scalar e t ev); try discriminate. eauto.
      * cbn [mem st]. unfold replaced, replace, emplace, pop. cbn [stack tl st mem fresh_address size_of].
        destruct (fits (sizes hs) 48) eqn:F; [|reflexivity]. cbn [after].
        set (id := List.length m). set (q := {| object := id; path := [] |}).
        fold (hd_ (KSet t id) r). cbn [mem stack fresh_address]. fold (st (m ++ [VList []]) (hd_ (KSet t id) r :: hs) a).
        assert (Hse : forall w w', store (m ++ [w]) q w' = m ++ [w']) by (intros; apply store_end).
        assert (Hle : forall w, load (m ++ [w]) q = Some w) by (intros; apply load_end).
        pose proof (items_run t (hd_ (KSet t id) r) hs q rest) as Hr.
        assert (Hs : forall ev s, stack s = hd_ (KSet t id) r :: hs -> ev <> EEndArray -> step ev s =
           if is_json_type t ev then
             forward e fits ev (open t (into q (SItem (List.length (items (mem s) q))))
                             (put q (VList (push_back (items (mem s) q) (vinit e t))) s))
           else PFail s).
        { intros ev s Hst Hev. unfold ParseModel.step. rewrite Hst. cbn [h_kind hd_ h_ref]. unfold on_set.
          destruct ev; try congruence; reflexivity. }
        specialize (Hr Hs l H [] a (m ++ [VList []]) (load_end _ _)). change (map (fun x => (head x, pread x)) l) with (map elem l).
        change (48 :: sizes hs) with (sizes (hd_ (KSet t id) r :: hs)).
        destruct (ritems t (sizes (hd_ (KSet t id) r :: hs)) (map elem l) [] a) eqn:R; cbn [agrees rmap] in *; auto.
        -- destruct (ritems_shape _ _ _ _ _ _ _ R) as (l' & ->). rewrite Hse in Hr.
           rewrite Hr, run_cons. cbn [ParseModel.step stack st hd_ h_kind h_ref on_set]. cbn [mem stack fresh_address].
           unfold items. cbn [mem st stack fresh_address]. fold q. rewrite (load_app _ _ _ _ Hl), Hle.
           cbn [after]. unfold pop, put. cbn [mem stack fresh_address tl st].
           rewrite store_app by (eapply load_lt; eauto).
           rewrite firstn_app, store_length; unfold id; rewrite Nat.sub_diag, app_nil_r.
           rewrite firstn_all2 by (rewrite store_length; auto). reflexivity.
        -- exfalso. clear - R. revert R. generalize (@nil val), a. generalize (map elem l).
           induction l0 as [|[ev f] l0 IH]; cbn; intros acc' a' R; [discriminate|]. destruct (is_json_type t ev); [|discriminate].
           destruct (ropen _ t f _ a'); cbn in R; try discriminate. eauto.
        -- destruct Hr as (m' & hs' & a' & Hr & w & extra & ->). rewrite Hse in Hr.
           rewrite Hr. exists ((m ++ [w]) ++ extra), hs', a'. split; auto. exists (VList l0), ([w] ++ extra).
           now rewrite (store_same _ _ _ Hl), <- app_assoc.
    + (* pair *)
      destruct (shaped_components _ [t1; t2] _ Ho) as (vs & -> & Hc); [right; left; eauto|].
      eapply replaced_agrees; [reflexivity|]. intros _. cbn [after mem st fresh_address items_of].
      change (map (fun x => (head x, pread x)) l) with (map elem l). eapply fixed_run; eauto. reflexivity.
    + destruct (shaped_components _ ts _ Ho) as (vs & -> & Hc); [right; right; auto|].
      eapply replaced_agrees; [reflexivity|]. intros _. cbn [after mem st fresh_address items_of].
      change (map (fun x => (head x, pread x)) l) with (map elem l). eapply fixed_run; eauto. reflexivity.
  - destruct (scalar_type t) eqn:Es; [now apply scalar_reads|].
    cbn [events app]. rewrite <- app_assoc. cbn [app]. rewrite run_cons.
    change (step EStartObject (st m (hd_ (KValue t) r :: hs) a)) with (on_value e fits t r EStartObject (st m (hd_ (KValue t) r :: hs) a)).
    destruct t; try discriminate Es; try reflexivity; cbn [on_value ParseRead.pread];
      try (cbn [after agrees]; eapply fails_here; eauto; fail).
    + inversion Ho as [| | | |o' u' l0 Hm| | |]; subst; try discriminate. cbn [pairs_of].
      eapply replaced_agrees; [reflexivity|]. intros _. cbn [after mem st fresh_address].
      change (map (fun p => (fst p, pread (snd p))) l) with (map entry l). now apply (entries_run t rest l).
    + inversion Ho as [| | | | | | |c' l0 Hm]; subst; try discriminate. cbn [parts_of].
      eapply replaced_agrees; [reflexivity|]. intros _. cbn [after mem st fresh_address].
      change (map (fun p => (fst p, pread (snd p))) l) with (map entry l). now apply (members_run c rest l).
Qed.
End Proof.
