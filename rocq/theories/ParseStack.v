(** The handlers below the one that reads a value. *)
From Coq Require Import List Arith Lia ZArith NArith Ascii String Bool.
From Verif Require Import Base Float NumericModel HashModel DispatchModel Json Events Types SerializeModel DeserializeModel
  ParseModel ParseRead ParseSpec PlaceFacts ParseProof ParseFacts ParseLimit.
Import ListNotations.

Section Stack.
Variable e : env.
Variable fuel : nat.
Variable hs : list handler.

(** More handlers below. *)
Definition add (s : pstate) : pstate := {| mem := mem s; stack := stack s ++ hs; fresh_address := fresh_address s |}.

Definition lift (x : pres) : pres :=
  match x with POk s => POk (add s) | PFail s => PFail (add s) | x => x end.

Lemma pop_add : forall s, stack s <> [] -> pop (add s) = add (pop s).
Proof. intros [m l a] H. unfold pop, add. cbn in *. destruct l; [congruence|reflexivity]. Qed.

Lemma emplace_add : forall k r s, emplace unlimited k r (add s) = lift (emplace unlimited k r s).
Proof. reflexivity. Qed.

Lemma replace_add : forall k r s, stack s <> [] -> replace unlimited k r (add s) = lift (replace unlimited k r s).
Proof. intros. unfold replace. now rewrite pop_add. Qed.

Lemma construct_add : forall t r s, construct e t r (add s) = let '(r', s') := construct e t r s in (r', add s').
Proof.
  induction t; intros r s; cbn [construct]; try reflexivity.
  - change (put r ?v (add s)) with (add (put r v s)). apply IHt.
  - match goal with |- construct e t ?r1 ?s1 = _ => change s1 with (add {| mem := store (mem s) r (VShared (fresh_address s) (vinit e t)); stack := stack s; fresh_address := S (fresh_address s) |}) end. apply IHt.
Qed.

Lemma open_add : forall t r s, open e unlimited t r (add s) = lift (open e unlimited t r s).
Proof.
  intros. unfold open. destruct (core t); try reflexivity; cbn [unlimited]; rewrite construct_add; destruct (construct e t r s); reflexivity.
Qed.

Lemma member_add : forall m r s, open_member e unlimited m r (add s) = lift (open_member e unlimited m r s).
Proof.
  intros. unfold open_member. destruct (m_kind m); try apply open_add.
  destruct (core (m_ty m)); try reflexivity; cbn [unlimited]; change (put r ?v (add s)) with (add (put r v s)); apply open_add.
Qed.

Lemma value_add : forall t r ev s, stack s <> [] -> on_value e unlimited t r ev (add s) = lift (on_value e unlimited t r ev s).
Proof.
  intros t r ev s H.
  assert (Hs : forall t0, match scalar e t0 ev with
    | SAssign v => POk (pop (put r v (add s))) | SStay v => POk (put r v (add s)) | SReject => PFail (add s)
    | SRejectAssign v => PFail (put r v (add s)) | SUndefined => PUndef end =
    lift match scalar e t0 ev with
    | SAssign v => POk (pop (put r v s)) | SStay v => POk (put r v s) | SReject => PFail s
    | SRejectAssign v => PFail (put r v s) | SUndefined => PUndef end).
  { intros t0. destruct (scalar e t0 ev) as [v| | | |]; try reflexivity. change (put r v (add s)) with (add (put r v s)). now rewrite pop_add. }
  destruct t; cbn [on_value]; try reflexivity; try apply Hs; destruct ev; try reflexivity; try (now apply replace_add).
  destruct (fast t); [now apply replace_add|]. change (mem (add s)) with (mem s). rewrite replace_add by auto.
  unfold replace, emplace. cbn [unlimited lift]. reflexivity.
Qed.

Lemma forward_add : forall ev x, (forall s, x = POk s -> stack s <> []) -> forward e unlimited ev (lift x) = lift (forward e unlimited ev x).
Proof.
  intros ev x H. destruct x as [s| | | |]; try reflexivity. specialize (H s eq_refl). cbn [lift forward].
  change (stack (add s)) with (stack s ++ hs). destruct (stack s) as [|[k r] l] eqn:E; [congruence|]. cbn [app].
  destruct k; try reflexivity. apply value_add. congruence.
Qed.

Lemma open_nonempty : forall t r s s', open e unlimited t r s = POk s' -> stack s' <> [].
Proof.
  intros t r s s'. unfold open. destruct (core t); try discriminate; cbn [unlimited]; destruct (construct e t r s) as [r1 s1]; unfold emplace; cbn [unlimited];
    intros E; inversion E; discriminate.
Qed.

Lemma step_add : forall ev s, stack s <> [] -> step e fuel unlimited ev (add s) = lift (step e fuel unlimited ev s).
Proof.
  intros ev s H. unfold step. change (stack (add s)) with (stack s ++ hs). destruct (stack s) as [|h l] eqn:E; [congruence|]. cbn [app].
  assert (Hn : stack s <> []) by congruence.
  destruct (h_kind h) as [t|u|u id|u|u|c|i ts].
  - now apply value_add.
  - unfold on_vector. destruct ev; try (cbn [lift]; now rewrite pop_add); (destruct (fast u); [unfold fast_item; destruct (scalar e u _); reflexivity|]);
      (destruct (is_json_type u _); [|reflexivity]); change (mem (add s)) with (mem s); change (put ?r ?v (add s)) with (add (put r v s));
      rewrite open_add; apply forward_add; intros; eapply open_nonempty; eauto.
  - unfold on_set. destruct ev;
      try (destruct (is_json_type u _); [|reflexivity]; change (mem (add s)) with (mem s); change (put ?r ?v (add s)) with (add (put r v s));
           rewrite open_add; apply forward_add; intros; eapply open_nonempty; eauto).
    cbn [lift]. f_equal. now rewrite <- pop_add.
  - unfold on_fast_set. destruct ev; try (cbn [lift]; now rewrite pop_add); unfold fast_item; destruct (scalar e u _); reflexivity.
  - unfold on_map. destruct ev; try reflexivity; [|cbn [lift]; now rewrite pop_add].
    change (mem (add s)) with (mem s); change (put ?r ?v (add s)) with (add (put r v s)). apply open_add.
  - unfold on_object. destruct ev; try reflexivity; [|cbn [lift]; now rewrite pop_add].
    destruct (dispatch _ _ _) as [[i|]| |]; try reflexivity. destruct (nth_error _ i); [|reflexivity]. apply member_add.
  - unfold on_fixed. destruct ts as [|t ts]; [destruct ev; try reflexivity; cbn [lift]; now rewrite pop_add|].
    destruct ev; try reflexivity; rewrite replace_add by auto; (destruct (replace unlimited (KFixed (S i) ts) (h_ref h) s); try reflexivity); cbn [lift];
      rewrite open_add; apply forward_add; intros; eapply open_nonempty; eauto.
Qed.

(** Up to some point, the handlers below are not used. *)
Lemma run_add : forall evs s s', run e fuel unlimited evs (add s) = POk s' ->
  (exists s1, run e fuel unlimited evs s = POk s1 /\ s' = add s1) \/
  (exists evs1 ev evs2 s1, evs = evs1 ++ ev :: evs2 /\ run e fuel unlimited evs1 s = POk s1 /\ stack s1 = []).
Proof.
  induction evs as [|ev evs IH]; intros s s' H; [left; exists s; split; auto; cbn in H; now inversion H|].
  destruct (stack s) as [|h l] eqn:E.
  - right. exists [], ev, evs, s. auto.
  - cbn [run] in H. rewrite step_add in H by congruence.
    destruct (step e fuel unlimited ev s) as [s1| | | |] eqn:Es; cbn [lift] in H; try discriminate.
    destruct (IH s1 s' H) as [(s2 & H1 & H2)|(evs1 & ev' & evs2 & s2 & -> & H1 & H2)].
    + left. exists s2. split; auto. cbn [run]. now rewrite Es.
    + right. exists (ev :: evs1), ev', evs2, s2. split; auto. split; auto. cbn [run]. now rewrite Es.
Qed.
End Stack.

Lemma run_app : forall e fuel fits evs evs' s, run e fuel fits (evs ++ evs') s =
  match run e fuel fits evs s with POk s' => run e fuel fits evs' s' | x => x end.
Proof.
  induction evs as [|ev evs IH]; intros evs' s; [reflexivity|]. cbn [run app]. destruct (step e fuel fits ev s); auto.
Qed.

(** * Without a limit, reading does not depend on the handlers below *)
Section Below.
Variable e : env.
Variable fuel : nat.
Notation pread := (pread e fuel unlimited).

Definition level (f : rdr) : Prop := forall below below' t old a, f below t old a = f below' t old a.

Lemma boxed_level : forall t old a k k', (forall x b, k x b = k' x b) -> boxed e t old a k = boxed e t old a k'.
Proof. induction t; intros; cbn [boxed]; auto; f_equal; auto. Qed.

Lemma ropen_level : forall f below below' t old a, level f -> ropen e unlimited below t f old a = ropen e unlimited below' t f old a.
Proof. intros. unfold ropen. cbn [unlimited]. destruct (compiles t); auto. apply boxed_level. intros. apply H. Qed.

Lemma rmember_level : forall f below below' m old a, level f -> rmember e unlimited below m f old a = rmember e unlimited below' m f old a.
Proof. intros. unfold rmember. destruct (m_kind m); rewrite ?(ropen_level f below below'); auto. Qed.

Lemma andthen_ext : forall x x' k k', x = x' -> (forall v a, k v a = k' v a) -> andthen x k = andthen x' k'.
Proof. intros x x' k k' -> H. destruct x'; cbn; auto. Qed.

Lemma ritems_level : forall u below below' fs, Forall (fun p => level (snd p)) fs -> forall acc a,
  ritems e unlimited u below fs acc a = ritems e unlimited u below' fs acc a.
Proof.
  intros u below below' fs F. induction F as [|[ev f] fs Hf F IH]; intros acc a; cbn [ritems]; auto. destruct (is_json_type u ev); auto.
  apply andthen_ext; auto. now apply ropen_level.
Qed.

Lemma rfixed_level : forall fs, Forall (fun p => level (snd p)) fs -> forall i ts below below' vs a,
  rfixed e unlimited i ts below fs vs a = rfixed e unlimited i ts below' fs vs a.
Proof.
  intros fs F. induction F as [|[ev f] fs Hf F IH]; intros i ts below below' vs a; destruct ts; cbn [rfixed unlimited]; auto.
  apply andthen_ext; auto. now apply ropen_level.
Qed.

Lemma rentries_level : forall u below below' fs, Forall (fun p => level (snd p)) fs -> forall acc a,
  rentries e unlimited u below fs acc a = rentries e unlimited u below' fs acc a.
Proof.
  intros u below below' fs F. induction F as [|[k f] fs Hf F IH]; intros acc a; cbn [rentries]; auto.
  apply andthen_ext; auto. now apply ropen_level.
Qed.

Lemma rmembers_level : forall ms below below' fs, Forall (fun p => level (snd p)) fs -> forall vs a,
  rmembers e fuel unlimited ms below fs vs a = rmembers e fuel unlimited ms below' fs vs a.
Proof.
  intros ms below below' fs F. induction F as [|[k f] fs Hf F IH]; intros vs a; cbn [rmembers]; auto.
  destruct (dispatch _ _ _) as [[i|]| |]; auto. destruct (nth_error ms i); auto. apply andthen_ext; auto. now apply rmember_level.
Qed.

Lemma pread_level : forall j, level (pread j).
Proof.
  induction j using json_ind'; intros below below' t old a; try (destruct t; reflexivity).
  - assert (F : Forall (fun p => level (snd p)) (map (fun x => (head x, pread x)) l)) by now apply Forall_map.
    destruct t; cbn [ParseRead.pread]; unfold replaced; cbn [unlimited]; try reflexivity.
    + destruct (fast t); auto. now apply ritems_level.
    + now apply rfixed_level.
    + destruct (fast t); auto. f_equal. now apply ritems_level.
    + now apply rfixed_level.
    + now apply rfixed_level.
  - assert (F : Forall (fun p => level (snd p)) (map (fun x => (fst x, pread (snd x))) l)) by now apply Forall_map.
    destruct t; cbn [ParseRead.pread]; unfold replaced; cbn [unlimited]; try reflexivity.
    + now apply rentries_level.
    + now apply rmembers_level.
Qed.
End Below.

(** * Accepted values *)
Lemma not_finished_before : forall e fuel fits j t old a m hs r evs ev evs' s s', shaped_classes e -> load m r = Some old -> shaped e t old ->
  run e fuel fits (events j) (st m (hd_ (KValue t) r :: hs) a) = POk s' -> events j = evs ++ ev :: evs' ->
  run e fuel fits evs (st m (hd_ (KValue t) r :: hs) a) = POk s -> exists g gs, stack s = g :: gs ++ hs.
Proof.
  intros e fuel fits j t old a m hs r evs ev evs' s s' He Hl Hs Hj Hev Hp.
  destruct (run_limited e fuel fits (events j) (st m (hd_ (KValue t) r :: hs) a)) as [X|X]; rewrite X in Hj; [discriminate|].
  destruct (run_limited e fuel fits evs (st m (hd_ (KValue t) r :: hs) a)) as [Y|Y]; rewrite Y in Hp; [discriminate|]. clear X Y.
  change (st m (hd_ (KValue t) r :: hs) a) with (add hs (st m [hd_ (KValue t) r] a)) in Hj, Hp.
  (* popped too early, the rest would be undefined *)
  assert (Early : forall evs1 ev1 evs2 s1, events j = evs1 ++ ev1 :: evs2 -> run e fuel unlimited evs1 (st m [hd_ (KValue t) r] a) = POk s1 ->
    stack s1 <> []).
  { intros evs1 ev1 evs2 s1 E1 R1 S1.
    pose proof (all_read e fuel unlimited He j t old a m [] r [] Hl Hs) as A. rewrite app_nil_r, E1, run_app, R1 in A. cbn [run] in A.
    assert (U : step e fuel unlimited ev1 s1 = PUndef) by (unfold step; now rewrite S1). rewrite U in A.
    pose proof (all_read e fuel unlimited He j t old a m hs r [] Hl Hs) as B. rewrite app_nil_r in B.
    change (st m (hd_ (KValue t) r :: hs) a) with (add hs (st m [hd_ (KValue t) r] a)) in B. rewrite Hj in B.
    rewrite (pread_level e fuel j (sizes hs) (sizes [])) in B.
    destruct (pread e fuel unlimited j (sizes []) t old a); cbn [agrees] in A, B; try discriminate.
    - destruct A as (n & r1 & w & y & _ & _ & A). discriminate.
    - destruct A as (? & ? & ? & A & _). discriminate. }
  destruct (run_add e fuel hs evs _ _ Hp) as [(s1 & R1 & ->)|(evs1 & ev1 & evs2 & s1 & E1 & R1 & S1)].
  - pose proof (Early evs ev evs' s1 Hev R1) as N. cbn [add stack]. destruct (stack s1) as [|g gs]; [congruence|]. exists g, gs. reflexivity.
  - exfalso. apply (Early evs1 ev1 (evs2 ++ ev :: evs') s1); auto. rewrite Hev, E1, <- app_assoc. reflexivity.
Qed.
