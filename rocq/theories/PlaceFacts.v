(** Loads and stores through references. *)
From Coq Require Import List Arith Lia ZArith NArith Ascii String Bool.
From Verif Require Import Base Types Json ParseModel MapFacts.
Import ListNotations.

Lemma set_nth_length : forall A (l : list A) i x, List.length (set_nth l i x) = List.length l.
Proof. induction l as [|y l IH]; intros [|i] x; cbn; auto. Qed.

Lemma set_nth_get : forall A (l : list A) i x, i < List.length l -> nth_error (set_nth l i x) i = Some x.
Proof. induction l as [|y l IH]; intros [|i] x Hi; cbn in *; try lia; auto. apply IH. lia. Qed.

Lemma set_nth_other : forall A (l : list A) i k x, i <> k -> nth_error (set_nth l i x) k = nth_error l k.
Proof.
  induction l as [|y l IH]; intros [|i] [|k] x Hi; cbn in *; try lia; auto.
Qed.

Lemma set_nth_twice : forall A (l : list A) i x y, set_nth (set_nth l i x) i y = set_nth l i y.
Proof. induction l as [|z l IH]; intros [|i] x y; cbn; auto. now rewrite IH. Qed.

Lemma set_nth_same : forall A (l : list A) i x, nth_error l i = Some x -> set_nth l i x = l.
Proof.
  induction l as [|z l IH]; intros [|i] x Hx; cbn in *; try discriminate; auto.
  - now inversion Hx.
  - now rewrite IH.
Qed.

Lemma set_nth_app : forall A (l m : list A) i x, i < List.length l -> set_nth (l ++ m) i x = set_nth l i x ++ m.
Proof. induction l as [|z l IH]; intros m [|i] x Hx; cbn in *; try lia; auto. rewrite IH; auto. lia. Qed.

Lemma set_nth_end : forall A (l : list A) x y, set_nth (l ++ [x]) (List.length l) y = l ++ [y].
Proof. induction l as [|z l IH]; intros x y; cbn; auto. now rewrite IH. Qed.

Lemma set_nth_in : forall A (P : A -> Prop) l i x, Forall P l -> P x -> Forall P (set_nth l i x).
Proof. intros A P l i x H. revert i. induction H; intros [|i] Hx; cbn; auto. Qed.

Lemma replace_find : forall l k w, map_find l k <> None -> map_find (map_replace l k w) k = Some w.
Proof.
  induction l as [|[k' v] l IH]; intros k w Hk; cbn in *; try congruence.
  destruct (String.eqb k' k) eqn:E; cbn; rewrite E; auto.
Qed.

Lemma replace_twice : forall l k w w', map_replace (map_replace l k w) k w' = map_replace l k w'.
Proof.
  induction l as [|[k' v] l IH]; intros k w w'; cbn; auto.
  destruct (String.eqb k' k) eqn:E; cbn; rewrite E; auto. now rewrite IH.
Qed.

Lemma replace_same : forall l k v, map_find l k = Some v -> map_replace l k v = l.
Proof.
  induction l as [|[k' x] l IH]; intros k v Hk; cbn in *; try discriminate.
  destruct (String.eqb k' k) eqn:E; [inversion Hk; subst; auto|]. now rewrite IH.
Qed.

Lemma assign_find : forall l k v, map_find (map_assign l k v) k = Some v.
Proof.
  induction l as [|[k' x] l IH]; intros k v; cbn; [now rewrite String.eqb_refl|].
  destruct (str_ltb k k') eqn:E; cbn; [now rewrite String.eqb_refl|].
  destruct (str_ltb k' k) eqn:E2; cbn.
  - destruct (String.eqb k' k) eqn:E3; auto. apply String.eqb_eq in E3. subst. rewrite str_ltb_irrefl in E2. discriminate.
  - pose proof (str_ltb_total _ _ E E2). subst. now rewrite String.eqb_refl.
Qed.

Lemma emplace_find : forall l k v, exists x, map_find (try_emplace l k v) k = Some x /\ (map_find l k = Some x \/ map_find l k = None /\ x = v).
Proof.
  intros l k v. unfold try_emplace. destruct (map_find l k) as [x|] eqn:E; [eauto|].
  exists v. split; auto. apply assign_find.
Qed.

Lemma get_set_step : forall s v x w, get_step s v = Some x -> get_step s (set_step s w v) = Some w.
Proof.
  intros s v x w H. destruct s, v; cbn in *; try discriminate; auto.
  - apply set_nth_get. apply nth_error_Some. congruence.
  - apply set_nth_get. apply nth_error_Some. congruence.
  - apply replace_find. congruence.
Qed.

Lemma set_set_step : forall s v w w', set_step s w' (set_step s w v) = set_step s w' v.
Proof.
  intros s v w w'. destruct s, v; cbn in *; try discriminate; auto; f_equal; try apply set_nth_twice. apply replace_twice.
Qed.

Lemma set_step_same : forall s v x, get_step s v = Some x -> set_step s x v = v.
Proof.
  intros s v x H. destruct s, v; cbn in *; try discriminate; inversion H; subst; auto; f_equal; try now apply set_nth_same.
  now apply replace_same.
Qed.

Lemma vget_app : forall p q v, vget (p ++ q) v = match vget p v with Some x => vget q x | None => None end.
Proof. induction p as [|s p IH]; intros q v; cbn; auto. destruct (get_step s v); auto. Qed.

Lemma vget_vset : forall p v x w, vget p v = Some x -> vget p (vset p w v) = Some w.
Proof.
  induction p as [|s p IH]; intros v x w H; cbn in *; auto.
  destruct (get_step s v) as [y|] eqn:E; [|discriminate].
  rewrite (get_set_step s v y _ E). eapply IH. exact H.
Qed.

Lemma vset_vset : forall p v x w w', vget p v = Some x -> vset p w' (vset p w v) = vset p w' v.
Proof.
  induction p as [|s p IH]; intros v x w w' H; cbn in *; auto.
  destruct (get_step s v) as [y|] eqn:E; [|discriminate].
  rewrite (get_set_step s v y _ E), set_set_step. f_equal. eapply IH. exact H.
Qed.

Lemma vset_same : forall p v x, vget p v = Some x -> vset p x v = v.
Proof.
  induction p as [|s p IH]; intros v x H; cbn in *; [now inversion H|].
  destruct (get_step s v) as [y|] eqn:E; [|discriminate]. rewrite (IH _ _ H). now apply set_step_same.
Qed.

Lemma vset_app : forall p s v x y w, vget p v = Some x -> get_step s x = Some y ->
  vset (p ++ [s]) w v = vset p (set_step s w x) v.
Proof.
  induction p as [|s' p IH]; intros s v x y w H Hs; cbn in *.
  - inversion H; subst. now rewrite Hs.
  - destruct (get_step s' v) as [z|] eqn:E; [|discriminate]. f_equal. eapply IH; eauto.
Qed.

(** * Memory *)
Lemma load_lt : forall m r v, load m r = Some v -> object r < List.length m.
Proof.
  intros m r v H. unfold load in H. apply nth_error_Some. destruct (nth_error m (object r)); congruence.
Qed.

Lemma store_length : forall m r w, List.length (store m r w) = List.length m.
Proof. intros. unfold store. destruct (nth_error m (object r)); auto. apply set_nth_length. Qed.

Lemma load_store : forall m r v w, load m r = Some v -> load (store m r w) r = Some w.
Proof.
  intros m r v w H. unfold load, store in *. destruct (nth_error m (object r)) as [x|] eqn:E; [|discriminate].
  rewrite set_nth_get; [|apply nth_error_Some; congruence]. eapply vget_vset; eauto.
Qed.

Lemma store_store : forall m r v w w', load m r = Some v -> store (store m r w) r w' = store m r w'.
Proof.
  intros m r v w w' H. unfold load, store in *. destruct (nth_error m (object r)) as [x|] eqn:E; [|discriminate].
  rewrite set_nth_get; [|apply nth_error_Some; congruence]. rewrite set_nth_twice. f_equal. eapply vset_vset; eauto.
Qed.

Lemma store_same : forall m r v, load m r = Some v -> store m r v = m.
Proof.
  intros m r v H. unfold load, store in *. destruct (nth_error m (object r)) as [x|] eqn:E; [|discriminate].
  rewrite (vset_same _ _ _ H). now apply set_nth_same.
Qed.

Lemma load_into : forall m r s v, load m r = Some v -> load m (into r s) = get_step s v.
Proof.
  intros m r s v H. unfold load, into in *. cbn. destruct (nth_error m (object r)) as [x|] eqn:E; [|discriminate].
  rewrite vget_app, H. cbn. now destruct (get_step s v).
Qed.

Lemma store_into : forall m r s v x w, load m r = Some v -> get_step s v = Some x ->
  store m (into r s) w = store m r (set_step s w v).
Proof.
  intros m r s v x w H Hs. unfold load, into, store in *. cbn. destruct (nth_error m (object r)) as [y|] eqn:E; [|discriminate].
  f_equal. eapply vset_app; eauto.
Qed.

Lemma load_app : forall m x r v, load m r = Some v -> load (m ++ x) r = Some v.
Proof.
  intros m x r v H. pose proof (load_lt _ _ _ H) as Hl. unfold load in *. now rewrite nth_error_app1.
Qed.

Lemma store_app : forall m x r w, object r < List.length m -> store (m ++ x) r w = store m r w ++ x.
Proof.
  intros m x r w H. unfold store. rewrite nth_error_app1 by auto.
  destruct (nth_error m (object r)) eqn:E; auto. now apply set_nth_app.
Qed.

Lemma load_end : forall m v, load (m ++ [v]) {| object := List.length m; path := [] |} = Some v.
Proof. intros. unfold load. cbn. now rewrite nth_error_app2, Nat.sub_diag by lia. Qed.

Lemma store_end : forall m v w, store (m ++ [v]) {| object := List.length m; path := [] |} w = m ++ [w].
Proof.
  intros. unfold store. cbn. rewrite nth_error_app2, Nat.sub_diag by lia. cbn. apply set_nth_end.
Qed.

Lemma emplace_replace : forall l k v, map_find l k = None -> map_replace (map_assign l k v) k v = map_assign l k v.
Proof. intros. apply replace_same, assign_find. Qed.
