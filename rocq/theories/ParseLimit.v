(** The limit of the handler stack: the parser with a limited stack does the same as with an
    unlimited one, or reports that there is no room; and enough room for flat documents. *)
From Coq Require Import List Arith Lia ZArith NArith Ascii String Bool.
From Verif Require Import Base Float NumericModel HashModel DispatchModel Json Events Types SerializeModel DeserializeModel
  ParseModel ParseRead ParseSpec PlaceFacts ParseProof ParseFacts.
Import ListNotations.

Definition unlimited : capacity := fun _ _ => true.

Section Limited.
Variable e : env.
Variable fuel : nat.
Variable fits : capacity.

Definition same_or_over (x y : pres) : Prop := x = POver \/ x = y.

Lemma emplace_limited : forall k r s, same_or_over (emplace fits k r s) (emplace unlimited k r s).
Proof. intros. unfold emplace, same_or_over. destruct (fits _ _); cbn; auto. Qed.

Lemma replace_limited : forall k r s, same_or_over (replace fits k r s) (replace unlimited k r s).
Proof. intros. apply emplace_limited. Qed.

Lemma open_limited : forall t r s, same_or_over (open e fits t r s) (open e unlimited t r s).
Proof.
  intros. rewrite !open_eq. unfold same_or_over. destruct (compiles t); auto. destruct (fits _ _); auto.
  cbn [unlimited]. destruct (construct e t r s) as [r1 s1]. apply emplace_limited.
Qed.

Lemma member_limited : forall m r s, same_or_over (open_member e fits m r s) (open_member e unlimited m r s).
Proof.
  intros. unfold open_member. destruct (m_kind m); try apply open_limited.
  unfold same_or_over. destruct (core (m_ty m)); auto; destruct (fits _ _); auto; cbn [unlimited]; apply open_limited.
Qed.

Lemma value_limited : forall t r ev s, same_or_over (on_value e fits t r ev s) (on_value e unlimited t r ev s).
Proof.
  intros. unfold same_or_over.
  destruct t; cbn [on_value]; auto; destruct ev; auto; try (apply replace_limited).
  destruct (fast t); [apply replace_limited|].
  destruct (replace_limited (KSet t (List.length (mem s))) r s) as [H|H]; rewrite H; auto.
Qed.

Lemma forward_limited : forall ev x y, same_or_over x y -> same_or_over (forward e fits ev x) (forward e unlimited ev y).
Proof.
  intros ev x y [->| ->]; [now left|]. destruct y as [s| | | |]; try (now right).
  cbn [forward]. destruct (stack s) as [|[k r] hs]; [now right|]. destruct k; try (now right). apply value_limited.
Qed.

Lemma step_limited : forall ev s, same_or_over (step e fuel fits ev s) (step e fuel unlimited ev s).
Proof.
  intros. unfold step. destruct (stack s) as [|h hs]; [now right|].
  destruct (h_kind h) as [t|u|u id|u|u|c|i ts].
  - apply value_limited.
  - unfold on_vector. destruct ev; try (now right); destruct (fast u); try (now right); destruct (is_json_type u _); try (now right);
      apply forward_limited, open_limited.
  - unfold on_set. destruct ev; try (now right); destruct (is_json_type u _); try (now right); apply forward_limited, open_limited.
  - now right.
  - unfold on_map. destruct ev; try (now right). apply open_limited.
  - unfold on_object. destruct ev; try (now right). destruct (dispatch _ _ _) as [[i|]| |]; try (now right).
    destruct (nth_error _ i); try (now right). apply member_limited.
  - unfold on_fixed. destruct ts as [|t ts]; [now right|]. destruct ev; try (now right);
    destruct (replace_limited (KFixed (S i) ts) (h_ref h) s) as [H|H]; rewrite H; try (now left);
    (destruct (replace unlimited (KFixed (S i) ts) (h_ref h) s); try (now right)); apply forward_limited, open_limited.
Qed.

Lemma run_limited : forall evs s, same_or_over (run e fuel fits evs s) (run e fuel unlimited evs s).
Proof.
  induction evs as [|ev evs IH]; intros s; cbn; [now right|].
  destruct (step_limited ev s) as [H|H]; rewrite H; [now left|]. destruct (step e fuel unlimited ev s); auto; now right.
Qed.

Lemma parse_limited : forall t j obj, parse_into e fuel fits t j obj = OutOfSpace \/
  parse_into e fuel fits t j obj = parse_into e fuel unlimited t j obj.
Proof.
  intros. unfold parse_into, parse_events.
  destruct (open_limited t root_place (initial obj)) as [H|H]; rewrite H; auto.
  destruct (open e unlimited t root_place (initial obj)) as [s| | | |]; auto.
  destruct (run_limited (events j) s) as [Hr|Hr]; rewrite Hr; auto.
Qed.
End Limited.

(** * Room *)

(** Depth of arrays and objects. *)
Fixpoint nesting (j : json) : nat :=
  match j with
  | JArr l => S (list_max (map nesting l))
  | JObj l => S (list_max (map (fun p => nesting (snd p)) l))
  | _ => 0
  end.

(** No sets with temporary storage. *)
Fixpoint small (t : ty) : bool :=
  match t with
  | TSet u => fast u
  | TVector u | TArray _ u | TMap _ u | TUnique u | TShared u | TPtr u => small u
  | TPair a b => small a && small b
  | TTuple ts | TVariant ts => forallb small ts
  | _ => true
  end.

Definition small_classes (e : env) : Prop := forall c, forallb (fun m => small (m_ty m)) (c_members (class_of e c)) = true.

Lemma list_max_cons : forall x l, list_max (x :: l) = Nat.max x (list_max l).
Proof. reflexivity. Qed.

Section Room.
Variable e : env.
Variable fuel : nat.
Variable fits : capacity.
Variable n b : nat.
Hypothesis room : forall used size, List.length used <= n -> Forall (fun s => s <= b) used -> size <= b -> fits used size = true.
Hypothesis big : 24 <= b.
Variable ok : ty -> bool.
Hypothesis ok_parts : forall t, ok t = true -> match t with
  | TSet u => ok u = true /\ (fast u = true \/ 48 <= b)
  | TVector u | TArray _ u | TMap _ u | TUnique u | TShared u => ok u = true
  | TPair x y => ok x = true /\ ok y = true
  | TTuple ts => forallb ok ts = true
  | TClass c => forallb (fun m => ok (m_ty m)) (c_members (class_of e c)) = true
  | _ => True
  end.

Definition enough (j : json) (f : rdr) : Prop := forall below t old a, ok t = true ->
  List.length below + nesting j <= n -> Forall (fun s => s <= b) below -> f below t old a <> ROver.

Lemma ok_core : forall t, ok t = true -> ok (core t) = true.
Proof. induction t; cbn; auto; intros H; apply ok_parts in H; auto. Qed.

Lemma boxed_enough : forall t (g : val -> nat -> rres) old a, (forall old a, g old a <> ROver) -> boxed e t old a g <> ROver.
Proof.
  induction t; intros g old a H; cbn [boxed]; auto.
  - specialize (IHt g (vinit e t) a H). destruct (boxed e t _ a g); cbn; congruence.
  - specialize (IHt g (vinit e t) (S a) H). destruct (boxed e t _ (S a) g); cbn; congruence.
Qed.

Lemma ropen_enough : forall j f below t old a, enough j f -> ok t = true -> List.length below + nesting j <= n ->
  Forall (fun s => s <= b) below -> ropen e fits below t f old a <> ROver.
Proof.
  intros j f below t old a Hf Ht Hn Hb. unfold ropen. destruct (compiles t); [|discriminate].
  rewrite room; [|lia|auto|cbn; lia]. apply boxed_enough. intros. apply Hf; auto. now apply ok_core.
Qed.

Lemma andthen_enough : forall x k, x <> ROver -> (forall v a, k v a <> ROver) -> andthen x k <> ROver.
Proof. intros x k H Hk. destruct x; cbn; congruence. Qed.

Lemma replaced_enough : forall below k x, List.length below <= n -> Forall (fun s => s <= b) below -> size_of k <= b -> x <> ROver ->
  replaced fits below k x <> ROver.
Proof. intros. unfold replaced. rewrite room; auto. Qed.

Lemma ritems_enough : forall u below js, ok u = true -> Forall (fun s => s <= b) below ->
  Forall (fun j => enough j (pread e fuel fits j)) js ->
  List.length below + list_max (map nesting js) <= n -> forall acc a,
  ritems e fits u below (map (fun x => (head x, pread e fuel fits x)) js) acc a <> ROver.
Proof.
  intros u below js Hu Hb Hjs. induction Hjs as [|j js Hj Hjs IH]; intros Hn acc a; cbn; [discriminate|].
  cbn [map snd] in Hn; rewrite list_max_cons in Hn. destruct (is_json_type u (head j)); [|discriminate].
  apply andthen_enough.
  - eapply ropen_enough; eauto; lia.
  - intros. apply IH; lia.
Qed.

Lemma rfast_enough : forall u add evs acc a, rfast e u add evs acc a <> ROver.
Proof. induction evs as [|ev evs IH]; intros; cbn; [discriminate|]. destruct (scalar e u ev); auto; discriminate. Qed.

Lemma rfixed_enough : forall js, Forall (fun j => enough j (pread e fuel fits j)) js -> forall i ts below,
  forallb ok ts = true -> Forall (fun s => s <= b) below -> S (List.length below) + list_max (map nesting js) <= n -> forall vs a,
  rfixed e fits i ts below (map (fun x => (head x, pread e fuel fits x)) js) vs a <> ROver.
Proof.
  intros js Hjs. induction Hjs as [|j js Hj Hjs IH]; intros i [|t ts] below Ht Hb Hn vs a; cbn; try discriminate.
  cbn [map snd] in Hn; rewrite list_max_cons in Hn. cbn in Ht. apply andb_prop in Ht. destruct Ht as [Ht Hts].
  rewrite room; [|lia|auto|auto]. apply andthen_enough.
  - eapply ropen_enough; eauto; cbn; lia.
  - intros. apply IH; auto; lia.
Qed.

Lemma rentries_enough : forall u below l, ok u = true -> Forall (fun s => s <= b) below ->
  Forall (fun p => enough (snd p) (pread e fuel fits (snd p))) l ->
  List.length below + list_max (map (fun p => nesting (snd p)) l) <= n -> forall acc a,
  rentries e fits u below (map (fun p => (fst p, pread e fuel fits (snd p))) l) acc a <> ROver.
Proof.
  intros u below js Hu Hb Hjs. induction Hjs as [|[k j] js Hj Hjs IH]; intros Hn acc a; cbn; [discriminate|].
  cbn [map snd] in Hn; rewrite list_max_cons in Hn. apply andthen_enough.
  - eapply ropen_enough; eauto; cbn; lia.
  - intros. apply IH; lia.
Qed.

Lemma rmembers_enough : forall ms below l, forallb (fun m => ok (m_ty m)) ms = true -> Forall (fun s => s <= b) below ->
  Forall (fun p => enough (snd p) (pread e fuel fits (snd p))) l ->
  List.length below + list_max (map (fun p => nesting (snd p)) l) <= n -> forall vs a,
  rmembers e fuel fits ms below (map (fun p => (fst p, pread e fuel fits (snd p))) l) vs a <> ROver.
Proof.
  intros ms below js Hu Hb Hjs. induction Hjs as [|[k j] js Hj Hjs IH]; intros Hn acc a; cbn; [discriminate|].
  cbn [map snd] in Hn; rewrite list_max_cons in Hn. destruct (dispatch _ _ _) as [[i|]| |]; try discriminate. destruct (nth_error ms i) as [m|] eqn:E; [|discriminate].
  assert (Hm : ok (m_ty m) = true) by (rewrite forallb_forall in Hu; eapply Hu, nth_error_In; eauto).
  apply andthen_enough.
  - unfold rmember. destruct (m_kind m).
    1,2: eapply ropen_enough; eauto; cbn; lia.
    assert (H : ropen e fits below (m_ty m) (pread e fuel fits j) (vinit e (m_ty m)) a <> ROver) by (eapply ropen_enough; eauto; cbn; lia).
    destruct (ropen _ _ _ _ _ _ a); cbn; congruence.
  - intros. apply IH; lia.
Qed.

Lemma forallb_repeat : forall (f : ty -> bool) x k, f x = true -> forallb f (repeat x k) = true.
Proof. intros. induction k; cbn; auto. now rewrite H, IHk. Qed.

Lemma pread_enough : forall j, enough j (pread e fuel fits j).
Proof.
  induction j using json_ind'; intros below t old a Ht Hn Hb;
    try (destruct t; cbn [pread]; try discriminate; destruct (scalar e _ _); discriminate);
    cbn [nesting] in Hn.
  - pose proof (ok_parts t Ht) as Hp.
    destruct t; cbn [pread]; try discriminate; try (destruct (scalar e _ _); discriminate).
    + apply replaced_enough; auto; [lia|]. destruct (fast t); [apply rfast_enough|].
      apply ritems_enough; auto. cbn. lia.
    + apply replaced_enough; auto; [lia|]. apply rfixed_enough; auto; [now apply forallb_repeat|lia].
    + destruct Hp as [Hp Hp']. destruct (fast t).
      * apply replaced_enough; auto; [lia|apply rfast_enough].
      * destruct Hp' as [?|Hp']; [discriminate|]. apply replaced_enough; auto; [lia|].
        assert (Hx : ritems e fits t (48 :: below) (map (fun x => (head x, pread e fuel fits x)) l) [] a <> ROver).
        { apply ritems_enough; auto. cbn. lia. }
        cbn [size_of]. destruct (ritems e fits t _ _ _ a); cbn; congruence.
    + destruct Hp as [Hx Hy]. apply replaced_enough; auto; [lia|]. apply rfixed_enough; auto; [|lia]. cbn. now rewrite Hx, Hy.
    + apply replaced_enough; auto; [lia|]. apply rfixed_enough; auto; lia.
  - pose proof (ok_parts t Ht) as Hp.
    destruct t; cbn [pread]; try discriminate; try (destruct (scalar e _ _); discriminate).
    + apply replaced_enough; auto; [lia|]. apply rentries_enough; auto. cbn. lia.
    + apply replaced_enough; auto; [lia|]. apply rmembers_enough; auto. cbn. lia.
Qed.

Lemma room_suffices : forall t j obj, shaped_classes e -> shaped e t obj -> ok t = true -> nesting j <= n ->
  parse_into e fuel fits t j obj <> OutOfSpace.
Proof.
  intros t j obj He Ho Ht Hn.
  assert (H : ropen e fits [] t (pread e fuel fits j) obj 0 <> ROver) by (apply (ropen_enough j); auto; apply pread_enough).
  pose proof (parse_into_spec e fuel fits t j obj He Ho) as Hs.
  destruct (ropen e fits [] t (pread e fuel fits j) obj 0); try congruence. destruct Hs as (w & ->). discriminate.
Qed.
End Room.

Lemma sum_bound : forall b l, Forall (fun s => s <= b) l -> list_sum l <= b * List.length l.
Proof. intros b l H. induction H; cbn [list_sum fold_right List.length]; [lia|]. fold (list_sum l). lia. Qed.

Lemma real_room : forall used size, List.length used <= 84 -> Forall (fun s => s <= 48) used -> size <= 48 ->
  real_capacity used size = true.
Proof.
  intros used size Hl Hu Hs. pose proof (sum_bound _ _ Hu) as Hb. unfold real_capacity. apply negb_true_iff, orb_false_iff.
  split; apply Nat.leb_gt; lia.
Qed.

Lemma real_room_small : forall used size, List.length used <= 127 -> Forall (fun s => s <= 24) used -> size <= 24 ->
  real_capacity used size = true.
Proof.
  intros used size Hl Hu Hs. pose proof (sum_bound _ _ Hu) as Hb. unfold real_capacity. apply negb_true_iff, orb_false_iff.
  split; apply Nat.leb_gt; lia.
Qed.

Lemma nesting_84 : forall e fuel t j obj, shaped_classes e -> shaped e t obj -> nesting j <= 84 ->
  parse_into e fuel real_capacity t j obj <> OutOfSpace.
Proof.
  intros e fuel t j obj He Ho Hn.
  apply (room_suffices e fuel real_capacity 84 48 real_room ltac:(lia) (fun _ => true)); auto.
  intros t' _. destruct t'; auto.
  - apply forallb_forall. auto.
  - apply forallb_forall. auto.
Qed.

Lemma nesting_127 : forall e fuel t j obj, shaped_classes e -> shaped e t obj -> small_classes e -> small t = true -> nesting j <= 127 ->
  parse_into e fuel real_capacity t j obj <> OutOfSpace.
Proof.
  intros e fuel t j obj He Ho Hc Ht Hn.
  apply (room_suffices e fuel real_capacity 127 24 real_room_small ltac:(lia) small); auto.
  intros t' H. destruct t'; auto; cbn in H.
  - split; auto. clear - H. destruct t'; cbn in *; congruence.
  - apply andb_prop in H. tauto.
Qed.

(** * Documents that need all the room there is *)

(** [n] nested arrays around nothing, and the type that reads them. *)
Fixpoint arrays (n : nat) : json := match n with 0 => JArr [] | S n => JArr [arrays n] end.
Fixpoint vectors (n : nat) : ty := match n with 0 => TVector (TInt int32) | S n => TVector (vectors n) end.
Fixpoint lists (n : nat) : val := match n with 0 => VList [] | S n => VList [lists n] end.

Lemma arrays_nesting : forall n, nesting (arrays n) = S n.
Proof. induction n; cbn [arrays nesting map]; [reflexivity|]. rewrite list_max_cons, IHn. cbn. lia. Qed.

Lemma real_repeat : forall k, real_capacity (repeat 24 k) 24 = (k <? 128).
Proof.
  intros k. unfold real_capacity.
  assert (H : list_sum (repeat 24 k) = 24 * k) by (induction k; cbn [repeat list_sum fold_right]; [reflexivity|]; fold (list_sum (repeat 24 k)); lia).
  rewrite H, repeat_length. destruct (Nat.ltb_spec k 128).
  - apply negb_true_iff, orb_false_iff. split; apply Nat.leb_gt; lia.
  - apply negb_false_iff, orb_true_iff. left. apply Nat.leb_le; lia.
Qed.

Lemma arrays_read : forall e fuel n k a,
  ropen e real_capacity (repeat 24 k) (vectors n) (pread e fuel real_capacity (arrays n)) (VList []) a =
  if n + k <? 128 then RDone (lists n) a else ROver.
Proof.
  intros e fuel. induction n as [|n IH]; intros k a.
  - unfold ropen. cbn [vectors compiles core size_of boxed arrays lists plus]. rewrite real_repeat.
    destruct (k <? 128) eqn:E; [|reflexivity]. cbn [pread]. unfold replaced. cbn [size_of map rfast items_of]. now rewrite real_repeat, E.
  - unfold ropen. cbn [vectors compiles core size_of boxed arrays lists]. rewrite real_repeat.
    destruct (Nat.ltb_spec k 128); destruct (Nat.ltb_spec (S n + k) 128); try lia.
    + cbn [pread]. replace (fast (vectors n)) with false by now destruct n. unfold replaced. cbn [size_of].
      rewrite real_repeat. replace (k <? 128) with true by (symmetry; apply Nat.ltb_lt; lia).
      cbn [map ritems fst snd items_of]. replace (is_json_type (vectors n) (head (arrays n))) with true by now destruct n.
      replace (vinit e (vectors n)) with (VList []) by now destruct n.
      change (24 :: repeat 24 k) with (repeat 24 (S k)). rewrite IH. replace (n + S k <? 128) with true by (symmetry; apply Nat.ltb_lt; lia).
      reflexivity.
    + cbn [pread]. replace (fast (vectors n)) with false by now destruct n. unfold replaced. cbn [size_of].
      rewrite real_repeat. replace (k <? 128) with true by (symmetry; apply Nat.ltb_lt; lia).
      cbn [map ritems fst snd items_of]. replace (is_json_type (vectors n) (head (arrays n))) with true by now destruct n.
      replace (vinit e (vectors n)) with (VList []) by now destruct n.
      change (24 :: repeat 24 k) with (repeat 24 (S k)). rewrite IH. replace (n + S k <? 128) with false by (symmetry; apply Nat.ltb_ge; lia).
      reflexivity.
    + reflexivity.
Qed.

Lemma arrays_parse : forall e fuel n, shaped_classes e ->
  parse_into e fuel real_capacity (vectors n) (arrays n) (VList []) =
  if n <? 128 then Parsed true (lists n) else OutOfSpace.
Proof.
  intros e fuel n He.
  assert (Ho : shaped e (vectors n) (VList [])) by (destruct n; constructor).
  pose proof (parse_into_spec e fuel real_capacity _ (arrays n) _ He Ho) as H.
  pose proof (arrays_read e fuel n 0 0) as Hr. cbn [repeat] in Hr. rewrite Hr in H. rewrite Nat.add_0_r in H.
  destruct (n <? 128); auto.
Qed.
