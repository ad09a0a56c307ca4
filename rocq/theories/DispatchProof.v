(** Proofs about member dispatch. *)
From Coq Require Import List Arith NArith Ascii String Bool Lia.
From Verif Require Import Base HashModel HashProof DispatchModel.
Import ListNotations.

Lemma same_spec : forall a b, same a b = true <-> a = b.
Proof.
  induction a as [|x a IH]; intros [|y b]; cbn; split; intros H; try discriminate; auto.
  - apply andb_true_iff in H. destruct H as [E H]. apply Ascii.eqb_eq in E. apply IH in H. now subst.
  - injection H as -> ->. now rewrite Ascii.eqb_refl, (proj2 (IH b)).
Qed.

Lemma same_refl : forall a, same a a = true.
Proof. intros a. now apply same_spec. Qed.

Lemma same_false : forall a b, a <> b -> same a b = false.
Proof. intros a b H. destruct (same a b) eqn:E; [|reflexivity]. now apply same_spec in E. Qed.

Lemma visit_ok : forall left here idx, here <= idx < here + left -> visit left here idx = Some idx.
Proof.
  induction left as [|left IH]; intros here idx H; [lia|]. cbn [visit].
  destruct (Nat.eqb_spec idx here) as [->|]; [reflexivity|]. apply IH. lia.
Qed.

Lemma build_good : forall fuel items t, items <> [] ->
  (N.of_nat (List.length items) <= 2 ^ 63)%N -> (N.of_nat fuel < 2 ^ 63)%N ->
  build fuel items = Ok t ->
  (forall k s, nth_error items k = Some s -> index (List.length items) t s = Ok k) /\
  (forall s, exists j, index (List.length items) t s = Ok j /\ j < List.length items).
Proof.
  intros fuel items t NE HS HF E.
  assert (0 < List.length items) as P by (destruct items; [congruence|cbn; lia]).
  pose proof (lookup_ok items (List.length items) eq_refl P HS fuel HF) as L. now rewrite E in L.
Qed.

Lemma build_not_bad : forall fuel items, items <> [] ->
  (N.of_nat (List.length items) <= 2 ^ 63)%N -> (N.of_nat fuel < 2 ^ 63)%N ->
  build fuel items <> Bad.
Proof.
  intros fuel items NE HS HF E.
  assert (0 < List.length items) as P by (destruct items; [congruence|cbn; lia]).
  pose proof (lookup_ok items (List.length items) eq_refl P HS fuel HF) as L. now rewrite E in L.
Qed.

Lemma build_distinct : forall fuel items t, items <> [] ->
  (N.of_nat (List.length items) <= 2 ^ 63)%N -> (N.of_nat fuel < 2 ^ 63)%N ->
  build fuel items = Ok t -> NoDup items.
Proof.
  intros fuel items t NE HS HF E. destruct (build_good fuel items t NE HS HF E) as [G _].
  apply NoDup_nth_error. intros i j Hi EQ. destruct (nth_error items i) as [s|] eqn:EI.
  - pose proof (G i s EI). symmetry in EQ. pose proof (G j s EQ). congruence.
  - apply nth_error_None in EI. lia.
Qed.

Lemma build_repeated : forall fuel items, ~ NoDup items ->
  (N.of_nat (List.length items) <= 2 ^ 63)%N -> (N.of_nat fuel < 2 ^ 63)%N ->
  build fuel items = Fuel.
Proof.
  intros fuel items ND HS HF.
  assert (items <> []) as NE by (intros ->; apply ND; constructor).
  destruct (build fuel items) as [t| |] eqn:E; [|reflexivity|].
  - elim ND. eapply build_distinct; eassumption.
  - elim (build_not_bad fuel items NE HS HF E).
Qed.

(** What dispatch should be. *)
Definition is_position (names : list (list ascii)) (key : list ascii) (r : option nat) : Prop :=
  match r with
  | Some k => nth_error names k = Some key
  | None => ~ In key names
  end.

Lemma dispatch_ok : forall fuel names key r, names <> [] ->
  (N.of_nat (List.length names) <= 2 ^ 63)%N -> (N.of_nat fuel < 2 ^ 63)%N ->
  dispatch fuel names key = Ok r -> is_position names key r.
Proof.
  intros fuel names key r NE HS HF. destruct names as [|a [|b [|c l]]]; [congruence| | |].
  - cbn. intros E. injection E as <-. destruct (same a key) eqn:S.
    + apply same_spec in S. subst. reflexivity.
    + cbn. intros [->|[]]. now rewrite same_refl in S.
  - cbn. intros E. injection E as <-. destruct (same key a) eqn:S; [apply same_spec in S; subst; reflexivity|].
    destruct (same key b) eqn:S2; [apply same_spec in S2; subst; reflexivity|].
    cbn. intros [->|[->|[]]]; now rewrite same_refl in *.
  - remember (a :: b :: c :: l) as names eqn:EN. intros E.
    assert (dispatch fuel names key =
      (let* hash_map <- build fuel names;
       let* k <- index (List.length names) hash_map key;
       let* found <- of_opt (nth_error names k);
       if negb (same found key) then Ok None
       else match visit_at (List.length names) k with Some m => Ok (Some m) | None => Bad end)) as D
      by (now rewrite EN).
    rewrite D in E. clear D. destruct (build fuel names) as [t| |] eqn:B; cbn [rbind] in E; try discriminate.
    destruct (build_good fuel names t NE HS HF B) as [G1 G2].
    destruct (G2 key) as (j & EJ & LJ). rewrite EJ in E. cbn [rbind] in E.
    destruct (nth_error names j) as [found|] eqn:EF; cbn [of_opt rbind] in E; [|discriminate].
    destruct (same found key) eqn:S; cbn [negb] in E.
    + unfold visit_at in E. rewrite visit_ok in E by lia. injection E as <-. cbn.
      apply same_spec in S. now subst found.
    + injection E as <-. cbn. intros IN. apply In_nth_error in IN. destruct IN as (k & EK).
      pose proof (G1 k key EK) as E2. assert (k = j) by congruence. subst.
      assert (found = key) by congruence. subst. now rewrite same_refl in S.
Qed.

Lemma dispatch_not_bad : forall fuel names key, names <> [] ->
  (N.of_nat (List.length names) <= 2 ^ 63)%N -> (N.of_nat fuel < 2 ^ 63)%N ->
  dispatch fuel names key <> Bad.
Proof.
  intros fuel names key NE HS HF. destruct names as [|a [|b [|c l]]]; [congruence|discriminate|discriminate|].
  remember (a :: b :: c :: l) as names eqn:EN. intros E.
  assert (dispatch fuel names key =
      (let* hash_map <- build fuel names;
       let* k <- index (List.length names) hash_map key;
       let* found <- of_opt (nth_error names k);
       if negb (same found key) then Ok None
       else match visit_at (List.length names) k with Some m => Ok (Some m) | None => Bad end)) as D
      by (now rewrite EN).
  rewrite D in E. clear D. destruct (build fuel names) as [t| |] eqn:B; cbn [rbind] in E; try discriminate.
  - destruct (build_good fuel names t NE HS HF B) as [G1 G2].
    destruct (G2 key) as (j & EJ & LJ). rewrite EJ in E. cbn [rbind] in E.
    destruct (nth_error names j) as [found|] eqn:EF; cbn [of_opt rbind] in E.
    + destruct (same found key); cbn [negb] in E; [|discriminate].
      unfold visit_at in E. rewrite visit_ok in E by lia. discriminate.
    + apply nth_error_None in EF. lia.
  - elim (build_not_bad fuel names NE HS HF B).
Qed.
