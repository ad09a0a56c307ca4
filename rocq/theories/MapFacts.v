(** Maps as sorted lists, and the order of members. *)
From Coq Require Import List Arith ZArith NArith Ascii String Bool Lia Permutation Sorted.
From Verif Require Import Base Float NumericModel NumericSpec Json Types SerializeModel
  DeserializeModel DenoteSpec DenoteProof SameSpec SameProof DenoteFacts MemberFacts.
Import ListNotations.

(** The order of strings. *)
Lemma str_ltb_irrefl : forall a, str_ltb a a = false.
Proof.
  induction a as [|c a IH]; cbn; [reflexivity|]. rewrite IH, andb_false_r, orb_false_r. apply N.ltb_irrefl.
Qed.

Lemma str_ltb_trans : forall a b c, str_ltb a b = true -> str_ltb b c = true -> str_ltb a c = true.
Proof.
  induction a as [|x a IH]; intros [|y b] [|z c] H K; cbn in *; try discriminate; try reflexivity.
  apply orb_true_iff in H, K. apply orb_true_iff.
  destruct H as [H|H], K as [K|K]; rewrite ?andb_true_iff, ?N.ltb_lt, ?N.eqb_eq in *; [left; lia|left; lia|left; lia|].
  right. split; [lia|]. eapply IH; [apply H|apply K].
Qed.

Lemma str_ltb_total : forall a b, str_ltb a b = false -> str_ltb b a = false -> a = b.
Proof.
  induction a as [|x a IH]; intros [|y b] H K; cbn in *; try discriminate; try reflexivity.
  apply orb_false_iff in H, K. destruct H as [H1 H2], K as [K1 K2]. rewrite N.ltb_ge in *.
  assert (E : N_of_ascii x = N_of_ascii y) by lia. rewrite E, N.eqb_refl in *. cbn in H2, K2.
  f_equal; [|auto]. rewrite <- (ascii_N_embedding x), <- (ascii_N_embedding y). now f_equal.
Qed.

Definition before (p q : string * val) : Prop := str_ltb (fst p) (fst q) = true.
Definition ascending (m : list (string * val)) : Prop := StronglySorted before m.

Fixpoint find_entry (m : list (string * val)) (k : string) : option val :=
  match m with
  | [] => None
  | (n, v) :: m' => if String.eqb n k then Some v else find_entry m' k
  end.

Lemma find_entry_above : forall m k, Forall (fun q => str_ltb k (fst q) = true) m -> find_entry m k = None.
Proof.
  intros m k F. induction F as [|[n v] m H F IH]; cbn; [reflexivity|].
  destruct (String.eqb_spec n k) as [->|N]; [|exact IH]. cbn in H. now rewrite str_ltb_irrefl in H.
Qed.

Lemma map_assign_above : forall m a k v, Forall (fun q => str_ltb a (fst q) = true) m -> str_ltb a k = true ->
  Forall (fun q : string * val => str_ltb a (fst q) = true) (map_assign m k v).
Proof.
  intros m a k v F H. induction F as [|[n w] m Hn F IH]; cbn; [auto|].
  destruct (str_ltb k n); [constructor; [exact H|constructor; auto]|]. destruct (str_ltb n k); constructor; auto.
Qed.

Lemma map_assign_ascending : forall m k v, ascending m -> ascending (map_assign m k v).
Proof.
  intros m k v S. induction S as [|[n w] m S IH F]; cbn; [repeat constructor|].
  destruct (str_ltb k n) eqn:A.
  - constructor; [constructor; assumption|]. constructor; [exact A|].
    eapply Forall_impl; [|exact F]. intros q B. exact (str_ltb_trans _ _ _ A B).
  - destruct (str_ltb n k) eqn:B; constructor; auto. now apply map_assign_above.
Qed.

Lemma map_assign_find : forall m k v k', ascending m ->
  find_entry (map_assign m k v) k' = if String.eqb k k' then Some v else find_entry m k'.
Proof.
  intros m k v k' S. induction S as [|[n w] m S IH F]; cbn; [reflexivity|].
  destruct (str_ltb k n) eqn:A; [reflexivity|]. destruct (str_ltb n k) eqn:B; cbn.
  - rewrite IH. destruct (String.eqb_spec n k') as [->|N1], (String.eqb_spec k k') as [->|N2]; try reflexivity.
    now rewrite str_ltb_irrefl in B.
  - pose proof (str_ltb_total _ _ A B) as ->. destruct (String.eqb n k'); reflexivity.
Qed.

Lemma ascending_ext : forall m m', ascending m -> ascending m' -> (forall k, find_entry m k = find_entry m' k) -> m = m'.
Proof.
  intros m m' S. revert m'. induction S as [|[n w] m S IH F]; intros [|[n' w'] m'] S' E.
  - reflexivity.
  - specialize (E n'). cbn in E. rewrite String.eqb_refl in E. discriminate.
  - specialize (E n). cbn in E. rewrite String.eqb_refl in E. discriminate.
  - inversion S' as [|? ? S1 F1]; subst.
    assert (N : n = n').
    { destruct (str_ltb n n') eqn:A.
      - pose proof (E n) as X. cbn in X. rewrite String.eqb_refl in X.
        destruct (String.eqb_spec n' n) as [->|Q]; [now rewrite str_ltb_irrefl in A|].
        rewrite find_entry_above in X; [discriminate|]. eapply Forall_impl; [|exact F1]. intros q B. exact (str_ltb_trans _ _ _ A B).
      - destruct (str_ltb n' n) eqn:B; [|now apply str_ltb_total].
        pose proof (E n') as X. cbn in X. rewrite String.eqb_refl in X.
        destruct (String.eqb_spec n n') as [->|Q]; [reflexivity|].
        rewrite find_entry_above in X; [discriminate|]. eapply Forall_impl; [|exact F]. intros q C. exact (str_ltb_trans _ _ _ B C). }
    subst n'. pose proof (E n) as X. cbn in X. rewrite String.eqb_refl in X. injection X as <-. f_equal. apply IH; [exact S1|].
    intros k. specialize (E k). cbn in E. destruct (String.eqb_spec n k) as [->|Q]; [|exact E].
    rewrite !find_entry_above; auto.
Qed.

Definition assign_all (ps m : list (string * val)) : list (string * val) :=
  fold_left (fun m p => map_assign m (fst p) (snd p)) ps m.

Lemma assign_all_ascending : forall ps m, ascending m -> ascending (assign_all ps m).
Proof. intros ps. induction ps as [|p ps IH]; intros m S; cbn; [exact S|]. apply IH. now apply map_assign_ascending. Qed.

(** The last one counts. *)
Lemma assign_all_find : forall ps m k, ascending m ->
  find_entry (assign_all ps m) k = match find_entry (rev ps) k with Some v => Some v | None => find_entry m k end.
Proof.
  intros ps. induction ps as [|[n v] ps IH]; intros m k S; cbn [assign_all fold_left]; [reflexivity|].
  change (fold_left _ ps ?x) with (assign_all ps x). rewrite IH by (now apply map_assign_ascending). cbn [fst snd].
  rewrite map_assign_find by exact S. cbn [rev].
  assert (A : forall l q, find_entry (l ++ [q]) k = match find_entry l k with Some v => Some v | None => find_entry [q] k end).
  { clear. intros l q. induction l as [|[n v] l IH]; cbn; [reflexivity|]. destruct (String.eqb n k); auto. }
  rewrite A. destruct (find_entry (rev ps) k); [reflexivity|]. cbn. destruct (String.eqb n k); reflexivity.
Qed.

Lemma find_entry_In : forall m k v, find_entry m k = Some v -> In (k, v) m.
Proof.
  intros m k v. induction m as [|[n w] m IH]; cbn; [discriminate|]. destruct (String.eqb_spec n k) as [->|N].
  - intros H. injection H as ->. now left.
  - auto.
Qed.

Lemma find_entry_nodup : forall m k v, NoDup (map fst m) -> (find_entry m k = Some v <-> In (k, v) m).
Proof.
  intros m k v N. split; [apply find_entry_In|]. induction m as [|[n w] m IH]; cbn; [contradiction|].
  inversion N as [|? ? N1 N2]; subst. intros [E|I].
  - injection E as -> ->. now rewrite String.eqb_refl.
  - destruct (String.eqb_spec n k) as [->|]; [|auto]. elim N1. exact (in_map fst _ _ I).
Qed.

Lemma assign_all_perm : forall ps qs m, NoDup (map fst ps) -> Permutation ps qs -> ascending m -> assign_all ps m = assign_all qs m.
Proof.
  intros ps qs m N P S. apply ascending_ext; auto using assign_all_ascending. intros k. rewrite !assign_all_find by exact S.
  assert (N1 : NoDup (map fst (rev ps))).
  { rewrite map_rev. eapply Permutation_NoDup; [apply Permutation_rev|exact N]. }
  assert (P' : Permutation (rev ps) (rev qs)).
  { rewrite <- Permutation_rev, <- Permutation_rev. exact P. }
  assert (E : find_entry (rev ps) k = find_entry (rev qs) k).
  { assert (N2 : NoDup (map fst (rev qs))) by (eapply Permutation_NoDup; [apply Permutation_map; exact P'|exact N1]).
    destruct (find_entry (rev ps) k) as [v|] eqn:E1.
    - symmetry. apply find_entry_nodup; [exact N2|]. apply find_entry_nodup in E1; [|exact N1]. eapply Permutation_in; eauto.
    - destruct (find_entry (rev qs) k) as [v|] eqn:E2; [|reflexivity]. apply find_entry_nodup in E2; [|exact N2].
      assert (I : In (k, v) (rev ps)) by (eapply Permutation_in; [apply Permutation_sym; exact P'|exact E2]).
      apply find_entry_nodup in I; [|exact N1]. congruence. }
  now rewrite E.
Qed.

(** C36 for maps. *)
Lemma combine_app : forall A B (l1 l2 : list A) (m1 m2 : list B), List.length l1 = List.length m1 ->
  combine (l1 ++ l2) (m1 ++ m2) = combine l1 m1 ++ combine l2 m2.
Proof. intros A B l1. induction l1 as [|a l1 IH]; intros l2 [|b m1] m2 H; try discriminate; cbn; [reflexivity|]. f_equal. auto. Qed.

Lemma find_entry_skip : forall k (l : list (string * json)) (vs : list val), Forall (fun p => until_nul (fst p) <> k) l ->
  ~ In k (map fst (combine (map (fun p => until_nul (fst p)) l) vs)).
Proof.
  intros k l vs F. revert vs. induction F as [|[n j] l H F IH]; intros [|v vs]; cbn; try tauto. intros [E|I]; [auto|]. exact (IH vs I).
Qed.

Lemma find_entry_not : forall m k, ~ In k (map fst m) -> find_entry m k = None.
Proof.
  intros m k. induction m as [|[n v] m IH]; cbn; [reflexivity|]. intros H. destruct (String.eqb_spec n k) as [->|N]; [elim H; now left|].
  apply IH. tauto.
Qed.

Lemma map_last : forall e t o l1 k j l2 m, ordinary e -> ordinary_type t ->
  Forall (fun p => until_nul (fst p) <> until_nul k) l2 ->
  deserialize_throw e (TMap o t) (JObj (l1 ++ (k, j) :: l2)) = Returned (VMap m) ->
  exists v, deserialize_throw e t j = Returned v /\ find_entry m (until_nul k) = Some v.
Proof.
  intros e t o l1 k j l2 m O Ot F E. apply accepts_exactly in E; [|exact O|exact Ot].
  inversion E as [| | | | | | | | | | | | | | | |o' t' old' l' vs V E1 E2 E3 E4| | | |]; subst.
  apply Forall2_app_inv_l in V. destruct V as (vs1 & vs2 & V1 & V2 & ->).
  inversion V2 as [|? v ? vs3 Dv V3]; subst. exists v. split; [apply accepts_exactly; auto|].
  change (find_entry (assign_all (combine (map (fun p => until_nul (fst p)) (l1 ++ (k, j) :: l2)) (vs1 ++ v :: vs3)) []) (until_nul k) = Some v).
  rewrite assign_all_find by constructor. rewrite map_app, combine_app, rev_app_distr.
  - cbn [map combine rev]. rewrite <- app_assoc. cbn [app].
    assert (A : forall a b, ~ In (until_nul k) (map fst a) -> find_entry (a ++ (until_nul k, v) :: b) (until_nul k) = Some v).
    { clear. intros a b. induction a as [|[n w] a IH]; cbn; intros H; [now rewrite String.eqb_refl|].
      destruct (String.eqb_spec n (until_nul k)) as [->|N]; [elim H; now left|]. apply IH. tauto. }
    cbn [fst]. rewrite A; [reflexivity|]. rewrite map_rev, <- in_rev. now apply find_entry_skip.
  - rewrite map_length. exact (Forall2_len _ _ _ _ _ V1).
Qed.

(** C31 *)
Lemma perm_forall2 : forall A B (R : A -> B -> Prop) l l', Permutation l l' -> forall m, Forall2 R l m ->
  exists m', Permutation (combine l m) (combine l' m') /\ Forall2 R l' m'.
Proof.
  intros A B R l l' P. induction P as [|x l l' P IH|x y l|l l' l'' P1 IH1 P2 IH2]; intros m F.
  - inversion F; subst. exists []. split; constructor.
  - inversion F as [|? y ? m' Rxy F']; subst. destruct (IH m' F') as (m2 & Q & F2). exists (y :: m2). split; [now constructor|now constructor].
  - inversion F as [|? a ? m' Ra F']; subst. inversion F' as [|? b ? m'' Rb F'']; subst. exists (b :: a :: m''). split; [apply perm_swap|].
    constructor; [assumption|]. constructor; assumption.
  - destruct (IH1 m F) as (m1 & Q1 & F1). destruct (IH2 m1 F1) as (m2 & Q2 & F2). exists m2. split; [now rewrite Q1|exact F2].
Qed.

Lemma find_member_nodup : forall l name j, NoDup (map fst l) -> (find_member l name = Some j <-> In (name, j) l).
Proof.
  intros l name j N. split; [apply find_member_In|]. induction l as [|[n w] l IH]; cbn; [contradiction|].
  inversion N as [|? ? N1 N2]; subst. intros [E|I].
  - injection E as -> ->. now rewrite String.eqb_refl.
  - destruct (String.eqb_spec n name) as [->|]; [|auto]. elim N1. exact (in_map fst _ _ I).
Qed.

Lemma nodup_fst : forall (l : list (string * json)), NoDup (map (fun p => until_nul (fst p)) l) -> NoDup (map fst l).
Proof. intros l N. rewrite <- (map_map fst until_nul) in N. now apply NoDup_map_inv in N. Qed.

Lemma find_member_reordered : forall l l1 l' name, NoDup (map fst l) ->
  Forall2 (fun p q => fst p = fst q /\ reordered (snd p) (snd q)) l l1 -> Permutation l1 l' ->
  match find_member l name, find_member l' name with
  | Some j, Some j' => reordered j j'
  | None, None => True
  | _, _ => False
  end.
Proof.
  intros l l1 l' name N F P.
  assert (K : map fst l = map fst l1).
  { clear N P. induction F as [|p q l l1 [E _] F IH]; cbn; [reflexivity|]. now rewrite E, IH. }
  assert (N1 : NoDup (map fst l1)) by (now rewrite <- K).
  assert (N' : NoDup (map fst l')) by (eapply Permutation_NoDup; [apply Permutation_map; exact P|exact N1]).
  assert (E : find_member l1 name = find_member l' name).
  { destruct (find_member l1 name) as [j|] eqn:E1.
    - symmetry. apply find_member_nodup; [exact N'|]. apply find_member_nodup in E1; [|exact N1]. eapply Permutation_in; eauto.
    - destruct (find_member l' name) as [j|] eqn:E2; [|reflexivity]. apply find_member_nodup in E2; [|exact N'].
      assert (I : In (name, j) l1) by (eapply Permutation_in; [apply Permutation_sym; exact P|exact E2]).
      apply find_member_nodup in I; [|exact N1]. congruence. }
  rewrite <- E. clear K N1 N' E P N. induction F as [|[n j] [n' j'] l l1 [E R] F IH]; cbn in *; [exact Logic.I|]. subst n'.
  destruct (String.eqb n name); auto.
Qed.

Lemma reordered_parts : forall e ts olds js vs, parts_denote (denotes e) ts olds js vs ->
  forall js', Forall2 reordered js js' ->
  Forall (fun j => forall t old v j', denotes e t old j v -> reordered j j' -> denotes e t old j' v) js ->
  parts_denote (denotes e) ts olds js' vs.
Proof.
  intros e ts olds js vs D. induction D as [|t ts olds j js v vs Dv Ds IH]; intros js' R F; inversion R; subst; [constructor|].
  inversion F; subst. constructor; eauto.
Qed.

Lemma reordered_items : forall e t old js vs, Forall2 (denotes e t old) js vs ->
  forall js', Forall2 reordered js js' ->
  Forall (fun j => forall t old v j', denotes e t old j v -> reordered j j' -> denotes e t old j' v) js ->
  Forall2 (denotes e t old) js' vs.
Proof.
  intros e t old js vs D. induction D as [|j v js vs Dv Ds IH]; intros js' R F; inversion R; subst; [constructor|].
  inversion F; subst. constructor; eauto.
Qed.

Lemma reordered_denotes : forall e j t old v j', denotes e t old j v -> reordered j j' -> denotes e t old j' v.
Proof.
  intros e. induction j as [|b|z|f|s|js IH|l IH] using json_ind'; intros t;
    try (intros old v j' D R; inversion R; subst; exact D).
  - induction t using ty_ind'; intros old v j' D R; inversion R as [? C|? js' F|]; subst; try contradiction C; inversion D; subst.
    + constructor. eapply reordered_items; eauto.
    + rewrite (Forall2_len _ _ _ _ _ F). constructor. eapply reordered_items; eauto.
    + constructor. eapply reordered_items; eauto.
    + constructor. eapply reordered_parts; eauto.
    + constructor. eapply reordered_parts; eauto.
    + constructor. eapply IHt; eauto.
  - induction t using ty_ind'; intros old v j' D R; inversion R as [? C| |? l1 l' N F P]; subst; try contradiction C; inversion D; subst.
    + (* map *)
      assert (D1 : Forall2 (fun p v => denotes e t (dinit e t) (snd p) v) l1 vs).
      { match goal with H : Forall2 _ l vs |- _ => revert vs D H end. clear - IH F. intros vs _ V. revert vs V. induction F as [|p q l l1 [E R] F IHF]; intros vs V; inversion V; subst; [constructor|].
        inversion IH; subst. constructor; [|auto]. eauto. }
      destruct (perm_forall2 _ _ _ _ _ P _ D1) as (vs' & Q & D2).
      assert (K : map (fun p => until_nul (fst p)) l = map (fun p => until_nul (fst p)) l1).
      { clear - F. induction F as [|p q l l1 [E _] F IHF]; cbn; [reflexivity|]. now rewrite E, IHF. }
      assert (X : forall ps ws, Forall2 (fun (p : string * json) v => denotes e t (dinit e t) (snd p) v) ps ws ->
        combine (map (fun p => until_nul (fst p)) ps) ws = map (fun x => (until_nul (fst (fst x)), snd x)) (combine ps ws)).
      { clear. intros ps ws F. induction F; cbn; [reflexivity|]. now rewrite IHF. }
      replace (fold_left (fun m p => map_assign m (fst p) (snd p)) (combine (map (fun p => until_nul (fst p)) l) vs) [])
        with (fold_left (fun m p => map_assign m (fst p) (snd p)) (combine (map (fun p => until_nul (fst p)) l') vs') []); [now constructor|].
      symmetry. rewrite K. change (assign_all (combine (map (fun p => until_nul (fst p)) l1) vs) [] = assign_all (combine (map (fun p => until_nul (fst p)) l') vs') []).
      apply assign_all_perm; [| |constructor].
      * assert (Y : map fst (combine (map (fun p => until_nul (fst p)) l1) vs) = map (fun p => until_nul (fst p)) l1).
        { clear - D1. induction D1; cbn; [reflexivity|]. now rewrite IHD1. }
        rewrite Y, <- K. exact N.
      * rewrite (X _ _ D1), (X _ _ D2). now apply Permutation_map.
    + (* class *)
      constructor. apply nodup_fst in N. clear D. match goal with H : members_denote _ _ _ _ _ vs |- _ => revert vs H end. generalize (components old). generalize (c_members (class_of e c)).
      intros ms. induction ms as [|m ms IHm]; intros olds vs M; inversion M as [|? ? ? v ? Dm Ds]; subst; constructor; [|auto].
      pose proof (find_member_reordered l l1 l' (m_name m) N F P) as X. rewrite Forall_forall in IH.
      inversion Dm as [j v0 K1 K2 K3|K1 K2|j v0 K1 K2 K3|K1 K2]; subst; rewrite K2 in X; destruct (find_member l' (m_name m)) as [j'|] eqn:E'; try contradiction.
      * eapply member_plain; eauto. apply find_member_In in K2. exact (IH _ K2 _ _ _ _ K3 X).
      * now apply member_kept.
      * eapply member_some; eauto. apply find_member_In in K2. exact (IH _ K2 _ _ _ _ K3 X).
      * now apply member_none.
    + constructor. eapply IHt; eauto.
Qed.

Lemma perm_forall2_r : forall A B (R : A -> B -> Prop) m m', Permutation m m' -> forall l, Forall2 R l m ->
  exists l', Permutation l l' /\ Forall2 R l' m'.
Proof.
  intros A B R m m' P. induction P as [|x l l' P IH|x y l|l l' l'' P1 IH1 P2 IH2]; intros m0 F.
  - inversion F; subst. exists []. split; constructor.
  - inversion F as [|y ? m1 ? Rxy F']; subst. destruct (IH m1 F') as (m2 & Q & F2). exists (y :: m2). split; now constructor.
  - inversion F as [|a ? m1 ? Ra F']; subst. inversion F' as [|b ? m2 ? Rb F'']; subst. exists (b :: a :: m2). split; [apply perm_swap|].
    constructor; [assumption|]. constructor; assumption.
  - destruct (IH1 _ F) as (m1 & Q1 & F1). destruct (IH2 m1 F1) as (m2 & Q2 & F2). exists m2. split; [now rewrite Q1|exact F2].
Qed.

Lemma reordered_sym : forall j j', reordered j j' -> reordered j' j.
Proof.
  induction j as [|b|z|f|s|js IH|l IH] using json_ind'; intros j' R; inversion R as [? C|? js' F|? l1 l' N F P]; subst; try exact R; try contradiction C.
  - constructor. clear R. induction F; inversion IH; subst; constructor; auto.
  - destruct (perm_forall2_r _ _ _ _ _ P _ F) as (l2 & Q & F2). apply (reordered_object l' l2 l).
    + assert (K : map (fun p => until_nul (fst p)) l2 = map (fun p => until_nul (fst p)) l').
      { clear - F2. induction F2 as [|p q l l1 [E _] F IHF]; cbn; [reflexivity|]. now rewrite E, IHF. }
      rewrite <- K. eapply Permutation_NoDup; [apply Permutation_map; exact Q|exact N].
    + assert (IH2 : Forall (fun p => forall j', reordered (snd p) j' -> reordered j' (snd p)) l2).
      { eapply Permutation_Forall; [exact Q|exact IH]. }
      clear - F2 IH2. induction F2 as [|p q l l1 [E R] F IHF]; inversion IH2; subst; constructor; auto.
    + now symmetry.
Qed.

Lemma order_irrelevant : forall e t, ordinary e -> ordinary_type t -> forall j j', reordered j j' -> forall v,
  deserialize_throw e t j = Returned v <-> deserialize_throw e t j' = Returned v.
Proof.
  intros e t O Ot j j' R v. rewrite !accepts_exactly by auto. split; intros D.
  - eapply reordered_denotes; eauto.
  - eapply reordered_denotes; [exact D|]. now apply reordered_sym.
Qed.
