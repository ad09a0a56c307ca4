(** The two readers agree. *)
From Coq Require Import List Arith Lia ZArith NArith Ascii String Bool Permutation Sorted.
From Verif Require Import Base Float NumericModel HashModel Json Types SerializeModel DeserializeModel
  ParseModel DenoteSpec DenoteProof ParseSpec MapFacts MergeSpec MergeProof MergeFacts AgreeSpec.
Import ListNotations.

Section Agree.
Variable e : env.
Hypothesis fc : fresh_classes e.
Hypothesis dd : distinct e.
Hypothesis pc : plain_classes e.

Lemma fresh_fixed : forall (f g : ty -> val) ts, Forall (fun t => plain t = true -> fresh e t (f t) (g t)) ts -> forallb plain ts = true ->
  fresh_parts (fresh e) ts (map f ts) (map g ts).
Proof.
  intros f g ts F. induction F as [|t ts Ft F IH]; intros P; cbn in *; [constructor|].
  apply andb_true_iff in P. destruct P. constructor; auto.
Qed.

Lemma fresh_init : forall t, plain t = true ->
  fresh e t (dinit e t) (dinit e t) /\ fresh e t (vinit e t) (dinit e t) /\ fresh e t (vinit e t) (vinit e t).
Proof.
  induction t using ty_ind'; intros P; try discriminate; cbn [dinit vinit]; try (repeat split; now constructor); try apply fc.
  - cbn in P. destruct (IHt P) as (A & B & C).
    repeat split; (apply fresh_array; [apply repeat_length|now apply forall_repeat]).
  - cbn in P. apply andb_true_iff in P. destruct P as [P1 P2]. destruct (IHt1 P1) as (A1 & B1 & C1), (IHt2 P2) as (A2 & B2 & C2).
    repeat split; apply fresh_pair; (constructor; [assumption|constructor; [assumption|constructor]]).
  - cbn in P. repeat split; apply fresh_tuple; apply fresh_fixed; auto; eapply Forall_impl; try exact H; cbn; intros t Ht Pt; now apply Ht.
Qed.

Lemma clean_array_inv : forall js, clean (JArr js) -> Forall clean js.
Proof. intros js C. inversion C; subst; [contradiction|assumption]. Qed.

Lemma clean_object_inv : forall l, clean (JObj l) -> NoDup (map fst l) /\ Forall (fun p => until_nul (fst p) = fst p /\ clean (snd p)) l.
Proof. intros l C. inversion C; subst; [contradiction|auto]. Qed.

(** Conditions on all that is read. *)
Definition everywhere (Q : ty -> json -> Prop) (t : ty) (j : json) : Prop := forall u j', reads_at e t j u j' -> Q u j'.

Lemma everywhere_part : forall Q t j u j', everywhere Q t j -> part e t j u j' -> everywhere Q u j'.
Proof. intros Q t j u j' H P t2 j2 R. apply H. eapply at_part; eauto. Qed.

Lemma everywhere_unique : forall Q u j, everywhere Q (TUnique u) j -> everywhere Q u j.
Proof. intros Q u j H t2 j2 R. apply H. now apply at_pointer. Qed.

Lemma everywhere_here : forall Q t j, everywhere Q t j -> Q t j.
Proof. intros Q t j H. apply H. constructor. Qed.

Lemma fresh_nth : forall ts l l', fresh_parts (fresh e) ts l l' -> forall i t, nth_error ts i = Some t ->
  fresh e t (nth i l VIndet) (nth i l' VIndet).
Proof.
  intros ts l l' F. induction F as [|t ts v l v' l' R F IH]; intros [|i] t' H; cbn in *; try discriminate; auto. now inversion H; subst.
Qed.

Lemma fresh_members_nth : forall ms l l', fresh_members (fresh e) ms l l' -> List.length l = List.length ms /\ List.length l' = List.length ms /\
  forall i m, nth_error ms i = Some m -> (m_kind m = MOptional -> nth i l VIndet = VNone) /\
    (m_kind m = MDefault -> nth i l VIndet = nth i l' VIndet) /\ (m_kind m <> MOptional -> fresh e (m_ty m) (nth i l VIndet) (nth i l' VIndet)).
Proof.
  intros ms l l' F. induction F as [|m ms v l v' l' A B C F (L & L' & IH)]; cbn; [repeat split; auto; destruct i; discriminate|].
  split; [auto|]. split; [auto|]. intros [|i] m' H; cbn in *; [|now apply IH]. now inversion H; subst.
Qed.

(** Components by position. *)
Lemma parts_by_nth : forall (R : ty -> val -> json -> val -> Prop) ts olds js vs, List.length js = List.length ts -> List.length vs = List.length ts ->
  (forall i t j v, nth_error ts i = Some t -> nth_error js i = Some j -> nth_error vs i = Some v -> R t (nth i olds VIndet) j v) ->
  parts_denote R ts olds js vs.
Proof.
  induction ts as [|t ts IH]; intros olds [|j js] [|v vs] Lj Lv H; try discriminate; constructor.
  - specialize (H 0 t j v eq_refl eq_refl eq_refl). destruct olds; exact H.
  - apply IH; auto. intros i t' j' v' Ht Hj Hv. specialize (H (S i) t' j' v' Ht Hj Hv). destruct olds; cbn in *; auto. now destruct i.
Qed.

Lemma forall2_by_nth : forall A B (R : A -> B -> Prop) l m, List.length m = List.length l ->
  (forall i x y, nth_error l i = Some x -> nth_error m i = Some y -> R x y) -> Forall2 R l m.
Proof.
  induction l as [|x l IH]; intros [|y m] L H; try discriminate; constructor.
  - now apply (H 0).
  - apply IH; auto. intros i a b Ha Hb. now apply (H (S i)).
Qed.

Lemma forall2_nth' : forall A B (R : A -> B -> Prop) l m, Forall2 R l m -> forall i x y, nth_error l i = Some x -> nth_error m i = Some y -> R x y.
Proof. intros A B R l m F. induction F; intros [|i] x' y' Hx Hy; cbn in *; try discriminate; eauto. now inversion Hx; inversion Hy; subst. Qed.

Lemma members_denote_by_nth : forall l ms olds vs, List.length vs = List.length ms ->
  (forall i m v, nth_error ms i = Some m -> nth_error vs i = Some v -> member_denotes (denotes e) e l m (nth i olds VIndet) v) ->
  members_denote (denotes e) e l ms olds vs.
Proof.
  induction ms as [|m ms IH]; intros olds [|v vs] L H; try discriminate; constructor.
  - specialize (H 0 m v eq_refl eq_refl). destruct olds; exact H.
  - apply IH; auto. intros i m' v' Hm Hv. specialize (H (S i) m' v' Hm Hv). destruct olds; cbn in *; auto. now destruct i.
Qed.

Lemma members_denote_nth : forall l ms olds vs, members_denote (denotes e) e l ms olds vs -> List.length vs = List.length ms /\
  forall i m, nth_error ms i = Some m -> member_denotes (denotes e) e l m (nth i olds VIndet) (nth i vs VIndet).
Proof.
  intros l ms olds vs D. induction D as [|m ms olds v vs Dm Ds (L & IH)]; cbn; [split; auto; destruct i; discriminate|].
  split; auto. intros [|i] m' H; cbn in *.
  - inversion H; subst. now destruct olds.
  - specialize (IH i m' H). destruct olds; cbn in *; auto. now destruct i.
Qed.

Lemma keys_combine : forall (l : list (string * json)) (vs : list val), List.length vs = List.length l ->
  Forall (fun p => until_nul (fst p) = fst p) l -> map fst (combine (map (fun p => until_nul (fst p)) l) vs) = map fst l.
Proof.
  induction l as [|[k j] l IH]; intros [|v vs] L N; try discriminate; cbn; auto. inversion N as [|? ? N1 N2]; subst. cbn in *. rewrite N1. f_equal. auto.
Qed.

(** The entries of a map, read in turn. *)
Lemma map_is : forall (l : list (string * json)) vs m, NoDup (map fst l) -> Forall (fun p => until_nul (fst p) = fst p) l -> List.length vs = List.length l ->
  ascending m -> (forall k, entry m k <> None -> In k (map fst l)) ->
  (forall i k j v, nth_error l i = Some (k, j) -> nth_error vs i = Some v -> entry m k = Some v) ->
  fold_left (fun m p => map_assign m (fst p) (snd p)) (combine (map (fun p => until_nul (fst p)) l) vs) [] = m.
Proof.
  intros l vs m N Nn L S Hk Hv. set (ps := combine _ _). change (assign_all ps [] = m).
  assert (K : map fst ps = map fst l) by now apply keys_combine.
  apply ascending_ext; auto; [apply assign_all_ascending; constructor|]. intros k. rewrite assign_all_find by constructor.
  assert (Nr : NoDup (map fst (rev ps))) by (rewrite map_rev, K; now apply NoDup_rev).
  change (find_entry m k) with (entry m k). destruct (find_entry (rev ps) k) as [v|] eqn:E.
  - apply find_entry_In in E. apply in_rev in E. symmetry. apply In_nth_error in E. destruct E as (i & E).
    assert (X : exists j, nth_error l i = Some (k, j) /\ nth_error vs i = Some v).
    { subst ps. clear - E Nn L. revert l vs E Nn L. induction i as [|i IH]; intros [|[k' j] l] [|w vs] E Nn L; cbn in *; try discriminate; inversion Nn; subst; cbn in *.
      - inversion E; subst. exists j. split; congruence.
      - eapply IH; eauto. }
    destruct X as (j & X1 & X2). eapply Hv; eauto.
  - cbn. symmetry. destruct (entry m k) as [v|] eqn:Em; auto. exfalso.
    assert (I : In k (map fst (rev ps))) by (rewrite map_rev, <- in_rev, K; apply Hk; congruence).
    apply in_map_iff in I. destruct I as ([k' w] & Ek & I). cbn in Ek. subst k'. apply find_entry_nodup in I; auto. congruence.
Qed.

Definition needed (t : ty) (j : json) : Prop := match t, j with
  | TClass c, JObj l => forall m, In m (c_members (class_of e c)) -> m_kind m = MRequired -> In (m_name m) (map fst l)
  | _, _ => True
  end.

Lemma complete_everywhere : forall t j, complete e t j -> everywhere needed t j.
Proof. intros t j C u j' R. unfold needed. destruct u; auto. destruct j'; auto. exact (C _ _ R). Qed.

Definition gives (j : json) : Prop := forall t old old' v, plain t = true -> merges e t old j v -> clean j -> everywhere needed t j ->
  fresh e t old old' -> denotes e t old' j v.

Lemma find_some_in : forall l k j, find_member l k = Some j -> In k (map fst l).
Proof. intros l k j H. apply find_member_In in H. change k with (fst (k, j)). now apply in_map. Qed.

Lemma merges_denotes : forall j, gives j.
Proof.
  induction j as [|b|z|f|s|js IH|l IH] using json_ind'; intros t; induction t using ty_ind'; intros old old' v P M C N F; try discriminate;
    inversion M as [? ? ? ? S X D|? ? js1 vs C1 D|? ? js1 vs C1 D|? ? ? js1 vs C1 D|? ? ? js1 vs C1 D|? ? js1 vs C1 D|? ? ? l1 m1 C1 D|? ? l1 vs D|? ? ? v1 D];
    subst; try discriminate; try (now eapply denotes_scalar_any; eauto);
    try (apply denotes_unique; eapply IHt; eauto; [eapply everywhere_unique; eauto|now apply fresh_init]).
  - (* vector *)
    apply clean_array_inv in C. inversion F; subst; try discriminate. cbn [components app]. constructor.
    apply forall2_by_nth; [apply (forall2_len _ _ _ _ _ D)|]. intros i j w Hj Hw. pose proof (nth_error_In _ _ Hj) as I.
    rewrite Forall_forall in IH, C. eapply (IH j I); eauto; [exact (forall2_nth' _ _ _ _ _ D i _ _ Hj Hw)|eapply everywhere_part; eauto; now constructor|now apply fresh_init].
  - (* array *)
    apply clean_array_inv in C. inversion F as [| | | | |? ? olds ? Lo Fo| | |]; subst; try discriminate. destruct (parts_length _ _ _ _ _ D) as [Lj Lv].
    rewrite repeat_length in Lj, Lv. rewrite <- Lj. constructor. apply forall2_by_nth; [lia|]. intros i j w Hj Hw. pose proof (nth_error_In _ _ Hj) as I.
    rewrite Forall_forall in IH, C. assert (Li : i < List.length olds) by (rewrite <- Lj; apply nth_error_Some; congruence).
    destruct (parts_nth _ _ _ _ _ D i t j) as (w' & Hw' & M'); [now apply nth_error_repeat|exact Hj|]. rewrite Hw in Hw'. inversion Hw'; subst w'.
    eapply (IH j I); eauto; [eapply everywhere_part; eauto; now constructor|]. cbn [components]. rewrite Forall_forall in Fo. apply Fo. now apply nth_In.
  - (* set *)
    apply clean_array_inv in C. inversion F; subst; try discriminate. cbn [components]. constructor.
    apply forall2_by_nth; [apply (forall2_len _ _ _ _ _ D)|]. intros i j w Hj Hw. pose proof (nth_error_In _ _ Hj) as I.
    rewrite Forall_forall in IH, C. eapply (IH j I); eauto; [exact (forall2_nth' _ _ _ _ _ D i _ _ Hj Hw)|eapply everywhere_part; eauto; now constructor|now apply fresh_init].
  - (* pair *)
    apply clean_array_inv in C. inversion F as [| | | | | |? ? lo lo' Fo| |]; subst; try discriminate. destruct (parts_length _ _ _ _ _ D) as [Lj Lv]. constructor.
    apply parts_by_nth; auto. intros i u j w Hu Hj Hw. pose proof (nth_error_In _ _ Hj) as I. rewrite Forall_forall in IH, C.
    destruct (parts_nth _ _ _ _ _ D i u j Hu Hj) as (w' & Hw' & M'). rewrite Hw in Hw'. inversion Hw'; subst w'.
    cbn in P. apply andb_true_iff in P. destruct P as [P1 P2].
    eapply (IH j I); eauto; [|eapply everywhere_part; eauto; econstructor; eauto|exact (fresh_nth _ _ _ Fo i u Hu)].
    destruct i as [|[|[|]]]; cbn in Hu; inversion Hu; subst; auto.
  - (* tuple *)
    apply clean_array_inv in C. inversion F as [| | | | | | |? lo lo' Fo|]; subst; try discriminate. destruct (parts_length _ _ _ _ _ D) as [Lj Lv]. constructor.
    apply parts_by_nth; auto. intros i u j w Hu Hj Hw. pose proof (nth_error_In _ _ Hj) as I. rewrite Forall_forall in IH, C.
    destruct (parts_nth _ _ _ _ _ D i u j Hu Hj) as (w' & Hw' & M'). rewrite Hw in Hw'. inversion Hw'; subst w'.
    cbn in P. rewrite forallb_forall in P. eapply (IH j I); eauto; [eapply P, nth_error_In; eauto|eapply everywhere_part; eauto; econstructor; eauto|exact (fresh_nth _ _ _ Fo i u Hu)].
  - (* map *)
    apply clean_object_inv in C. destruct C as [Nl C]. inversion F; subst; try discriminate. cbn [entries_of] in D.
    apply entries_each in D; auto; [|constructor]. destruct D as [S E].
    set (vs := map (fun p => entry_or m1 (fst p) VIndet) l).
    assert (X : forall i k j w, nth_error l i = Some (k, j) -> nth_error vs i = Some w -> entry m1 k = Some w /\ merges e t (vinit e t) j w).
    { intros i k j w Hi Hw. unfold vs in Hw. rewrite (map_nth_error _ _ _ Hi) in Hw. cbn in Hw. inversion Hw; subst w.
      specialize (E k). unfold entry_merges in E. rewrite (proj2 (find_member_nodup l k j Nl) (nth_error_In _ _ Hi)) in E.
      destruct E as (w & Ew & W). unfold entry_or at 1 2. rewrite Ew. cbn in W. auto. }
    rewrite <- (map_is l vs m1); auto.
    + constructor. apply forall2_by_nth; [unfold vs; now rewrite map_length|]. intros i [k j] w Hi Hw. destruct (X i k j w Hi Hw) as [_ W].
      pose proof (nth_error_In _ _ Hi) as I. rewrite Forall_forall in IH, C. eapply (IH (k, j) I); eauto; [now apply (C (k, j))|eapply everywhere_part; eauto; econstructor; eauto|now apply fresh_init].
    + eapply Forall_impl; [|exact C]. now intros p [? _].
    + unfold vs. now rewrite map_length.
    + intros k Hk. specialize (E k). unfold entry_merges in E. destruct (find_member l k) eqn:El; [eapply find_some_in; eauto|]. rewrite E in Hk. now elim Hk.
    + intros i k j w Hi Hw. now apply (X i k j w).
  - (* class *)
    apply clean_object_inv in C. destruct C as [Nl C]. inversion F as [| | | | | | | |? lo lo' Fo]; subst; try discriminate. cbn [components] in D.
    destruct (fresh_members_nth _ _ _ Fo) as (Lo & Lo' & Fn). apply members_each in D; auto. destruct D as [Lv E]. constructor. cbn [components].
    apply members_denote_by_nth; [lia|]. intros i m w Hm Hw. specialize (E i m Hm). rewrite (nth_error_nth _ _ VIndet Hw) in E.
    destruct (Fn i m Hm) as (F1 & F2 & F3). pose proof (nth_error_In _ _ Hm) as Im.
    assert (Pm : plain (m_ty m) = true) by (pose proof (pc c) as Q; rewrite forallb_forall in Q; now apply Q).
    rewrite Forall_forall in IH, C.
    inversion E as [j w0 K1 K2 K3 K4|j w0 K1 K2 K3 K4|K1 K2]; subst.
    + pose proof (find_member_In _ _ _ K2) as I. eapply member_plain; eauto. eapply (IH _ I); eauto; [now apply (C _ I)|eapply everywhere_part; eauto; econstructor; eauto].
    + pose proof (find_member_In _ _ _ K2) as I. eapply member_some; eauto. eapply (IH _ I); eauto; [now apply (C _ I)|eapply everywhere_part; eauto; econstructor; eauto|now apply fresh_init].
    + destruct (m_kind m) eqn:Ek.
      * exfalso. apply everywhere_here in N. cbn in N. specialize (N m Im Ek). apply in_map_iff in N. destruct N as ([k j] & Ek' & I). cbn in Ek'. subst k.
        apply find_member_nodup in I; auto. congruence.
      * rewrite F2 by auto. now apply member_kept.
      * rewrite F1 by auto. now apply member_none.
Qed.

(** * The converse *)
Definition allowed (t : ty) (j : json) : Prop :=
  (scalar_type t = true -> exact_number t j) /\ (forall u j', part e t j u j' -> unfinished u = false) /\
  match t, j with
  | TClass c, JObj l => forall k, In k (map fst l) -> In k (map m_name (c_members (class_of e c)))
  | TVector u, JArr js | TSet u, JArr js => js = [] \/ odd_number u = false
  | _, _ => True
  end.

Lemma allowed_everywhere : forall t j, known e t j -> exact e t j -> parseable e t j -> everywhere allowed t j.
Proof.
  intros t j K X [P1 P2] u j' R. split; [intros S; now apply X|]. split; [intros u' j2 Q; eapply P1; eauto|].
  destruct u, j'; auto; try (now apply P2; auto); exact (K _ _ R).
Qed.

Definition takes (j : json) : Prop := forall t old old' v, plain t = true -> denotes e t old' j v -> clean j -> everywhere allowed t j ->
  fresh e t old old' -> merges e t old j v.

Lemma element_of : forall u (js : list json), js = [] \/ odd_number u = false -> (forall j, In j js -> unfinished u = false) -> js = [] \/ element u = true.
Proof.
  intros u [|j js] [E|O] H; auto; try discriminate. right. unfold element. now rewrite O, (H j (or_introl eq_refl)).
Qed.

Lemma finished_all : forall ts, (forall i t, nth_error ts i = Some t -> unfinished t = false) -> finished ts = true.
Proof.
  intros ts H. unfold finished. apply forallb_forall. intros t I. apply In_nth_error in I. destruct I as (i & Hi). now rewrite (H i t Hi).
Qed.

Lemma nth_error_len : forall A B (l : list A) (m : list B) i x, List.length m = List.length l -> nth_error l i = Some x -> exists y, nth_error m i = Some y.
Proof.
  intros A B l m i x L H. destruct (nth_error m i) as [y|] eqn:E; eauto. apply nth_error_None in E.
  assert (i < List.length l) by (apply nth_error_Some; congruence). lia.
Qed.

Ltac pick D := match goal with
  | X : Forall2 _ _ _ |- _ => rename X into D
  | X : parts_denote _ _ _ _ _ |- _ => rename X into D
  | X : members_denote _ _ _ _ _ _ |- _ => rename X into D
  end.

Lemma denotes_merges : forall j, takes j.
Proof.
  induction j as [|b|z|f|s|js IH|l IH] using json_ind'; intros t; induction t using ty_ind'; intros old old' v P M C N F; try discriminate;
    pose proof (everywhere_here _ _ _ N) as (A1 & A2 & A3);
    try (now apply merges_scalar; [reflexivity|apply A1; reflexivity|eapply denotes_scalar_any; eauto]);
    inversion M; subst;
    try (apply merges_unique; eapply IHt; eauto; [eapply everywhere_unique; eauto|now apply fresh_init]).
  - (* vector *)
    pick D. apply clean_array_inv in C. inversion F; subst; try discriminate.
    apply (merges_vector e t (VList [])); [apply element_of; auto; intros j I; exact (A2 t j (part_vector e t js j I))|].
    apply forall2_by_nth; [apply (forall2_len _ _ _ _ _ D)|]. intros i j w Hj Hw. pose proof (nth_error_In _ _ Hj) as I.
    rewrite Forall_forall in IH, C. eapply (IH j I); eauto; [exact (forall2_nth' _ _ _ _ _ D i _ _ Hj Hw)|eapply everywhere_part; eauto; now constructor|now apply fresh_init].
  - (* array *)
    pick D. apply clean_array_inv in C. inversion F as [| | | | |? ? olds ? Lo Fo| | |]; subst; try discriminate.
    pose proof (forall2_len _ _ _ _ _ D) as Lv. apply merges_array.
    + apply finished_all. intros i u Hu. pose proof (nth_error_In _ _ Hu) as I. apply repeat_spec in I. subst u.
      destruct (nth_error_len _ _ _ js i _ (eq_sym (repeat_length _ _)) Hu) as (j & Hj).
      exact (A2 t j (part_array e _ t js j (nth_error_In _ _ Hj))).
    + apply parts_by_nth; rewrite ?repeat_length; auto. intros i u j w Hu Hj Hw. pose proof (nth_error_In _ _ Hu) as I'. apply repeat_spec in I'. subst u.
      pose proof (nth_error_In _ _ Hj) as I. rewrite Forall_forall in IH, C, Fo.
      eapply (IH j I); eauto; [exact (forall2_nth' _ _ _ _ _ D i _ _ Hj Hw)|eapply everywhere_part; eauto; now constructor|].
      cbn [components]. apply Fo, nth_In. rewrite Lo. apply nth_error_Some. congruence.
  - (* set *)
    pick D. apply clean_array_inv in C. inversion F; subst; try discriminate.
    apply (merges_set e t (VList [])); [apply element_of; auto; intros j I; exact (A2 t j (part_set e t js j I))|].
    apply forall2_by_nth; [apply (forall2_len _ _ _ _ _ D)|]. intros i j w Hj Hw. pose proof (nth_error_In _ _ Hj) as I.
    rewrite Forall_forall in IH, C. eapply (IH j I); eauto; [exact (forall2_nth' _ _ _ _ _ D i _ _ Hj Hw)|eapply everywhere_part; eauto; now constructor|now apply fresh_init].
  - (* pair *)
    pick D. apply clean_array_inv in C. inversion F as [| | | | | |? ? lo lo' Fo| |]; subst; try discriminate. destruct (parts_length _ _ _ _ _ D) as [Lj Lv]. apply merges_pair.
    + apply finished_all. intros i u Hu. destruct (nth_error_len _ _ _ js i _ Lj Hu) as (j & Hj). exact (A2 u j (part_pair e t1 t2 js i u j Hu Hj)).
    + apply parts_by_nth; auto. intros i u j w Hu Hj Hw. pose proof (nth_error_In _ _ Hj) as I. rewrite Forall_forall in IH, C.
      destruct (parts_nth _ _ _ _ _ D i u j Hu Hj) as (w' & Hw' & M'). rewrite Hw in Hw'. inversion Hw'; subst w'.
      cbn in P. apply andb_true_iff in P. destruct P as [P1 P2].
      eapply (IH j I); eauto; [|eapply everywhere_part; eauto; econstructor; eauto|exact (fresh_nth _ _ _ Fo i u Hu)].
      destruct i as [|[|[|]]]; cbn in Hu; inversion Hu; subst; auto.
  - (* tuple *)
    pick D. apply clean_array_inv in C. inversion F as [| | | | | | |? lo lo' Fo|]; subst; try discriminate. destruct (parts_length _ _ _ _ _ D) as [Lj Lv]. apply merges_tuple.
    + apply finished_all. intros i u Hu. destruct (nth_error_len _ _ _ js i _ Lj Hu) as (j & Hj). exact (A2 u j (part_tuple e ts js i u j Hu Hj)).
    + apply parts_by_nth; auto. intros i u j w Hu Hj Hw. pose proof (nth_error_In _ _ Hj) as I. rewrite Forall_forall in IH, C.
      destruct (parts_nth _ _ _ _ _ D i u j Hu Hj) as (w' & Hw' & M'). rewrite Hw in Hw'. inversion Hw'; subst w'.
      cbn in P. rewrite forallb_forall in P. eapply (IH j I); eauto; [eapply P, nth_error_In; eauto|eapply everywhere_part; eauto; econstructor; eauto|exact (fresh_nth _ _ _ Fo i u Hu)].
  - (* map *)
    pick D. apply clean_object_inv in C. destruct C as [Nl C]. inversion F; subst; try discriminate.
    pose proof (forall2_len _ _ _ _ _ D) as Lv.
    assert (Nn : Forall (fun p => until_nul (fst p) = fst p) l) by (eapply Forall_impl; [|exact C]; now intros p [? _]).
    set (m := fold_left _ _ _).
    assert (Em : forall k, find_entry m k = find_entry (rev (combine (map (fun p => until_nul (fst p)) l) vs)) k).
    { intros k. unfold m. change (fold_left _ ?ps []) with (assign_all ps []). rewrite assign_all_find by constructor. cbn. now destruct (find_entry (rev _) k). }
    assert (Sm : ascending m) by (apply (assign_all_ascending (combine (map (fun p => until_nul (fst p)) l) vs) []); constructor).
    assert (Nr : NoDup (map fst (rev (combine (map (fun p => until_nul (fst p)) l) vs)))) by (rewrite map_rev, keys_combine; auto; now apply NoDup_rev).
    assert (Kr : forall k, In k (map fst (rev (combine (map (fun p => until_nul (fst p)) l) vs))) <-> In k (map fst l)) by (intros k; rewrite map_rev, <- in_rev, keys_combine; auto; tauto).
    apply merges_map.
    + destruct l as [|[k j] l']; auto. right. eapply (A2 t j), (part_map e _ t _ k j); now left.
    + cbn [entries_of]. apply entries_each; auto; [constructor|]. split; auto. intros k. unfold entry_merges.
      destruct (find_member l k) as [j|] eqn:El.
      * pose proof (find_member_In _ _ _ El) as I. apply In_nth_error in I. destruct I as (i & Hi).
        destruct (nth_error_len _ _ _ vs i _ Lv Hi) as (w & Hw). exists w. split.
        -- change (find_entry m k = Some w). rewrite Em. apply find_entry_nodup; auto. apply -> in_rev.
           assert (Hc : nth_error (combine (map (fun p => until_nul (fst p)) l) vs) i = Some (k, w)).
           { clear - Hi Hw Nn. revert l vs Hi Hw Nn. induction i as [|i IH]; intros [|[k' j'] l] [|w' vs] Hi Hw Nn; cbn in *; try discriminate; inversion Nn; subst; cbn in *.
             - inversion Hi; inversion Hw; subst. congruence.
             - now apply IH. }
           eapply nth_error_In; eauto.
        -- rewrite Forall_forall in IH, C. pose proof (nth_error_In _ _ Hi) as I. eapply (IH (k, j) I); eauto;
             [exact (forall2_nth' _ _ _ _ _ D i _ _ Hi Hw)|now apply (C (k, j))|eapply everywhere_part; eauto; econstructor; eauto|now apply fresh_init].
      * change (find_entry m k = None). rewrite Em. destruct (find_entry (rev (combine (map (fun p => until_nul (fst p)) l) vs)) k) as [w|] eqn:E; auto. exfalso.
        assert (I : In k (map fst l)) by (apply Kr; apply find_entry_In in E; change k with (fst (k, w)); now apply in_map).
        apply in_map_iff in I. destruct I as ([k' j] & Ek & I). cbn in Ek. subst k'. apply find_member_nodup in I; auto. congruence.
  - (* class *)
    pick D. apply clean_object_inv in C. destruct C as [Nl C]. inversion F as [| | | | | | | |? lo lo' Fo]; subst; try discriminate. cbn [components] in D.
    destruct (fresh_members_nth _ _ _ Fo) as (Lo & Lo' & Fn). destruct (members_denote_nth _ _ _ _ D) as [Lv E]. apply merges_class. cbn [components].
    apply members_build; auto; [lia|]. intros i m Hm. specialize (E i m Hm).
    destruct (Fn i m Hm) as (F1 & F2 & F3). pose proof (nth_error_In _ _ Hm) as Im.
    assert (Pm : plain (m_ty m) = true) by (pose proof (pc c) as Q; rewrite forallb_forall in Q; now apply Q).
    rewrite Forall_forall in IH, C.
    inversion E as [j w0 K1 K2 K3|K1 K2|j w0 K1 K2 K3|K1 K2]; subst.
    + pose proof (find_member_In _ _ _ K2) as I. eapply mm_plain; eauto; [exact (A2 _ _ (part_member e c l m j Im I))|].
      eapply (IH _ I); eauto; [now apply (C _ I)|eapply everywhere_part; eauto; econstructor; eauto].
    + rewrite <- F2 by auto. now apply mm_kept.
    + pose proof (find_member_In _ _ _ K2) as I. eapply mm_some; eauto; [exact (A2 _ _ (part_member e c l m j Im I))|].
      eapply (IH _ I); eauto; [now apply (C _ I)|eapply everywhere_part; eauto; econstructor; eauto|now apply fresh_init].
    + rewrite F1 by auto. now apply mm_kept.
Qed.
End Agree.
