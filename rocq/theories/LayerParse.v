(** Parsing the same document again into the same object. *)
From Coq Require Import List Arith ZArith NArith Ascii String Bool Lia Sorted Permutation.
From Verif Require Import Base Float Json Types DenoteSpec DenoteProof ParseSpec MergeSpec ParseModel ParseRead ParseLimit ParseProof MergeProof AcceptFacts MapFacts MergeFacts LayerSpec LayerProof.
Import ListNotations.

Section Again.
Variable e : env.
Hypothesis dd : distinct e.
Hypothesis shp : shaped_classes e.

Definition stays (j : json) : Prop := forall t old v, tidy j -> overwritten e t -> shaped e t old -> merges e t old j v -> merges e t v j v.

Lemma scalar_again : forall t old old' j v, MergeSpec.scalar_type t = true -> denotes e t old j v -> denotes e t old' j v.
Proof. intros t old old' j v S D. inversion D; subst; try discriminate; econstructor; eauto. Qed.

Lemma parts_again : forall ts olds js vs, parts_denote (merges e) ts olds js vs -> Forall2 (shaped e) ts olds -> Forall stays js -> Forall tidy js -> Forall (overwritten e) ts ->
  parts_denote (merges e) ts vs js vs.
Proof.
  intros ts olds js vs D. induction D as [|t ts olds j js v vs Dv Ds IH]; intros S F T O; [constructor|]. inversion S; inversion F; inversion T; inversion O; subst. cbn in *. constructor; cbn; eauto.
Qed.

Lemma over_standing : forall t u, overwritten e t -> (forall w, standing e w u -> standing e w t) -> overwritten e u.
Proof. intros t u O H w. destruct (O w) as [O1 O2]. split; intros X; [apply O1|apply O2]; auto. Qed.

Lemma merged_again : forall j, stays j.
Proof.
  induction j as [|b|z|f|s|js IH|l IH] using json_ind'; intros t old v Ti O S M.
  1-5: inversion M; subst; solve [now apply merges_unique|apply merges_scalar; auto; eapply scalar_again; eauto].
  - inversion Ti as [? C0|? Tj|]; subst; try (exfalso; eapply C0; reflexivity).
    inversion M as [? ? ? ? S' X D|? ? js1 vs C D|? ? js1 vs C D|? ? ? js1 vs C D|? ? ? js1 vs C D|? ? js1 vs C D| | |? ? ? v1 D]; subst.
    + apply merges_scalar; auto. eapply scalar_again; eauto.
    + destruct (O u) as [[] _]. constructor.
    + destruct (O u) as [_ []]. constructor.
    + destruct (shaped_components e (TArray n u) (repeat u n) old S) as (olds & -> & Ho); [left; eauto|]. apply merges_array; auto. eapply parts_again; eauto.
      apply Forall_forall. intros x I. apply repeat_spec in I. subst. eapply over_standing; [exact O|]. intros. now constructor.
    + destruct (shaped_components e (TPair a b) [a; b] old S) as (olds & -> & Ho); [right; left; eauto|]. apply merges_pair; auto. eapply parts_again; eauto.
      apply Forall_forall. intros x I. eapply over_standing; [exact O|]. intros. econstructor; eauto.
    + destruct (shaped_components e (TTuple ts) ts old S) as (olds & -> & Ho); [right; right; eauto|]. apply merges_tuple; auto. eapply parts_again; eauto.
      apply Forall_forall. intros x I. eapply over_standing; [exact O|]. intros. econstructor; eauto.
    + now apply merges_unique.
  - inversion Ti as [? C1 C0| |? N Tj]; subst; try (exfalso; eapply C0; reflexivity). rewrite Forall_forall in IH, Tj.
    inversion M as [? ? ? ? S' X D| | | | | |? ? ? l2 m1 C D|? ? l2 vs D|? ? ? v1 D]; subst.
    + apply merges_scalar; auto. eapply scalar_again; eauto.
    + inversion S as [| | | |? ? m Sm Fm| | |]; subst; [discriminate|]. cbn [entries_of] in *.
      apply entries_each in D; auto. destruct D as [S1 E]. apply merges_map; [exact C|]. cbn [entries_of]. apply entries_each; auto. split; auto. intros k. specialize (E k). unfold entry_merges in *.
      destruct (find_member l k) as [j|] eqn:El; [|reflexivity]. destruct E as (w & Ew & W). exists w. split; [exact Ew|]. apply find_member_In in El. unfold entry_or at 1. rewrite Ew.
      apply (IH _ El u (entry_or m k (vinit e u))); [exact (Tj _ El)| |now apply entry_shaped|exact W]. eapply over_standing; [exact O|]. intros. now constructor.
    + inversion S as [| | | | | | |? vs0 Sc]; subst; [discriminate|]. cbn [components] in *.
      pose proof (forall2_len _ _ _ _ _ Sc) as L. pose proof (members_known _ _ _ _ _ D) as K. apply members_each in D; auto. destruct D as [L' E]. apply merges_class. cbn [components].
      apply members_build; auto; [congruence|]. intros i m Hm. specialize (E i m Hm).
      assert (Sm : m_kind m <> MOptional -> shaped e (m_ty m) (nth i vs0 VIndet)).
      { intros Ko. pose proof (forall2_nth _ _ _ _ _ _ _ Sc Hm) as (w & Hw & Sw). rewrite (nth_error_nth _ _ VIndet Hw). auto. }
      inversion E as [j w K1 K2 K3 K4|j w K1 K2 K3 K4|K1 K2]; subst.
      * eapply mm_plain; eauto. apply find_member_In in K2. eapply (IH _ K2); eauto. eapply over_standing; [exact O|]. intros. econstructor; eauto. eapply nth_error_In; eauto.
      * eapply mm_some; eauto.
      * now apply mm_kept.
    + now apply merges_unique.
Qed.
End Again.

Lemma merged_shape : forall e fuel t j obj v, supported e fuel -> ordinary_type t -> shaped e t obj -> merges e t obj j v -> shaped e t v.
Proof.
  intros e fuel t j obj v (O & S & R) [P I] Ho M.
  destruct (ropen_exact e fuel S j [] t obj 0 (all_exact e fuel O S R j) P I Ho) as [H1 _].
  specialize (H1 v M). unfold ret in H1. destruct (unfinished t) eqn:U; [apply shaped_other; destruct t; try discriminate; reflexivity|].
  exact (ropen_shape e unlimited _ _ _ _ _ _ _ (pread_shape e fuel unlimited S j) H1 Ho).
Qed.

Lemma parsed_again : forall e fuel t j obj v, supported e fuel -> ordinary_type t -> overwritten e t -> tidy j -> shaped e t obj ->
  parse_into e fuel real_capacity t j obj = Parsed true v ->
  (parse_into e fuel real_capacity t j v = OutOfSpace \/ parse_into e fuel real_capacity t j v = Parsed true v) /\
  (nesting j <= 84 -> parse_into e fuel real_capacity t j v = Parsed true v).
Proof.
  intros e fuel t j obj v H T O Ti Ho P. pose proof (parse_sound e fuel real_capacity t j obj v H T Ho P) as M.
  pose proof (merged_shape e fuel t j obj v H T Ho M) as Sv.
  assert (A : merges e t v j v). { destruct H as (H1 & H2 & H3). exact (merged_again e (fun c => proj1 (proj2 H3 c)) H2 j t obj v Ti O Ho M). }
  split; [now apply (parse_complete e fuel real_capacity t j v v H T Sv)|]. intros N. now apply (parse_84 e fuel t j v v H T Sv N).
Qed.
