(** When something indeterminate is copied. *)
From Coq Require Import List Arith ZArith NArith Ascii String Bool Lia.
From Verif Require Import Base Float NumericModel Json PathModel Types SerializeModel DeserializeModel
  DenoteSpec SameSpec DenoteProof DenoteFacts SameProof SchemaGenSpec SafetySpec SafetyProof IndetModel IndetSpec IndetProof IndetSafe.
Import ListNotations.

Lemma each_lacking : forall e (each : list val -> list ty -> bool), (forall x vs u ts, each (x :: vs) (u :: ts) = determinate e x u && each vs ts) ->
  forall i ts vs u x, nth_error ts i = Some u -> nth_error vs i = Some x -> determinate e x u = false -> each vs ts = false.
Proof.
  intros e each E. induction i as [|i IH]; intros [|t ts] [|v vs] u x T V D; try discriminate; cbn in T, V; rewrite E.
  - injection T as ->. injection V as ->. now rewrite D.
  - rewrite (IH _ _ _ _ T V D). apply andb_false_r.
Qed.

Lemma lacking_indeterminate : forall e t v, lacking e t v -> determinate e v t = false.
Proof.
  intros e t v L. induction L as [t B N|n u l x I L IH|a b l i u x T V L IH|ts l i u x T V L IH|ts i u x T L IH|c l i m x T V L IH|c l i m x T V L IH].
  - destruct t as [| |k| | | | | | | | | | | | | | | | | | |]; try contradiction; try reflexivity. cbn. destruct (Z.eqb_spec (width k) 8), (is_signed k) eqn:S; try reflexivity.
    exfalso. apply N. destruct k. cbn in *. subst. reflexivity.
  - cbn. destruct (forallb _ l) eqn:F; [|reflexivity]. rewrite forallb_forall in F. rewrite (F _ I) in IH. discriminate.
  - cbn. eapply each_lacking; [reflexivity|exact T|exact V|exact IH].
  - cbn. eapply each_lacking; [reflexivity|exact T|exact V|exact IH].
  - cbn. now rewrite T.
  - cbn. eapply each_lacking; [reflexivity| |exact V|exact IH]. now apply map_nth_error.
  - cbn. eapply each_lacking; [reflexivity| |exact V|exact IH]. now apply map_nth_error.
Qed.

Section Copy.
Variable e : env.
Variable u : ty.
Hypothesis Uc : unshared_classes e.
Hypothesis Ut : unshared u = true.

Lemma read_anywhere : forall j old ok st v, deserialize e u j old = DRet ok st v -> forall root ctx loc st', deser e root j false u old ctx loc st' = DRet ok st' v.
Proof.
  intros j old ok st v R root ctx loc st'. assert (S : superfluous e u j j) by (constructor).
  rewrite (all_indifferent e Uc j u j Ut S false root j old ctx [] loc [] st' start) by discriminate. unfold deserialize in R. now rewrite R.
Qed.

Lemma moved_undefined : forall j st v, deserialize e u j (dinit e u) = DRet true st v -> lacking e u v -> forall root ctx loc st',
  moving e u (mdeser e root j false u) (dinit e u) ctx loc st' = DUndef.
Proof.
  intros j st v R L root ctx loc st'. unfold moving. destruct (mdeser_under e root j false u (dinit e u) ctx loc st') as [->|E]; [reflexivity|].
  rewrite E, (read_anywhere _ _ _ _ _ R). now rewrite (lacking_indeterminate _ _ _ L).
Qed.

Definition reads (j : json) : Prop := exists st v, deserialize e u j (dinit e u) = DRet true st v.

Lemma moved_read : forall j, reads j -> forall root ctx loc st',
  moving e u (mdeser e root j false u) (dinit e u) ctx loc st' = DUndef \/ exists v, moving e u (mdeser e root j false u) (dinit e u) ctx loc st' = DRet true st' v.
Proof.
  intros j (st & v & R) root ctx loc st'. unfold moving. destruct (mdeser_under e root j false u (dinit e u) ctx loc st') as [->|E]; [now left|].
  rewrite E, (read_anywhere _ _ _ _ _ R). destruct (determinate e v u); eauto.
Qed.

Lemma items_undefined : forall j st v, deserialize e u j (dinit e u) = DRet true st v -> lacking e u v -> forall js js', Forall reads js -> forall root add k acc ctx loc st',
  read_items (dinit e u) add (map (fun f => moving e u (f false u)) (map (mdeser e root) (js ++ j :: js'))) k acc ctx loc st' = DUndef.
Proof.
  intros j st v R L js js' F root add. induction F as [|j' js Rd F IH]; intros k acc ctx loc st'; cbn [map app read_items].
  - now rewrite (moved_undefined _ _ _ R L).
  - destruct (moved_read j' Rd root (at_index ctx (N.of_nat k)) (loc ++ [k]) st') as [->|(x & ->)]; [reflexivity|apply IH].
Qed.

Lemma entries_undefined : forall j st v, deserialize e u j (dinit e u) = DRet true st v -> lacking e u v -> forall l name l', Forall (fun p => reads (snd p)) l -> forall root k acc ctx loc st',
  read_entries (dinit e u) (map (fun p => (fst p, moving e u (snd p false u))) (map (fun p => (fst p, mdeser e root (snd p))) (l ++ (name, j) :: l'))) k acc ctx loc st' = DUndef.
Proof.
  intros j st v R L l name l' F root. induction F as [|[n j'] l Rd F IH]; intros k acc ctx loc st'; cbn [map app fst snd read_entries] in *.
  - now rewrite (moved_undefined _ _ _ R L).
  - destruct (moved_read j' Rd root (at_name ctx n) (loc ++ [k]) st') as [->|(x & ->)]; [reflexivity|apply IH].
Qed.
End Copy.

Lemma variant_undefined : forall e u j st v, unshared_classes e -> forall ts, forallb unshared ts = true -> unshared u = true ->
  deserialize e u j (dinit e u) = DRet true st v -> lacking e u v ->
  Forall (fun t => exists st w, deserialize e t j (dinit e t) = DRet false st w) ts -> forall ts' root i ctx loc st',
  exists st'', read_variant (map (fun u => (dinit e u, moving e u (mdeser e root j false u))) (ts ++ u :: ts')) i ctx loc st' = (None, Some DUndef, st'').
Proof.
  intros e u j st v Uc ts U Uu R L F ts' root. induction F as [|t ts (st1 & w & Rt) F IH]; intros i ctx loc st'; cbn [map app read_variant].
  - rewrite (moved_undefined e u Uc Uu _ _ _ R L). eauto.
  - cbn in U. apply andb_prop in U as [U1 U2]. unfold moving at 1.
    destruct (mdeser_under e root j false t (dinit e t) ctx loc st') as [->|E]; [eauto|]. rewrite E, (read_anywhere e t Uc U1 _ _ _ _ _ Rt). auto.
Qed.

(** An optional member whose value is moved whatever the flag. *)
Lemma optional_undefined : forall e c m l j obj ok st v, no_pointer e (TClass c) -> unshared_classes e -> unshared (m_ty m) = true ->
  In m (c_members (class_of e c)) -> m_kind m = MOptional -> find_member l (m_name m) = Some j ->
  deserialize e (m_ty m) j (dinit e (m_ty m)) = DRet ok st v -> lacking e (m_ty m) v -> m_deserialize e (TClass c) (JObj l) obj = DUndef.
Proof.
  intros e c m l j obj ok st v Np Uc Um I K F R L.
  destruct (mdeser_under e (JObj l) (JObj l) false (TClass c) obj [] [] start) as [E|E]; [exact E|].
  unfold m_deserialize. destruct (mdeser e (JObj l) (JObj l) false (TClass c) obj [] [] start) as [ok' st' v'|why p| |] eqn:M; auto.
  - exfalso. clear E. rewrite mdeser_unfold in M. cbn [mdeser_step] in M.
    destruct (m_members _ _ _ _ _ _ _ _ _ _ _) as [[[ok2 vs] [r|]] st2] eqn:Q; cbn [finish_object] in M.
    + subst r. exact (m_members_stop _ _ _ _ _ _ _ _ _ _ _ _ _ _ _ Q _ _ _ eq_refl).
    + destruct (m_members_all _ _ _ _ _ _ _ _ _ _ _ _ _ _ _ I Q) as (flag & old & st1 & ok3 & st3 & x & Em). unfold m_member in Em. rewrite K in Em.
      pose proof (find_fun_member _ (mdeser e (JObj l)) l (m_name m)) as X. destruct (find_fun _ 0 (m_name m)) as [[k f]|]; [|congruence].
      destruct X as (j' & F' & ->). assert (j' = j) by congruence. subst j'.
      destruct (mdeser_under e (JObj l) j false (m_ty m) (dinit e (m_ty m)) (at_name [] (m_name m)) ([] ++ [k]) st1) as [Z|Z]; rewrite Z in Em; [discriminate|].
      rewrite (read_anywhere e (m_ty m) Uc Um _ _ _ _ _ R), (lacking_indeterminate _ _ _ L) in Em. discriminate.
  - exfalso. exact (no_throw _ _ _ _ _ _ _ _ _ _ (eq_sym E)).
  - exfalso. pose proof (deserialize_safe e (TClass c) (JObj l) obj) as Sf. unfold deserialize in Sf. rewrite <- E in Sf. destruct Sf as [t U]. exact (Np t U).
Qed.
