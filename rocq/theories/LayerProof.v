(** Reading documents one after the other into the same object. *)
From Coq Require Import List Arith ZArith NArith Ascii String Bool Lia.
From Verif Require Import Base Float Json Types DeserializeModel DenoteSpec DenoteProof DenoteFacts RoundSpec LayerSpec.
Import ListNotations.

(** * The same document again *)

Lemma again : forall e j t old v, denotes e t old j v -> denotes e t v j v.
Proof.
  intros e. induction j as [|b|z|f|s|l IH|l IH] using json_ind'; intros t old v D; try (inversion D; subst; econstructor; eauto; fail).
  - assert (G : forall ts js, Forall (fun j => forall t old v, denotes e t old j v -> denotes e t v j v) js -> forall olds vs, parts_denote (denotes e) ts olds js vs -> parts_denote (denotes e) ts vs js vs).
    { clear. intros ts js F olds vs P. induction P as [|t ts olds j js v vs D P IH]; [constructor|]. inversion F; subst. constructor; cbn; eauto. }
    inversion D; subst; try (econstructor; eauto; fail); constructor; cbn; eapply G; eauto.
  - inversion D; subst; try (econstructor; eauto; fail). constructor. cbn [components]. rename H2 into M.
    clear D. induction M as [|m ms olds v vs Dm M IHm]; [constructor|]. constructor; [|exact IHm]. cbn [hd].
    inversion Dm; subst; [|now apply member_kept|eapply member_some; eauto|now apply member_none].
    eapply member_plain; eauto. rewrite Forall_forall in IH. apply find_member_In in H0 as I. exact (IH _ I _ _ _ H1).
Qed.

(** * Two documents *)

Lemma found_overlaid : forall (g : string -> json -> json) l l' name, find_member (map (fun p => (fst p, g (fst p) (snd p))) l ++ l') name =
  match find_member l name with Some x => Some (g name x) | None => find_member l' name end.
Proof.
  intros g l l' name. induction l as [|[k x] l IH]; cbn; [reflexivity|]. destruct (String.eqb_spec k name) as [->|N]; [reflexivity|exact IH].
Qed.

Lemma found_kept : forall (q : string -> bool) l name, find_member (filter (fun p => q (fst p)) l) name = if q name then find_member l name else None.
Proof.
  intros q l name. induction l as [|[k x] l IH]; cbn; [now destruct (q name)|]. destruct (q k) eqn:Q; cbn; rewrite IH; destruct (String.eqb_spec k name) as [->|N]; try reflexivity.
  - now rewrite Q.
  - now rewrite Q.
Qed.

Lemma member_found : forall ms m, NoDup (map m_name ms) -> In m ms -> find (fun x => String.eqb (m_name x) (m_name m)) ms = Some m.
Proof.
  induction ms as [|x ms IH]; intros m N I; [destruct I|]. cbn in *. inversion N; subst. destruct (String.eqb_spec (m_name x) (m_name m)) as [E|D].
  - destruct I as [->|I]; [reflexivity|]. destruct H1. rewrite E. now apply in_map.
  - destruct I as [->|I]; [easy|]. now apply IH.
Qed.

Lemma default_found : forall ms m, NoDup (map m_name ms) -> In m ms ->
  existsb (fun x => String.eqb (m_name x) (m_name m) && match m_kind x with MDefault => true | _ => false end) ms = match m_kind m with MDefault => true | _ => false end.
Proof.
  intros ms m N I. destruct (existsb _ ms) eqn:E.
  - apply existsb_exists in E as (x & Ix & E). apply andb_prop in E as [E1 E2]. apply String.eqb_eq in E1.
    assert (x = m). { pose proof (member_found ms x N Ix) as F1. pose proof (member_found ms m N I) as F2. rewrite E1 in F1. congruence. } subst. now symmetry.
  - destruct (m_kind m) eqn:K; try reflexivity. exfalso. assert (T : existsb (fun x => String.eqb (m_name x) (m_name m) && match m_kind x with MDefault => true | _ => false end) ms = true).
    { apply existsb_exists. exists m. split; [exact I|]. now rewrite String.eqb_refl, K. } congruence.
Qed.

Section Layers.
Variable e : env.
Hypothesis He : ordinary e.
Hypothesis Hn : named e.

Lemma other_old : forall t old old' j v, in_place t = false -> denotes e t old j v -> denotes e t old' j v.
Proof. intros t old old' j v I D. inversion D; subst; try discriminate; econstructor; eauto. Qed.

Definition layered (j2 : json) : Prop := forall t old j1 v1 v2, ordinary_type t -> denotes e t old j1 v1 ->
  (denotes e t v1 j2 v2 <-> denotes e t old (overlay e j2 t j1) v2).

Lemma parts_layered : forall js2, Forall layered js2 -> forall ts olds js1 vs1 vs2, Forall ordinary_type ts -> parts_denote (denotes e) ts olds js1 vs1 ->
  (parts_denote (denotes e) ts vs1 js2 vs2 <-> parts_denote (denotes e) ts olds (each (map (fun j => (j, overlay e j)) js2) ts js1) vs2).
Proof.
  intros js2 F. induction F as [|j js2 L F IH]; intros ts olds js1 vs1 vs2 O P.
  - cbn. destruct ts; split; intros X; inversion X; subst; constructor.
  - inversion P as [|t ts' o j1 js1' v1 vs1' D1 P1]; subst.
    + cbn. split; intros X; inversion X.
    + inversion O; subst. cbn [map each]. split; intros X; inversion X; subst; constructor; cbn [hd tl] in *.
      * now apply (L t (hd VIndet olds) j1 v1).
      * now apply (IH ts' (tl olds) js1' vs1').
      * now apply (L t (hd VIndet olds) j1 v1).
      * now apply (IH ts' (tl olds) js1' vs1').
Qed.

Lemma all_layered : forall j2, layered j2.
Proof.
  assert (Other : forall j2 t old j1 v1 v2, overlay e j2 t j1 = j2 -> in_place t = false \/ ~ (exists x, denotes e t v1 j2 x) /\ ~ (exists x, denotes e t old j2 x) -> (denotes e t v1 j2 v2 <-> denotes e t old (overlay e j2 t j1) v2)).
  { intros j2 t old j1 v1 v2 E [I|[N1 N2]]; rewrite E; [split; now apply other_old|]. split; intros D; [destruct N1|destruct N2]; eauto. }
  induction j2 as [|b|z|f|s|l IH|l IH] using json_ind'; intros t old j1 v1 v2 O D1.
  1-5: apply Other; [reflexivity|]; destruct (in_place t) eqn:I; [right|now left]; destruct t; try discriminate; split; intros (x & D); inversion D.
  - destruct (in_place t) eqn:I.
    2: apply Other; [destruct t; try discriminate; reflexivity|now left].
    destruct t; try discriminate; inversion D1; subst; cbn [overlay].
    + split; intros X; inversion X; subst; constructor; cbn [components] in *.
      * apply (parts_layered l IH _ _ js vs); auto. destruct O as [O1 O2]. cbn in O1, O2. apply andb_prop in O1 as [? ?]. apply andb_prop in O2 as [? ?]. repeat constructor; assumption.
      * apply (parts_layered l IH _ (components old) js vs); auto. destruct O as [O1 O2]. cbn in O1, O2. apply andb_prop in O1 as [? ?]. apply andb_prop in O2 as [? ?]. repeat constructor; assumption.
    + assert (Ots : Forall ordinary_type ts). { destruct O as [O1 O2]. cbn in O1, O2. rewrite forallb_forall in O1, O2. apply Forall_forall. intros u Iu. split; auto. }
      split; intros X; inversion X; subst; constructor; cbn [components] in *.
      * apply (parts_layered l IH _ _ js vs); auto.
      * apply (parts_layered l IH _ (components old) js vs); auto.
    + split; intros X; inversion X.
  - destruct (in_place t) eqn:I.
    2: apply Other; [destruct t; try discriminate; reflexivity|now left].
    destruct t; try discriminate; inversion D1; subst; cbn [overlay].
    + split; intros X; inversion X.
    + split; intros X; inversion X.
    + rename l0 into l1. rename vs into vs1. match goal with X : members_denote _ _ _ _ _ _ |- _ => rename X into M1 end. set (ms := c_members (class_of e c)) in *.
      assert (Known : forall m, In m ms -> ordinary_type (m_ty m)).
      { intros m Im. destruct He as (P & R & _). specialize (P c). specialize (R c). rewrite forallb_forall in P, R. split; auto. }
      assert (Look : forall m, In m ms -> find_member (map (fun p => (fst p, match reread ms (fst p), find_member l1 (fst p) with Some u, Some b => overlay e (snd p) u b | _, _ => snd p end)) l ++
          filter (fun p => kept_below ms l (fst p)) l1) (m_name m) =
        match find_member l (m_name m) with
        | Some x => Some (match m_kind m, find_member l1 (m_name m) with MOptional, _ | _, None => x | _, Some b => overlay e x (m_ty m) b end)
        | None => match m_kind m with MDefault => find_member l1 (m_name m) | _ => None end
        end).
      { intros m Im. rewrite (found_overlaid (fun k x => match reread ms k, find_member l1 k with Some u, Some b => overlay e x u b | _, _ => x end)).
        rewrite (found_kept (kept_below ms l)). unfold reread, kept_below. rewrite (member_found ms m (Hn c) Im), (default_found ms m (Hn c) Im).
        destruct (find_member l (m_name m)) as [x|]; [f_equal|]; destruct (m_kind m), (find_member l1 (m_name m)); reflexivity. }
      set (l' := map _ l ++ filter _ l1) in *. clearbody l'.
      assert (Members : forall ms', incl ms' ms -> forall olds vs1 vs2, members_denote (denotes e) e l1 ms' olds vs1 ->
        (members_denote (denotes e) e l ms' vs1 vs2 <-> members_denote (denotes e) e l' ms' olds vs2)).
      { clear M1 D1. induction ms' as [|m ms' IHm]; intros Inc olds ws1 ws2 M; [inversion M; subst; split; intros X; inversion X; constructor|].
        inversion M as [|? ? ? w1 ws1' Dm Ms]; subst.
        assert (Im : In m ms) by (apply Inc; now left). specialize (Look m Im). specialize (Known m Im).
        assert (Step : forall w2, member_denotes (denotes e) e l m w1 w2 <-> member_denotes (denotes e) e l' m (hd VIndet olds) w2).
        { intros w2. inversion Dm as [b v K F1 R1|K F1|b v K F1 R1|K F1]; subst; rewrite F1 in Look.
          - destruct (find_member l (m_name m)) as [x|] eqn:Fx.
            + assert (Lx : layered x) by (rewrite Forall_forall in IH; apply (IH (m_name m, x)); now apply find_member_In).
              assert (Look' : find_member l' (m_name m) = Some (overlay e x (m_ty m) b)) by (rewrite Look; destruct (m_kind m); congruence).
              split; intros X; inversion X; subst; try congruence.
              * eapply member_plain; [exact K|exact Look'|]. assert (j = x) by congruence. subst. now apply (Lx _ _ b w1).
              * eapply member_plain; [exact K|exact Fx|]. assert (j = overlay e x (m_ty m) b) by congruence. subst. now apply (Lx _ (hd VIndet olds) b w1).
            + destruct (m_kind m) eqn:Km; try congruence; split; intros X; inversion X; subst; try congruence.
              * eapply member_plain; [congruence|exact Look|exact R1].
              * assert (j = b) by congruence. subst. assert (w2 = w1) by (eapply (denotes_unique_value e (m_ty m)); eauto). subst. now apply member_kept.
          - destruct (find_member l (m_name m)) as [x|] eqn:Fx.
            + rewrite K in Look. split; intros X; inversion X; subst; try congruence; (eapply member_plain; [congruence|eassumption|congruence]).
            + rewrite K in Look. split; intros X; inversion X; subst; try congruence; now apply member_kept.
          - rewrite K in Look. destruct (find_member l (m_name m)) as [x|] eqn:Fx; split; intros X; inversion X; subst; try congruence;
              try (eapply member_some; [exact K|eassumption|congruence]); now apply member_none.
          - rewrite K in Look. destruct (find_member l (m_name m)) as [x|] eqn:Fx; split; intros X; inversion X; subst; try congruence;
              try (eapply member_some; [exact K|eassumption|congruence]); now apply member_none. }
        split; intros X; inversion X; subst; constructor; cbn [hd tl] in *.
        - now apply Step.
        - apply (IHm ltac:(intros y Iy; apply Inc; now right) (tl olds) ws1'); assumption.
        - now apply Step.
        - apply (IHm ltac:(intros y Iy; apply Inc; now right) (tl olds) ws1'); assumption. }
      split; intros X; inversion X; subst; constructor; cbn [components] in *.
      * now apply (Members ms (incl_refl _) _ vs1).
      * now apply (Members ms (incl_refl _) (components old) vs1).
Qed.
End Layers.

(** A document of the type can be read into any object. *)
Lemma any_old : forall e j t old v, denotes e t old j v -> forall old', exists v', denotes e t old' j v'.
Proof.
  intros e. induction j as [|b|z|f|s|l IH|l IH] using json_ind'; intros t old v D old'; try (inversion D; subst; eexists; econstructor; eauto; fail).
  - assert (G : forall ts js, Forall (fun j => forall t old v, denotes e t old j v -> forall old', exists v', denotes e t old' j v') js ->
      forall olds vs, parts_denote (denotes e) ts olds js vs -> forall olds', exists vs', parts_denote (denotes e) ts olds' js vs').
    { clear. intros ts js F olds vs P. induction P as [|t ts olds j js v vs D P IH]; intros olds'; [exists []; constructor|]. inversion F; subst.
      destruct (H1 _ _ _ D (hd VIndet olds')) as (v' & D'). destruct (IH H2 (tl olds')) as (vs' & P'). exists (v' :: vs'). now constructor. }
    inversion D; subst; try (eexists; econstructor; eauto; fail).
    + destruct (G [a; b] l IH _ _ H2 (components old')) as (vs' & P). exists (VList vs'). now constructor.
    + destruct (G ts l IH _ _ H2 (components old')) as (vs' & P). exists (VList vs'). now constructor.
  - inversion D; subst; try (eexists; econstructor; eauto; fail). rename H2 into M.
    assert (X : forall olds', exists vs', members_denote (denotes e) e l (c_members (class_of e c)) olds' vs').
    { clear D. induction M as [|m ms olds v vs Dm M IHm]; intros olds'; [exists []; constructor|]. destruct (IHm (tl olds')) as (vs' & M').
      assert (Y : exists v', member_denotes (denotes e) e l m (hd VIndet olds') v').
      { inversion Dm; subst; [|eexists; now apply member_kept|eexists; eapply member_some; eauto|eexists; now apply member_none].
        rewrite Forall_forall in IH. apply find_member_In in H0 as I. destruct (IH _ I _ _ _ H1 (hd VIndet olds')) as (v' & D'). exists v'. eapply member_plain; eauto. }
      destruct Y as (v' & Y). exists (v' :: vs'). now constructor. }
    destruct (X (components old')) as (vs' & M'). exists (VObj vs'). now constructor.
Qed.
