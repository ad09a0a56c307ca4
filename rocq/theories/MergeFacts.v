(** Facts about the values that the parser gives. *)
From Coq Require Import List Arith Lia ZArith NArith Ascii String Bool Permutation Sorted.
From Verif Require Import Base Float NumericModel HashModel DispatchModel Json Events Types SerializeModel DeserializeModel
  ParseModel ParseRead DenoteSpec DenoteProof ParseSpec MapFacts PlaceFacts ParseProof ParseFacts ParseLimit MergeSpec MergeProof.
Import ListNotations.

Definition distinct (e : env) : Prop := forall c, NoDup (map m_name (c_members (class_of e c))).

Lemma routed_distinct : forall e fuel, routed e fuel -> distinct e.
Proof. intros e fuel [_ H] c. now destruct (H c). Qed.

(** * Acceptance does not depend on the old value *)
Definition accepted (e : env) (t : ty) (j : json) : Prop := exists old v, merges e t old j v.

Lemma denotes_scalar_any : forall e t old j v, scalar_type t = true -> denotes e t old j v -> forall old', denotes e t old' j v.
Proof. intros e t old j v S D old'. inversion D; subst; try discriminate; try (econstructor; eassumption). Qed.

Lemma parts_any : forall e js, Forall (fun j => forall t, accepted e t j -> forall old, exists v, merges e t old j v) js ->
  forall ts olds vs, parts_denote (merges e) ts olds js vs -> forall olds', exists vs', parts_denote (merges e) ts olds' js vs'.
Proof.
  intros e js F. induction F as [|j js Hj F IH]; intros ts olds vs D olds'; inversion D as [|t ts' ? ? ? v vs0 Dv Ds]; subst.
  - exists []. constructor.
  - destruct (Hj t (ex_intro _ _ (ex_intro _ _ Dv)) (hd VIndet olds')) as (v' & Hv). destruct (IH _ _ _ Ds (tl olds')) as (vs' & Hvs).
    exists (v' :: vs'). now constructor.
Qed.

Lemma entries_any : forall e u l, Forall (fun p => forall t, accepted e t (snd p) -> forall old, exists v, merges e t old (snd p) v) l ->
  forall m m1, entries_merge (merges e) e u l m m1 -> forall m', exists m2, entries_merge (merges e) e u l m' m2.
Proof.
  intros e u l F. induction F as [|[k j] l Hj F IH]; intros m m1 D m'; cbn [snd] in *; [exists m'; constructor|].
  assert (A : accepted e u j /\ exists n n', entries_merge (merges e) e u l n n').
  { inversion D; subst; split; try (unfold accepted; now eauto); eauto. }
  destruct A as (A & n & n' & B). destruct (entry m' k) as [x|] eqn:E.
  - destruct (Hj u A x) as (v & Hv). destruct (IH _ _ B (change m' k v)) as (m2 & H2). exists m2. eapply entries_old; eauto.
  - destruct (Hj u A (vinit e u)) as (v & Hv). destruct (IH _ _ B (map_assign m' k v)) as (m2 & H2). exists m2. eapply entries_new; eauto.
Qed.

Lemma members_any : forall e ms l, Forall (fun p => forall t, accepted e t (snd p) -> forall old, exists v, merges e t old (snd p) v) l ->
  forall vs vs1, members_merge (merges e) e ms l vs vs1 -> forall vs', exists vs2, members_merge (merges e) e ms l vs' vs2.
Proof.
  intros e ms l F. induction F as [|[k j] l Hj F IH]; intros vs vs1 D vs'; cbn [snd] in *; [exists vs'; constructor|].
  inversion D as [|i m ? ? ? v ? Hi Hk Hu Hv Hr|i m ? ? ? v ? Hi Hk Hu Hv Hr]; subst.
  - destruct (Hj (m_ty m) (ex_intro _ _ (ex_intro _ _ Hv)) (nth i vs' VIndet)) as (v' & Hv'). destruct (IH _ _ Hr (with_item vs' i v')) as (vs2 & H2).
    exists vs2. eapply merge_plain; eauto.
  - destruct (Hj (m_ty m) (ex_intro _ _ (ex_intro _ _ Hv)) (vinit e (m_ty m))) as (v' & Hv'). destruct (IH _ _ Hr (with_item vs' i (VSome v'))) as (vs2 & H2).
    exists vs2. eapply merge_optional; eauto.
Qed.

Lemma merges_any : forall e j t, accepted e t j -> forall old, exists v, merges e t old j v.
Proof.
  intros e j. induction j using json_ind'; intros t (old0 & v0 & A) old;
    inversion A as [? ? ? ? S X D|? ? js vs C F|? ? js vs C F|? ? ? js vs C F|? ? ? js vs C F|? ? js vs C F|? ? ? l' m C F|? ? l' vs F|? ? ? v D];
    subst; try (eexists; apply merges_scalar; [assumption|assumption|eapply denotes_scalar_any; eassumption]);
    try (now exists (VPtr v); constructor).
  - exists (VList (components old ++ vs)). now constructor.
  - eexists. now apply (merges_set e u old l vs).
  - destruct (parts_any _ _ H _ _ _ F (components old)) as (vs' & F'). exists (VList vs'). now constructor.
  - destruct (parts_any _ _ H _ _ _ F (components old)) as (vs' & F'). exists (VList vs'). now constructor.
  - destruct (parts_any _ _ H _ _ _ F (components old)) as (vs' & F'). exists (VList vs'). now constructor.
  - destruct (entries_any _ _ _ H _ _ F (entries_of old)) as (m' & F'). exists (VMap m'). now constructor.
  - destruct (members_any _ _ _ H _ _ F (components old)) as (vs' & F'). exists (VObj vs'). now constructor.
Qed.

(** * Everything in an accepted document is accepted *)
Lemma forall2_in : forall A B (R : A -> B -> Prop) l m x, Forall2 R l m -> In x l -> exists y, R x y.
Proof. intros A B R l m x F. induction F; intros I; [contradiction|]. destruct I as [->|I]; eauto. Qed.

Lemma parts_nth : forall (R : ty -> val -> json -> val -> Prop) ts olds js vs, parts_denote R ts olds js vs ->
  forall i t j, nth_error ts i = Some t -> nth_error js i = Some j -> exists v, nth_error vs i = Some v /\ R t (nth i olds VIndet) j v.
Proof.
  intros R ts olds js vs D. induction D as [|t ts olds j js v vs Dv Ds IH]; intros [|i] t' j' Ht Hj; cbn in *; try discriminate.
  - inversion Ht; inversion Hj; subst. exists v. split; auto. now destruct olds.
  - destruct (IH i t' j' Ht Hj) as (w & Hw & Rw). exists w. split; auto. destruct olds; cbn in *; auto. now destruct i.
Qed.

Lemma parts_length : forall R ts olds js vs, parts_denote R ts olds js vs -> List.length js = List.length ts /\ List.length vs = List.length ts.
Proof. intros R ts olds js vs D. induction D as [|t ts olds j js v vs Dv Ds [IH1 IH2]]; cbn; auto. Qed.

Lemma entries_in : forall R e u l m m', entries_merge R e u l m m' -> forall k j, In (k, j) l -> exists old v, R u old j v.
Proof.
  intros R e u l m m' D. induction D; intros k' j' I; [contradiction| |]; destruct I as [I|I]; eauto; inversion I; subst; eauto.
Qed.

Lemma members_in : forall R e ms l vs vs', members_merge R e ms l vs vs' -> forall k j, In (k, j) l ->
  exists m old v, In m ms /\ m_name m = k /\ unfinished (m_ty m) = false /\ R (m_ty m) old j v.
Proof.
  intros R e ms l vs vs' D. induction D as [|i m j l vs v vs' Hi Hk Hu Hv Hr IH|i m j l vs v vs' Hi Hk Hu Hv Hr IH]; intros k' j' I; [contradiction| |];
    (destruct I as [I|I]; [|now apply IH]); inversion I; subst; exists m; do 2 eexists; repeat split; eauto; eapply nth_error_In; eauto.
Qed.

Lemma name_unique : forall ms m m', NoDup (map m_name ms) -> In m ms -> In m' ms -> m_name m = m_name m' -> m = m'.
Proof.
  induction ms as [|x ms IH]; intros m m' N I I' E; [contradiction|]. inversion N as [|? ? N1 N2]; subst.
  destruct I as [->|I], I' as [->|I']; auto.
  - elim N1. rewrite E. now apply in_map.
  - elim N1. rewrite <- E. now apply in_map.
Qed.

Lemma finished_nth : forall ts i t, finished ts = true -> nth_error ts i = Some t -> unfinished t = false.
Proof.
  intros ts i t F H. apply nth_error_In in H. unfold finished in F. rewrite forallb_forall in F. specialize (F _ H).
  now destruct (unfinished t).
Qed.

Lemma element_finished : forall (js : list json) j u, In j js -> js = [] \/ element u = true -> unfinished u = false.
Proof. intros js j u I [->|E]; [contradiction|]. unfold element in E. now destruct (unfinished u). Qed.

Lemma part_accepted : forall e t j u j', distinct e -> part e t j u j' -> accepted e t j -> accepted e u j' /\ unfinished u = false.
Proof.
  intros e t j u j' Dd P (old & v & M).
  destruct P as [u js j I|u js j I|n u js j I|a b js i u j Hu Hj|ts js i u j Hu Hj|o u l k j I|c l m j Im I];
    inversion M as [? ? ? ? S X D|? ? js1 vs C F|? ? js1 vs C F|? ? ? js1 vs C F|? ? ? js1 vs C F|? ? js1 vs C F|? ? ? l' m1 C F|? ? l' vs F|? ? ? v1 D];
    subst; try discriminate.
  - split; [|eapply element_finished; eauto]. destruct (forall2_in _ _ _ _ _ _ F I) as (y & Hy). do 2 eexists; eauto.
  - split; [|eapply element_finished; eauto]. destruct (forall2_in _ _ _ _ _ _ F I) as (y & Hy). do 2 eexists; eauto.
  - apply In_nth_error in I. destruct I as (i & Hi). destruct (parts_length _ _ _ _ _ F) as [L _].
    assert (Hu : nth_error (repeat u n) i = Some u).
    { apply nth_error_repeat. rewrite repeat_length in L. rewrite <- L. apply nth_error_Some. congruence. }
    split; [|eapply finished_nth; eauto]. destruct (parts_nth _ _ _ _ _ F _ _ _ Hu Hi) as (v & _ & Hv). do 2 eexists; eauto.
  - split; [|eapply finished_nth; eauto]. destruct (parts_nth _ _ _ _ _ F _ _ _ Hu Hj) as (v & _ & Hv). do 2 eexists; eauto.
  - split; [|eapply finished_nth; eauto]. destruct (parts_nth _ _ _ _ _ F _ _ _ Hu Hj) as (v & _ & Hv). do 2 eexists; eauto.
  - split; [|destruct C as [->|C]; auto; contradiction]. destruct (entries_in _ _ _ _ _ _ F _ _ I) as (x & v & Hv). do 2 eexists; eauto.
  - destruct (members_in _ _ _ _ _ _ F _ _ I) as (m' & x & v & Im' & E & Hu & Hv).
    rewrite (name_unique _ m m' (Dd c) Im Im') in * by auto. split; auto. do 2 eexists; eauto.
Qed.

Lemma reads_accepted : forall e t j u j', distinct e -> reads_at e t j u j' -> accepted e t j -> accepted e u j'.
Proof.
  intros e t j u j' Dd P. induction P as [t j|u j t' j' P IH|t j u j1 t' j' P Q IH]; intros A; auto.
  - apply IH. destruct A as (old & v & M). inversion M; subst; [discriminate|]. do 2 eexists; eauto.
  - apply IH. eapply part_accepted; eauto.
Qed.

(** * What classes and maps accept *)
Lemma members_accept : forall e ms l,
  Forall (fun p => exists i m, nth_error ms i = Some m /\ m_name m = fst p /\ unfinished (m_ty m) = false /\ accepted e (m_ty m) (snd p)) l ->
  forall vs, exists vs', members_merge (merges e) e ms l vs vs'.
Proof.
  intros e ms l F. induction F as [|[k j] l (i & m & Hi & Hn & Hu & Ha) F IH]; intros vs; [exists vs; constructor|].
  cbn [fst snd] in *. subst k.
  assert (Ek : m_kind m = MOptional \/ m_kind m <> MOptional) by (destruct (m_kind m); auto; right; discriminate).
  destruct Ek as [Ek|Ek].
  - destruct (merges_any e j _ Ha (vinit e (m_ty m))) as (v & Hv). destruct (IH (with_item vs i (VSome v))) as (vs' & H).
    exists vs'. eapply merge_optional; eauto.
  - destruct (merges_any e j _ Ha (nth i vs VIndet)) as (v & Hv). destruct (IH (with_item vs i v)) as (vs' & H).
    exists vs'. eapply merge_plain; eauto.
Qed.

Lemma entries_accept : forall e u l, Forall (fun p => accepted e u (snd p)) l ->
  forall m, exists m', entries_merge (merges e) e u l m m'.
Proof.
  intros e u l F. induction F as [|[k j] l Ha F IH]; intros m; [exists m; constructor|]. cbn [snd] in *.
  destruct (entry m k) as [x|] eqn:E.
  - destruct (merges_any e j _ Ha x) as (v & Hv). destruct (IH (change m k v)) as (m' & H). exists m'. eapply entries_old; eauto.
  - destruct (merges_any e j _ Ha (vinit e u)) as (v & Hv). destruct (IH (map_assign m k v)) as (m' & H). exists m'. eapply entries_new; eauto.
Qed.

Lemma items_accept : forall e u old js, Forall (accepted e u) js -> exists vs, Forall2 (merges e u old) js vs.
Proof.
  intros e u old js F. induction F as [|j js A F (vs & IH)]; [exists []; constructor|].
  destruct (merges_any e j u A old) as (v & Hv). exists (v :: vs). now constructor.
Qed.

Lemma parts_accept : forall e ts js, Forall2 (accepted e) ts js -> forall olds, exists vs, parts_denote (merges e) ts olds js vs.
Proof.
  intros e ts js F. induction F as [|t j ts js A F IH]; intros olds; [exists []; constructor|].
  destruct (merges_any e j t A (hd VIndet olds)) as (v & Hv). destruct (IH (tl olds)) as (vs & H). exists (v :: vs). now constructor.
Qed.

Lemma parts_accepted : forall e ts olds js vs, parts_denote (merges e) ts olds js vs -> Forall2 (accepted e) ts js.
Proof. intros e ts olds js vs D. induction D; constructor; auto. unfold accepted. eauto. Qed.

(** * Documents with fewer members *)
Lemma fewer_items : forall e u js js', Forall2 fewer js js' ->
  Forall (fun j => forall t j', fewer j j' -> accepted e t j -> accepted e t j') js -> Forall (accepted e u) js -> Forall (accepted e u) js'.
Proof. intros e u js js' F. induction F; intros G A; inversion G; inversion A; subst; constructor; eauto. Qed.

Lemma fewer_parts : forall e js js', Forall2 fewer js js' ->
  Forall (fun j => forall t j', fewer j j' -> accepted e t j -> accepted e t j') js ->
  forall ts, Forall2 (accepted e) ts js -> Forall2 (accepted e) ts js'.
Proof. intros e js js' F. induction F; intros G ts A; inversion G; inversion A; subst; constructor; eauto. Qed.

Lemma forall2_accepted : forall e u old js vs, Forall2 (merges e u old) js vs -> Forall (accepted e u) js.
Proof. intros e u old js vs F. induction F; constructor; auto. unfold accepted. eauto. Qed.

Lemma fewer_nil : forall u js js', Forall2 fewer js js' -> js = [] \/ element u = true -> js' = [] \/ element u = true.
Proof. intros u js js' F [->|C]; auto. inversion F; auto. Qed.

Lemma fewer_accepted : forall e, distinct e -> forall j t j', fewer j j' -> accepted e t j -> accepted e t j'.
Proof.
  intros e Dd j. induction j using json_ind'; intros t;
    try (intros j' F A; inversion F; subst; exact A).
  - induction t using ty_ind'; intros j' F (old & v & A); inversion F as [? C0|? js' Fj|]; subst; try contradiction C0;
      inversion A as [? ? ? ? S X D|? ? js1 vs C D|? ? js1 vs C D|? ? ? js1 vs C D|? ? ? js1 vs C D|? ? js1 vs C D|? ? ? l' m1 C D|? ? l' vs D|? ? ? v1 D];
      subst; try discriminate; try (exfalso; inversion D; subst; fail).
    + destruct (items_accept e t (vinit e t) js') as (vs' & Hvs); [eapply fewer_items; eauto; eapply forall2_accepted; eauto|].
      do 2 eexists. apply (merges_vector e t VIndet); eauto using fewer_nil.
    + destruct (parts_accept e (repeat t n) js') with (olds := @nil val) as (vs' & Hvs); [eapply fewer_parts; eauto; eapply parts_accepted; eauto|].
      exists (VList []). eexists. apply merges_array; eauto.
    + destruct (items_accept e t (vinit e t) js') as (vs' & Hvs); [eapply fewer_items; eauto; eapply forall2_accepted; eauto|].
      do 2 eexists. apply (merges_set e t VIndet); eauto using fewer_nil.
    + destruct (parts_accept e [t1; t2] js') with (olds := @nil val) as (vs' & Hvs); [eapply fewer_parts; eauto; eapply parts_accepted; eauto|].
      exists (VList []). eexists. apply merges_pair; eauto.
    + destruct (parts_accept e ts js') with (olds := @nil val) as (vs' & Hvs); [eapply fewer_parts; eauto; eapply parts_accepted; eauto|].
      exists (VList []). eexists. apply merges_tuple; eauto.
    + destruct (IHt (JArr js') F) as (old' & v' & M); [do 2 eexists; eauto|]. destruct (merges_any e (JArr js') t) with (old := vinit e t) as (w & W); [do 2 eexists; eauto|].
      exists VIndet, (VPtr w). now apply merges_unique.
  - induction t using ty_ind'; intros j' F (old & v & A); inversion F as [? C0| |? l' Fl]; subst; try contradiction C0;
      inversion A as [? ? ? ? S X D|? ? js1 vs C D|? ? js1 vs C D|? ? ? js1 vs C D|? ? ? js1 vs C D|? ? js1 vs C D|? ? ? l1 m1 C D|? ? l1 vs D|? ? ? v1 D];
      subst; try discriminate; try (exfalso; inversion D; subst; fail).
    + destruct (entries_accept e t l') with (m := @nil (string * val)) as (m' & Hm).
      { rewrite Forall_forall in Fl, H |- *. intros q Iq. specialize (Fl q Iq). rewrite Exists_exists in Fl. destruct Fl as ([k j] & Ip & Ek & Fe).
        cbn [fst snd] in *. apply (H (k, j) Ip t (snd q) Fe). destruct (entries_in _ _ _ _ _ _ D k j Ip) as (x & w & W). do 2 eexists; eauto. }
      exists (VMap []). eexists. apply merges_map; eauto. destruct C as [->|C]; auto. left. destruct l' as [|q l']; auto.
      inversion Fl as [|? ? E]; subst. inversion E.
    + destruct (members_accept e (c_members (class_of e c)) l') with (vs := @nil val) as (vs' & Hvs).
      { rewrite Forall_forall in Fl, H |- *. intros q Iq. specialize (Fl q Iq). rewrite Exists_exists in Fl. destruct Fl as ([k j] & Ip & Ek & Fe).
        cbn [fst snd] in *. destruct (members_in _ _ _ _ _ _ D k j Ip) as (m & x & w & Im & En & Eu & W). apply In_nth_error in Im.
        destruct Im as (i & Hi). exists i, m. split; auto. split; [congruence|]. split; auto. apply (H (k, j) Ip (m_ty m) (snd q) Fe). do 2 eexists; eauto. }
      exists (VObj []). eexists. apply merges_class; eauto.
    + destruct (IHt (JObj l') F) as (old' & v' & M); [do 2 eexists; eauto|]. destruct (merges_any e (JObj l') t) with (old := vinit e t) as (w & W); [do 2 eexists; eauto|].
      exists VIndet, (VPtr w). now apply merges_unique.
Qed.

(** * Members, each by itself *)
Lemma with_item_length : forall l i w, i < List.length l -> List.length (with_item l i w) = List.length l.
Proof. intros l i w H. rewrite <- set_with by auto. apply set_nth_length. Qed.

Lemma with_item_same : forall l i w, i < List.length l -> nth i (with_item l i w) VIndet = w.
Proof.
  intros l i w H. rewrite <- set_with by auto. apply nth_error_nth. now apply set_nth_get.
Qed.

Lemma with_item_other : forall l i k w, i < List.length l -> i <> k -> nth k (with_item l i w) VIndet = nth k l VIndet.
Proof.
  intros l i k w H N. rewrite <- set_with by auto. revert i k H N. induction l as [|x l IH]; intros [|i] [|k] H N; cbn in *; try lia; auto.
  apply IH; lia.
Qed.

Inductive member_merges (e : env) (l : list (string * json)) (m : member) (old : val) : val -> Prop :=
| mm_plain : forall j v, m_kind m <> MOptional -> find_member l (m_name m) = Some j -> unfinished (m_ty m) = false ->
    merges e (m_ty m) old j v -> member_merges e l m old v
| mm_some : forall j v, m_kind m = MOptional -> find_member l (m_name m) = Some j -> unfinished (m_ty m) = false ->
    merges e (m_ty m) (vinit e (m_ty m)) j v -> member_merges e l m old (VSome v)
| mm_kept : find_member l (m_name m) = None -> member_merges e l m old old.

Lemma name_index : forall ms i k m m', NoDup (map m_name ms) -> nth_error ms i = Some m -> nth_error ms k = Some m' ->
  m_name m = m_name m' -> i = k.
Proof.
  intros ms i k m m' N Hi Hk E. pose proof (map_nth_error m_name _ _ Hi) as A. pose proof (map_nth_error m_name _ _ Hk) as B.
  rewrite NoDup_nth_error in N. apply N; [|congruence]. apply nth_error_Some. congruence.
Qed.

Lemma find_member_not : forall l k, ~ In k (map fst l) -> find_member l k = None.
Proof.
  induction l as [|[n j] l IH]; intros k N; cbn in *; auto. destruct (String.eqb_spec n k) as [->|]; [now elim N; left|]. apply IH. tauto.
Qed.

Lemma members_each : forall e ms l vs vs', NoDup (map m_name ms) -> NoDup (map fst l) -> List.length vs = List.length ms ->
  members_merge (merges e) e ms l vs vs' -> List.length vs' = List.length vs /\
  forall i m, nth_error ms i = Some m -> member_merges e l m (nth i vs VIndet) (nth i vs' VIndet).
Proof.
  intros e ms l vs vs' Nm Nl L M. revert Nl L.
  induction M as [vs|i m j l vs v vs' Hi Hk Hu Hv Hr IH|i m j l vs v vs' Hi Hk Hu Hv Hr IH]; intros Nl L.
  - split; auto. intros i m Hm. now apply mm_kept.
  - assert (Li : i < List.length vs) by (rewrite L; apply nth_error_Some; congruence).
    cbn in Nl. inversion Nl as [|? ? N1 N2]; subst. destruct IH as [IL IH]; auto; [now rewrite with_item_length|].
    rewrite with_item_length in IL by auto. split; auto. intros k m' Hm'. specialize (IH k m' Hm').
    destruct (Nat.eq_dec i k) as [<-|Nk].
    + rewrite Hi in Hm'. inversion Hm'; subst m'. rewrite with_item_same in IH by auto.
      pose proof (find_member_not _ _ N1) as Fn.
      assert (E : nth i vs' VIndet = v) by (inversion IH as [? ? ? F|? ? ? F|F E]; congruence).
      rewrite E. eapply mm_plain; eauto. cbn. now rewrite String.eqb_refl.
    + rewrite with_item_other in IH by auto.
      assert (Ne : String.eqb (m_name m) (m_name m') = false).
      { apply String.eqb_neq. intros E. apply Nk. eapply name_index; eauto. }
      inversion IH as [? ? K F U M'|? ? K F U M'|F E]; [eapply mm_plain|eapply mm_some|apply mm_kept]; eauto; cbn; now rewrite Ne.
  - assert (Li : i < List.length vs) by (rewrite L; apply nth_error_Some; congruence).
    cbn in Nl. inversion Nl as [|? ? N1 N2]; subst. destruct IH as [IL IH]; auto; [now rewrite with_item_length|].
    rewrite with_item_length in IL by auto. split; auto. intros k m' Hm'. specialize (IH k m' Hm').
    destruct (Nat.eq_dec i k) as [<-|Nk].
    + rewrite Hi in Hm'. inversion Hm'; subst m'. rewrite with_item_same in IH by auto.
      pose proof (find_member_not _ _ N1) as Fn.
      assert (E : nth i vs' VIndet = VSome v) by (inversion IH as [? ? ? F|? ? ? F|F E]; congruence).
      rewrite E. eapply mm_some; eauto. cbn. now rewrite String.eqb_refl.
    + rewrite with_item_other in IH by auto.
      assert (Ne : String.eqb (m_name m) (m_name m') = false).
      { apply String.eqb_neq. intros E. apply Nk. eapply name_index; eauto. }
      inversion IH as [? ? K F U M'|? ? K F U M'|F E]; [eapply mm_plain|eapply mm_some|apply mm_kept]; eauto; cbn; now rewrite Ne.
Qed.

Lemma list_ext : forall (l l' : list val), List.length l = List.length l' ->
  (forall i, i < List.length l -> nth i l VIndet = nth i l' VIndet) -> l = l'.
Proof. intros l l' L H. eapply nth_ext; eauto. Qed.

Lemma members_build : forall e ms l vs vs', NoDup (map m_name ms) -> NoDup (map fst l) -> List.length vs = List.length ms ->
  List.length vs' = List.length vs -> (forall k, In k (map fst l) -> In k (map m_name ms)) ->
  (forall i m, nth_error ms i = Some m -> member_merges e l m (nth i vs VIndet) (nth i vs' VIndet)) ->
  members_merge (merges e) e ms l vs vs'.
Proof.
  intros e ms l. induction l as [|[k j] l IH]; intros vs vs' Nm Nl L L' Kn E.
  - assert (vs' = vs) as ->; [|constructor]. apply list_ext; auto. intros i Hi.
    destruct (nth_error ms i) as [m|] eqn:Hm; [|apply nth_error_None in Hm; lia].
    specialize (E i m Hm). inversion E as [? ? ? F|? ? ? F|F X]; auto; discriminate.
  - cbn in Nl. inversion Nl as [|? ? N1 N2]; subst.
    assert (Im : In k (map m_name ms)) by (apply Kn; now left). apply in_map_iff in Im. destruct Im as (m & Em & Im).
    apply In_nth_error in Im. destruct Im as (i & Hi).
    assert (Li : i < List.length vs) by (rewrite L; apply nth_error_Some; congruence).
    assert (Fk : find_member ((k, j) :: l) (m_name m) = Some j) by (cbn; rewrite Em, String.eqb_refl; reflexivity).
    assert (Rest : forall w, nth i vs' VIndet = w -> members_merge (merges e) e ms l (with_item vs i w) vs').
    { intros w Ew. apply IH; auto.
      - now rewrite with_item_length.
      - now rewrite with_item_length.
      - intros k' I. apply Kn. now right.
      - intros k' m' Hm'. destruct (Nat.eq_dec i k') as [<-|Nk].
        + rewrite with_item_same, Ew by auto. apply mm_kept. rewrite Hi in Hm'. inversion Hm'; subst m'. rewrite Em. now apply find_member_not.
        + rewrite with_item_other by auto. specialize (E k' m' Hm').
          assert (Ne : String.eqb k (m_name m') = false).
          { apply String.eqb_neq. intros X. apply Nk. eapply name_index; eauto. congruence. }
          inversion E as [? ? K F U M'|? ? K F U M'|F X]; cbn in F; rewrite Ne in F; [eapply mm_plain|eapply mm_some|apply mm_kept]; eauto. }
    specialize (E i m Hi). rewrite <- Em. inversion E as [? v K F U M' X|? v K F U M' X|F X]; rewrite Fk in F; inversion F; subst.
    + eapply merge_plain; eauto.
    + eapply merge_optional; eauto.
Qed.

(** * Entries, each by itself *)
Lemma change_assign : forall m k x v, ascending m -> entry m k = Some x -> change m k v = map_assign m k v.
Proof.
  intros m k x v S. induction S as [|[n y] m S IH F]; intros E; cbn in *; [discriminate|].
  destruct (String.eqb_spec n k) as [->|N].
  - now rewrite str_ltb_irrefl.
  - destruct (str_ltb k n) eqn:A.
    + change (find_entry m k = Some x) in E. rewrite find_entry_above in E; [discriminate|].
      eapply Forall_impl; [|exact F]. intros q B. exact (str_ltb_trans _ _ _ A B).
    + destruct (str_ltb n k) eqn:B; [now rewrite IH|]. elim N. symmetry. now apply str_ltb_total.
Qed.

Definition entry_or (m : list (string * val)) (k : string) (d : val) : val := match entry m k with Some x => x | None => d end.

Lemma entries_step : forall e u k j l m m', ascending m -> (entries_merge (merges e) e u ((k, j) :: l) m m' <->
  exists v, merges e u (entry_or m k (vinit e u)) j v /\ entries_merge (merges e) e u l (map_assign m k v) m').
Proof.
  intros e u k j l m m' S. unfold entry_or. split.
  - intros M. inversion M as [|? ? ? ? x v ? E V R|? ? ? ? v ? E V R]; subst; rewrite E; exists v; split; auto.
    erewrite <- change_assign; eauto.
  - intros (v & V & R). destruct (entry m k) as [x|] eqn:E.
    + eapply entries_old; eauto. erewrite change_assign; eauto.
    + eapply entries_new; eauto.
Qed.

Definition entry_merges (e : env) (u : ty) (l : list (string * json)) (m m' : list (string * val)) (k : string) : Prop :=
  match find_member l k with
  | Some j => exists v, entry m' k = Some v /\ merges e u (entry_or m k (vinit e u)) j v
  | None => entry m' k = entry m k
  end.

Lemma entries_each : forall e u l m m', NoDup (map fst l) -> ascending m ->
  (entries_merge (merges e) e u l m m' <-> ascending m' /\ forall k, entry_merges e u l m m' k).
Proof.
  intros e u l. induction l as [|[k j] l IH]; intros m m' N S.
  - split.
    + intros M. inversion M; subst. split; auto. intros k. reflexivity.
    + intros [S' E]. rewrite (ascending_ext m m'); auto; [constructor|]. intros k. symmetry. exact (E k).
  - cbn in N. inversion N as [|? ? N1 N2]; subst. rewrite entries_step by auto.
    pose proof (find_member_not _ _ N1) as Fn. split.
    + intros (v & V & R). apply IH in R; auto; [|now apply map_assign_ascending]. destruct R as [S' E]. split; auto. intros k'. specialize (E k').
      unfold entry_merges, entry_or in *. cbn [find_member]. destruct (String.eqb_spec k k') as [<-|Nk].
      * rewrite Fn in E. exists v. split; auto. rewrite E. change (find_entry (map_assign m k v) k = Some v). rewrite map_assign_find by auto. now rewrite String.eqb_refl.
      * assert (X : entry (map_assign m k v) k' = entry m k').
        { change (find_entry (map_assign m k v) k' = find_entry m k'). rewrite map_assign_find by auto. now destruct (String.eqb_spec k k'). }
        now rewrite X in E.
    + intros [S' E]. pose proof (E k) as Ek. unfold entry_merges in Ek. cbn [find_member] in Ek. rewrite String.eqb_refl in Ek.
      destruct Ek as (v & Ev & V). exists v. split; auto. apply IH; auto; [now apply map_assign_ascending|]. split; auto. intros k'.
      specialize (E k'). unfold entry_merges, entry_or in *. cbn [find_member] in E. destruct (String.eqb_spec k k') as [EQ|Nk]; [subst k'|].
      * rewrite Fn. rewrite Ev. change (Some v = find_entry (map_assign m k v) k). rewrite map_assign_find by auto. now rewrite String.eqb_refl.
      * assert (X : entry (map_assign m k v) k' = entry m k').
        { change (find_entry (map_assign m k v) k' = find_entry m k'). rewrite map_assign_find by auto. now destruct (String.eqb_spec k k'). }
        now rewrite X.
Qed.

Lemma forall2_len : forall A B (R : A -> B -> Prop) l l', Forall2 R l l' -> List.length l' = List.length l.
Proof. intros A B R l l' F. induction F; cbn; auto. Qed.

(** * Order of the members *)
Section Order.
Variable e : env.
Hypothesis dd : distinct e.
Hypothesis shp : shaped_classes e.

Definition order_free (j : json) : Prop := forall t old v j', shaped e t old -> merges e t old j v -> reordered j j' -> merges e t old j' v.

Lemma reordered_parts' : forall ts olds js vs, parts_denote (merges e) ts olds js vs -> Forall2 (shaped e) ts olds ->
  forall js', Forall2 reordered js js' -> Forall order_free js -> parts_denote (merges e) ts olds js' vs.
Proof.
  intros ts olds js vs D. induction D as [|t ts olds j js v vs Dv Ds IH]; intros S js' R F; inversion R; inversion F; inversion S; subst; [constructor|].
  cbn in *. constructor; eauto.
Qed.

Lemma reordered_items' : forall t old js vs, shaped e t old -> Forall2 (merges e t old) js vs ->
  forall js', Forall2 reordered js js' -> Forall order_free js -> Forall2 (merges e t old) js' vs.
Proof.
  intros t old js vs S D. induction D as [|j v js vs Dv Ds IH]; intros js' R F; inversion R; subst; [constructor|].
  inversion F; subst. constructor; eauto.
Qed.

Lemma reordered_nil : forall u js js', Forall2 reordered js js' -> js = [] \/ element u = true -> js' = [] \/ element u = true.
Proof. intros u js js' F [->|C]; auto. inversion F; auto. Qed.

Lemma reordered_keys : forall (l l1 l' : list (string * json)) k,
  Forall2 (fun p q => fst p = fst q /\ reordered (snd p) (snd q)) l l1 -> Permutation l1 l' -> In k (map fst l') -> In k (map fst l).
Proof.
  intros l l1 l' k F P I. eapply Permutation_in in I; [|apply Permutation_map; symmetry; exact P].
  clear P. induction F as [|p q l l1 [E _] F IH]; cbn in *; auto. rewrite E. tauto.
Qed.

Lemma reordered_nodup : forall (l l1 l' : list (string * json)), NoDup (map fst l) ->
  Forall2 (fun p q => fst p = fst q /\ reordered (snd p) (snd q)) l l1 -> Permutation l1 l' -> NoDup (map fst l').
Proof.
  intros l l1 l' N F P. eapply Permutation_NoDup; [apply Permutation_map; exact P|].
  replace (map fst l1) with (map fst l); auto. clear - F. induction F as [|p q l l1 [E _] F IH]; cbn; auto. now rewrite E, IH.
Qed.

Lemma entry_shaped : forall u m k, Forall (fun p => shaped e u (snd p)) m -> shaped e u (entry_or m k (vinit e u)).
Proof.
  intros u m k F. unfold entry_or. change entry with map_find. destruct (map_find m k) eqn:E; [|now apply vinit_shaped].
  eapply find_shape; eauto.
Qed.

Lemma members_known : forall ms l vs vs', members_merge (merges e) e ms l vs vs' -> forall k, In k (map fst l) -> In k (map m_name ms).
Proof.
  intros ms l vs vs' M k I. apply in_map_iff in I. destruct I as ([k' j] & Ek & I). cbn in Ek. subst k'.
  destruct (members_in _ _ _ _ _ _ M k j I) as (m & _ & _ & Im & <- & _). now apply in_map.
Qed.

Lemma reordered_merges : forall j, order_free j.
Proof.
  induction j as [|b|z|f|s|js IH|l IH] using json_ind'; intros t;
    try (intros old v j' S D R; inversion R; subst; exact D).
  - induction t using ty_ind'; intros old v j' S M R; inversion R as [? C0|? js' Fj|]; subst; try contradiction C0;
      inversion M as [? ? ? ? S' X D|? ? js1 vs C D|? ? js1 vs C D|? ? ? js1 vs C D|? ? ? js1 vs C D|? ? js1 vs C D|? ? ? l1 m1 C D|? ? l1 vs D|? ? ? v1 D];
      subst; try discriminate; try (exfalso; inversion D; subst; fail).
    + apply merges_vector; eauto using reordered_nil. eapply reordered_items'; eauto. now apply vinit_shaped.
    + destruct (shaped_components e (TArray n t) (repeat t n) old S) as (olds & -> & Ho); [left; eauto|].
      apply merges_array; auto. eapply reordered_parts'; eauto.
    + apply merges_set; eauto using reordered_nil. eapply reordered_items'; eauto. now apply vinit_shaped.
    + destruct (shaped_components e (TPair t1 t2) [t1; t2] old S) as (olds & -> & Ho); [right; left; eauto|].
      apply merges_pair; auto. eapply reordered_parts'; eauto.
    + destruct (shaped_components e (TTuple ts) ts old S) as (olds & -> & Ho); [right; right; eauto|].
      apply merges_tuple; auto. eapply reordered_parts'; eauto.
    + apply merges_unique. eapply IHt; eauto. now apply vinit_shaped.
  - induction t using ty_ind'; intros old v j' S M R; inversion R as [? C0| |? l1 l' N F P]; subst; try contradiction C0;
      inversion M as [? ? ? ? S' X D|? ? js1 vs C D|? ? js1 vs C D|? ? ? js1 vs C D|? ? ? js1 vs C D|? ? js1 vs C D|? ? ? l2 m1 C D|? ? l2 vs D|? ? ? v1 D];
      subst; try discriminate; try (exfalso; inversion D; subst; fail).
    + inversion S as [| | | |? ? m Sm Fm| | |]; subst; [discriminate|]. cbn [entries_of] in *. apply nodup_fst in N.
      apply entries_each in D; auto. destruct D as [S1 E]. apply merges_map.
      * destruct C as [->|C]; auto. inversion F; subst. apply Permutation_nil in P. auto.
      * apply entries_each; auto; [eapply reordered_nodup; eauto|]. split; auto. intros k. specialize (E k). unfold entry_merges in *.
        pose proof (find_member_reordered l l1 l' k N F P) as X. rewrite Forall_forall in IH.
        destruct (find_member l k) as [j|] eqn:El, (find_member l' k) as [j'|] eqn:El'; try contradiction; auto.
        destruct E as (w & Ew & W). exists w. split; auto. apply find_member_In in El. eapply (IH _ El); eauto. now apply entry_shaped.
    + inversion S as [| | | | | | |? vs0 Sc]; subst; [discriminate|]. cbn [components] in *. apply nodup_fst in N.
      pose proof (forall2_len _ _ _ _ _ Sc) as L. pose proof (members_known _ _ _ _ D) as K.
      apply members_each in D; auto. destruct D as [L' E]. apply merges_class. cbn [components].
      apply members_build; auto; [eapply reordered_nodup; eauto|intros k Ik; eapply K, reordered_keys; eauto|].
      intros i m Hm. specialize (E i m Hm). pose proof (find_member_reordered l l1 l' (m_name m) N F P) as X. rewrite Forall_forall in IH.
      assert (Sm : m_kind m <> MOptional -> shaped e (m_ty m) (nth i vs0 VIndet)).
      { intros Ko. pose proof (forall2_nth _ _ _ _ _ _ _ Sc Hm) as (w & Hw & Sw). rewrite (nth_error_nth _ _ VIndet Hw). auto. }
      inversion E as [j w K1 K2 K3 K4|j w K1 K2 K3 K4|K1 K2]; subst.
      * rewrite K2 in X. destruct (find_member l' (m_name m)) as [j'|] eqn:E'; try contradiction.
        eapply mm_plain; eauto. apply find_member_In in K2. eapply (IH _ K2); eauto.
      * rewrite K2 in X. destruct (find_member l' (m_name m)) as [j'|] eqn:E'; try contradiction.
        eapply mm_some; eauto. apply find_member_In in K2. eapply (IH _ K2); eauto. now apply vinit_shaped.
      * rewrite K1 in X. destruct (find_member l' (m_name m)) as [j'|] eqn:E'; try contradiction. now apply mm_kept.
    + apply merges_unique. eapply IHt; eauto. now apply vinit_shaped.
Qed.
End Order.

(** * Old values *)
Lemma replacing_nth : forall ts i t, Forall replacing ts -> nth_error ts i = Some t -> replacing t.
Proof. intros ts i t F H. rewrite Forall_forall in F. eapply F, nth_error_In; eauto. Qed.

Lemma parts_replaced : forall e ts olds js vs, parts_denote (merges e) ts olds js vs ->
  Forall (fun t => forall old j v, merges e t old j v -> forall old', merges e t old' j v) ts ->
  forall olds', parts_denote (merges e) ts olds' js vs.
Proof.
  intros e ts olds js vs D. induction D as [|t ts olds j js v vs Dv Ds IH]; intros F olds'; [constructor|].
  inversion F as [|? ? Ft F']; subst. constructor; [exact (Ft _ _ _ Dv _)|exact (IH F' _)].
Qed.

Lemma forall_repeat : forall A (P : A -> Prop) x n, P x -> Forall P (repeat x n).
Proof. intros A P x n H. induction n; cbn; auto. Qed.

Lemma replaced_merges : forall e t, replacing t -> forall old j v, merges e t old j v -> forall old', merges e t old' j v.
Proof.
  intros e t. induction t using ty_ind'; intros Rp; inversion Rp as [? S| |? ? R1|? ? R1 R2|? R1]; subst; try discriminate;
    intros old j v M old';
    inversion M as [? ? ? ? S' X D|? ? js1 vs C D|? ? js1 vs C D|? ? ? js1 vs C D|? ? ? js1 vs C D|? ? js1 vs C D|? ? ? l1 m1 C D|? ? l1 vs D|? ? ? v1 D];
    subst; try discriminate;
    try (now apply merges_scalar; [assumption|assumption|eapply denotes_scalar_any; eassumption]).
  - apply merges_array; auto. eapply parts_replaced; eauto. apply forall_repeat. intros o j w W o'. eapply IHt; eauto.
  - apply merges_pair; auto. eapply parts_replaced; [eassumption|]. constructor; [exact (IHt1 R1)|]. constructor; [exact (IHt2 R2)|constructor].
  - apply merges_tuple; auto. eapply parts_replaced; eauto. rewrite Forall_forall in *. intros t It o j w W o'. eapply H; eauto.
  - now apply merges_unique.
Qed.

(** A member in the document for the last time. *)
Lemma members_app : forall R e ms l1 l2 vs vs', members_merge R e ms (l1 ++ l2) vs vs' ->
  exists vs1, members_merge R e ms l1 vs vs1 /\ members_merge R e ms l2 vs1 vs'.
Proof.
  induction l1 as [|[k j] l1 IH]; intros l2 vs vs' M; cbn [app] in M; [exists vs; split; [constructor|exact M]|].
  inversion M as [|i m ? ? ? v ? Hi Hk Hu Hv Hr|i m ? ? ? v ? Hi Hk Hu Hv Hr]; subst;
    destruct (IH _ _ _ Hr) as (vs1 & A & B); exists vs1; split; auto; [eapply merge_plain|eapply merge_optional]; eauto.
Qed.

Lemma members_length : forall R e ms l vs vs', List.length vs = List.length ms -> members_merge R e ms l vs vs' -> List.length vs' = List.length ms.
Proof.
  intros R e ms l vs vs' L M. induction M as [vs|i m j l vs v vs' Hi Hk Hu Hv Hr IH|i m j l vs v vs' Hi Hk Hu Hv Hr IH]; auto;
    apply IH; rewrite with_item_length; auto; rewrite L; apply nth_error_Some; congruence.
Qed.

Lemma members_kept : forall R e ms l vs vs', List.length vs = List.length ms -> NoDup (map m_name ms) -> members_merge R e ms l vs vs' ->
  forall i m, nth_error ms i = Some m -> ~ In (m_name m) (map fst l) -> nth i vs' VIndet = nth i vs VIndet.
Proof.
  intros R e ms l vs vs' L N M.
  induction M as [vs|i m j l vs v vs' Hi Hk Hu Hv Hr IH|i m j l vs v vs' Hi Hk Hu Hv Hr IH]; auto; intros k m' Hm' Ni; cbn in Ni;
    assert (Li : i < List.length vs) by (rewrite L; apply nth_error_Some; congruence);
    assert (Nk : i <> k) by (intros <-; rewrite Hi in Hm'; inversion Hm'; subst; tauto);
    rewrite (IH (eq_trans (with_item_length _ _ _ Li) L) k m' Hm') by tauto; now apply with_item_other.
Qed.

Definition stored (m : member) (v : val) : val := match m_kind m with MOptional => VSome v | _ => v end.

Lemma stored_plain : forall m v, m_kind m <> MOptional -> stored m v = v.
Proof. intros m v H. unfold stored. now destruct (m_kind m). Qed.

Lemma members_last : forall e ms l1 k j l2 vs vs' i m, List.length vs = List.length ms -> NoDup (map m_name ms) ->
  members_merge (merges e) e ms (l1 ++ (k, j) :: l2) vs vs' -> ~ In k (map fst l2) ->
  nth_error ms i = Some m -> m_name m = k -> m_kind m = MOptional \/ replacing (m_ty m) ->
  exists v, merges e (m_ty m) (vinit e (m_ty m)) j v /\ nth_error vs' i = Some (stored m v).
Proof.
  intros e ms l1 k j l2 vs vs' i m L N M Ni Hi Ek Rp. destruct (members_app _ _ _ _ _ _ _ M) as (vs1 & A & B).
  pose proof (members_length _ _ _ _ _ _ L A) as L1. pose proof (members_length _ _ _ _ _ _ L1 B) as L2.
  assert (Li : i < List.length ms) by (apply nth_error_Some; congruence).
  inversion B as [|i0 m0 ? ? ? v ? Hi0 Hk Hu Hv Hr|i0 m0 ? ? ? v ? Hi0 Hk Hu Hv Hr]; subst;
    assert (i0 = i) as -> by (eapply name_index; eauto); rewrite Hi in Hi0; inversion Hi0; subst m0;
    exists v; (split; [destruct Rp as [Rp|Rp]; try congruence; auto; eapply replaced_merges; eauto|]);
    rewrite (nth_error_nth' vs' VIndet) by lia; f_equal;
    rewrite (members_kept _ _ _ _ _ _ (eq_trans (with_item_length vs1 i _ ltac:(lia)) L1) N Hr i m Hi Ni), with_item_same by lia.
  - now rewrite stored_plain.
  - unfold stored. now rewrite Hk.
Qed.

Lemma entries_kept : forall R e u l m m', ascending m -> entries_merge R e u l m m' -> forall k, ~ In k (map fst l) ->
  ascending m' /\ entry m' k = entry m k.
Proof.
  intros R e u l m m' S M. induction M as [m|k j l m x v m' E V Rs IH|k j l m v m' E V Rs IH]; intros k' N; auto; cbn in N.
  - rewrite (change_assign m k x v S E) in IH. destruct (IH (map_assign_ascending m k v S) k') as [A B]; [tauto|]. split; auto. rewrite B.
    change (find_entry (map_assign m k v) k' = find_entry m k'). rewrite map_assign_find by auto. destruct (String.eqb_spec k k'); tauto.
  - destruct (IH (map_assign_ascending m k v S) k') as [A B]; [tauto|]. split; auto. rewrite B.
    change (find_entry (map_assign m k v) k' = find_entry m k'). rewrite map_assign_find by auto. destruct (String.eqb_spec k k'); tauto.
Qed.
