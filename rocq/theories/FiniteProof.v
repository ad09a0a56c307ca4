(** Non-finite numbers in the writer. *)
From Coq Require Import List Arith ZArith NArith Ascii String Bool Lia Permutation.
From Verif Require Import Base Float Base64Model DatetimeModel EnumModel RefsModel RefsProof Json PathModel Types
  SerializeModel Events WriteModel WriteSpec NeverProof WriteProof.
Import ListNotations.

(** Unordered maps. *)
Lemma all_some_map : forall A B (f : A -> B) l, all_some (map (option_map f) l) = option_map (map f) (all_some l).
Proof.
  intros A B f l. induction l as [|[a|] l IH]; cbn; [reflexivity| |reflexivity]. rewrite IH. now destruct (all_some l).
Qed.

Lemma nth_error_map' : forall A B (f : A -> B) l i, nth_error (map f l) i = option_map f (nth_error l i).
Proof. intros A B f l. induction l as [|a l IH]; intros [|i]; cbn; auto. Qed.

Lemma visited_map : forall A B e o (g : A -> B) l,
  visited e o (map (fun p => (fst p, g (snd p))) l) = option_map (map (fun p => (fst p, g (snd p)))) (visited e o l).
Proof.
  intros A B e o g l. unfold visited. destruct o; [reflexivity|]. rewrite <- all_some_map, !map_map. cbn.
  f_equal. apply map_ext. intros i. apply nth_error_map'.
Qed.

Lemma all_some_nth : forall A (l : list A) idx r, all_some (map (nth_error l) idx) = Some r ->
  r = flat_map (fun i => match nth_error l i with Some x => [x] | None => [] end) idx.
Proof.
  intros A l idx. induction idx as [|i idx IH]; intros r E; cbn in *; [injection E as <-; reflexivity|].
  destruct (nth_error l i) as [x|]; [|discriminate]. destruct (all_some (map (nth_error l) idx)); [|discriminate].
  injection E as <-. cbn. f_equal. apply IH. reflexivity.
Qed.

Lemma flat_map_seq : forall A (l pre : list A),
  flat_map (fun i => match nth_error (pre ++ l) i with Some x => [x] | None => [] end) (seq (List.length pre) (List.length l)) = l.
Proof.
  intros A l. induction l as [|x l IH]; intros pre; cbn; [reflexivity|].
  rewrite nth_error_app2, Nat.sub_diag by lia. cbn. f_equal. specialize (IH (pre ++ [x])).
  rewrite <- app_assoc in IH. cbn in IH. rewrite app_length in IH. cbn in IH. rewrite Nat.add_1_r in IH. exact IH.
Qed.

Lemma visited_perm : forall A e o (l r : list (string * A)), fair e -> visited e o l = Some r -> Permutation r l.
Proof.
  intros A e o l r F E. unfold visited in E. destruct o; [injection E as <-; apply Permutation_refl|].
  apply all_some_nth in E. subst r. etransitivity.
  - apply Permutation_flat_map, F.
  - rewrite map_length. pose proof (flat_map_seq _ l []) as X. cbn [List.length app] in X. rewrite X. apply Permutation_refl.
Qed.

Lemma all_some_total : forall A (l : list (option A)), Forall (fun o => o <> None) l -> exists r, all_some l = Some r.
Proof.
  intros A l H. induction H as [|[a|] l H Hs [r IH]]; cbn; [eauto| |congruence]. rewrite IH. eauto.
Qed.

Lemma visited_total : forall A e o (l : list (string * A)), fair e -> exists r, visited e o l = Some r.
Proof.
  intros A e o l F. unfold visited. destruct o; [eauto|]. apply all_some_total. apply Forall_forall.
  intros x I. apply in_map_iff in I. destruct I as (i & <- & I).
  apply (Permutation_in _ (F (map fst l))) in I. rewrite map_length in I. apply in_seq in I.
  apply nth_error_Some. lia.
Qed.

(** A table in which every object registered satisfies [P]. *)
Definition good (P : nat -> Prop) (tab : wtable) : Prop := forall a s, ref_get Nat.eqb tab a = Some s -> P a.

Lemma good_put : forall P tab a s, good P tab -> P a -> good P (ref_put Nat.eqb tab a s).
Proof.
  intros P tab a s G Pa b s' E. unfold ref_put in E. destruct (ref_get Nat.eqb tab a) eqn:D; [exact (G _ _ E)|].
  destruct (Nat.eq_dec a b) as [<-|N]; [exact Pa|]. apply (G b s').
  revert E. clear -N. induction tab as [|[k v] tab IH]; cbn.
  - destruct (Nat.eqb_spec a b); [contradiction|discriminate].
  - destruct (Nat.eqb k b); auto.
Qed.

Section Heap.
Variable H : nat -> val.

Lemma in_heap_list : forall l, fold_right (fun x P => in_heap H x /\ P) True l -> Forall (in_heap H) l.
Proof. intros l. induction l as [|x l IH]; cbn; intros F; constructor; [apply F|apply IH, F]. Qed.

Lemma in_heap_map : forall l : list (string * val), fold_right (fun p P => in_heap H (snd p) /\ P) True l -> Forall (fun p => in_heap H (snd p)) l.
Proof. intros l. induction l as [|x l IH]; cbn; intros F; constructor; [apply F|apply IH, F]. Qed.

Lemma Forall_forallb : forall A (f : A -> bool) l, Forall (fun x => f x = true) l -> forallb f l = true.
Proof. intros A f l F. apply forallb_forall. apply Forall_forall. exact F. Qed.

(** Runs of the grammar. *)
Lemma run_app : forall a b s, run s (a ++ b) = match run s a with Some s' => run s' b | None => None end.
Proof.
  intros a. induction a as [|ev a IH]; intros b s; cbn; [reflexivity|]. destruct (step s ev); [apply IH|reflexivity].
Qed.

Lemma run_events : forall j s s', after_value s = Some s' -> run s (events j) = Some s'.
Proof.
  induction j as [|b|z|f|x|l IH|l IH] using json_ind'; intros s s' A; cbn; rewrite ?A; try reflexivity; cbn.
  - rewrite run_app. replace (run (FArr :: s') (flat_map events l)) with (Some (FArr :: s')); [reflexivity|].
    induction IH as [|x l Px Ps IHl]; cbn; [reflexivity|]. rewrite run_app, (Px (FArr :: s') (FArr :: s') eq_refl). exact IHl.
  - rewrite run_app.
    replace (run (FKey :: s') (flat_map (fun p => EKey (fst p) :: events (snd p)) l)) with (Some (FKey :: s')); [reflexivity|].
    induction IH as [|x l Px Ps IHl]; cbn; [reflexivity|]. rewrite run_app, (Px (FVal :: s') (FKey :: s') eq_refl). exact IHl.
Qed.

Section Writer.
Variable e : env.
Hypothesis all : fair e.

Definition P0 (a : nat) : Prop := finite (H a) = true.

(** Somewhere a value is due. *)
Definition pending (o : option (list frame)) : Prop := exists p p', o = Some p /\ after_value p = Some p'.

(** Success goes with finite numbers ([b]) and text according to the grammar, or the text
    violates the grammar; failure leaves text that is still in want of a value. *)
Definition wsays (b : bool) (s s' : list frame) (r : wres) : Prop :=
  match r with
  | WRet true tab evs => (b = true /\ run s evs = Some s' /\ good P0 tab) \/ run s evs = None
  | WRet false tab evs => run s evs = None \/ pending (run s evs)
  | WUndef => True
  end.

Definition wsound (v : val) (w : wfun) : Prop := forall ctx tab s s', good P0 tab -> after_value s = Some s' ->
  wsays (finite v) s s' (w ctx tab).

Lemma wsays_then : forall a b s s1 s2 x f, wsays a s s1 x -> (forall tab, good P0 tab -> wsays b s1 s2 (f tab)) ->
  wsays (a && b) s s2 (wthen x f).
Proof.
  intros a b s s1 s2 [[|] tab evs|] f X F; cbn in *; [|exact X|exact I].
  destruct X as [(-> & R & G)|R].
  - specialize (F tab G). destruct (f tab) as [[|] tab2 evs2|]; cbn in *; [| |exact I]; rewrite run_app, R.
    + exact F.
    + exact F.
  - destruct (f tab) as [[|] tab2 evs2|]; cbn; [| |exact I]; rewrite run_app, R; auto.
Qed.

Lemma wsays_emit : forall s s' evs tab, run s evs = Some s' -> good P0 tab -> wsays true s s' (emit evs tab).
Proof. intros s s' evs tab R G. left. auto. Qed.

Lemma wsound_seq : forall at_ vs ws, Forall2 wsound vs ws -> forall k r tab, good P0 tab ->
  wsays (forallb finite vs) (FArr :: r) (FArr :: r) (wr_seq at_ k ws tab).
Proof.
  intros at_ vs ws F. induction F as [|v w vs ws F Fs IH]; intros k r tab G.
  - apply wsays_emit; [reflexivity|exact G].
  - cbn [wr_seq forallb]. eapply wsays_then; [apply F; [exact G|reflexivity]|]. intros tab' G'. apply IH, G'.
Qed.

Lemma wsound_array : forall at_ vs ws tab s s', Forall2 wsound vs ws -> good P0 tab -> after_value s = Some s' ->
  wsays (forallb finite vs) s s' (wr_array at_ ws tab).
Proof.
  intros at_ vs ws tab s s' F G A. unfold wr_array. change (forallb finite vs) with (true && forallb finite vs).
  eapply wsays_then; [apply (wsays_emit s (FArr :: s')); [cbn; now rewrite A|exact G]|]. intros t1 G1.
  rewrite <- (andb_true_r (forallb finite vs)).
  eapply wsays_then; [apply wsound_seq; [exact F|exact G1]|]. intros t2 G2. apply wsays_emit; [reflexivity|exact G2].
Qed.

Lemma wsound_entries : forall ctx vs ws, Forall2 (fun v w => wsound v (snd w)) vs ws -> forall r tab, good P0 tab ->
  wsays (forallb finite vs) (FKey :: r) (FKey :: r) (wr_entries ctx ws tab).
Proof.
  intros ctx vs ws F. induction F as [|v [key w] vs ws F Fs IH]; intros r tab G.
  - apply wsays_emit; [reflexivity|exact G].
  - change (wr_entries ctx ((key, w) :: ws) tab) with
      (wthen (emit [EKey key] tab) (fun tab => wthen (w (name_segment (list_ascii_of_string key) :: ctx) tab)
      (wr_entries ctx ws))). cbn [forallb]. change (finite v && forallb finite vs) with (true && (finite v && forallb finite vs)).
    eapply wsays_then; [apply (wsays_emit _ (FVal :: r)); [reflexivity|exact G]|]. intros t1 G1.
    eapply wsays_then; [apply F; [exact G1|reflexivity]|]. intros t2 G2. apply IH, G2.
Qed.

Lemma wsound_map : forall ctx vs ws tab s s', Forall2 (fun v w => wsound v (snd w)) vs ws -> good P0 tab ->
  after_value s = Some s' -> wsays (forallb finite vs) s s' (wr_map ctx ws tab).
Proof.
  intros ctx vs ws tab s s' F G A. unfold wr_map. change (forallb finite vs) with (true && forallb finite vs).
  eapply wsays_then; [apply (wsays_emit s (FKey :: s')); [cbn; now rewrite A|exact G]|]. intros t1 G1.
  rewrite <- (andb_true_r (forallb finite vs)).
  eapply wsays_then; [apply wsound_entries; [exact F|exact G1]|]. intros t2 G2. apply wsays_emit; [reflexivity|exact G2].
Qed.

Definition wmsound (v : val) (w : wmfun) : Prop :=
  match w with
  | WPlain f | WPresent f => forall t, wsound v (f t)
  | WAbsent => finite v = true
  end.

Lemma members_quiet : forall ctx ms ws root seen tab ok tab' evs,
  wr_members ctx root seen false ms ws tab = WRet ok tab' evs -> evs = [].
Proof.
  intros ctx ms. induction ms as [|m ms IH]; intros ws root seen tab ok tab' evs E.
  - destruct ws; [|discriminate]. injection E as _ _ <-. reflexivity.
  - destruct ws as [|w ws]; [discriminate|]. cbn [wr_members] in E.
    destruct (wr_to_write m w) as [[g|]|]; [| |discriminate]; destruct root; eapply IH; exact E.
Qed.

Lemma wsound_members : forall ctx ms vs ws, Forall2 wmsound vs ws -> forall root r tab, good P0 tab ->
  match wr_members ctx root true true ms ws tab with
  | WRet ok tab' evs =>
    (ok = true /\ forallb finite vs = true /\ run (FKey :: r) evs = Some (FKey :: r) /\ good P0 tab')
    \/ run (FKey :: r) evs = None \/ pending (run (FKey :: r) evs)
  | WUndef => True
  end.
Proof.
  intros ctx ms. induction ms as [|m ms IH]; intros vs ws F root r tab G.
  - destruct F; [|exact I]. left. auto.
  - destruct F as [|v w vs ws F Fs]; [exact I|]. cbn [wr_members forallb].
    assert (N : forall tab, good P0 tab ->
      match (match root with O => wr_members ctx O true true ms ws tab | S r => wr_members ctx r true true ms ws tab end) with
      | WRet ok tab' evs =>
        (ok = true /\ forallb finite vs = true /\ run (FKey :: r) evs = Some (FKey :: r) /\ good P0 tab')
        \/ run (FKey :: r) evs = None \/ pending (run (FKey :: r) evs)
      | WUndef => True
      end) by (intros t0 G0; destruct root; apply IH; assumption).
    assert (K : forall g, wsound v g ->
      match (match g (name_segment (list_ascii_of_string (m_name m)) :: ctx) tab with
       | WUndef => WUndef
       | WRet ok tab evs =>
         match (match root with O => wr_members ctx O true ok ms ws tab | S r => wr_members ctx r ok ok ms ws tab end) with
         | WUndef => WUndef
         | WRet ok' tab evs' => WRet ok' tab (EKey (m_name m) :: evs ++ evs')
         end
       end) with
      | WRet ok tab' evs =>
        (ok = true /\ finite v && forallb finite vs = true /\ run (FKey :: r) evs = Some (FKey :: r) /\ good P0 tab')
        \/ run (FKey :: r) evs = None \/ pending (run (FKey :: r) evs)
      | WUndef => True
      end).
    { intros g Sg. specialize (Sg (name_segment (list_ascii_of_string (m_name m)) :: ctx) tab (FVal :: r) _ G eq_refl).
      destruct (g _ tab) as [[|] t1 e1|]; cbn in Sg; [| |exact I].
      - destruct Sg as [(A & R & G1)|R].
        + specialize (N t1 G1). revert N.
          destruct (match root with O => wr_members ctx O true true ms ws t1 | S r => _ end) as [ok t2 e2|]; [|auto].
          cbn [run step]. rewrite run_app, R, A. cbn. auto.
        + destruct (match root with O => wr_members ctx O true true ms ws t1 | S r => _ end) as [ok t2 e2|]; [|exact I].
          right. left. cbn [run step]. rewrite run_app, R. reflexivity.
      - assert (Q : forall ok t2 e2, match root with O => wr_members ctx O true false ms ws t1 | S r => wr_members ctx r false false ms ws t1 end
                      = WRet ok t2 e2 -> e2 = []).
        { intros ok t2 e2 X. destruct root; eapply members_quiet; exact X. }
        destruct (match root with O => wr_members ctx O true false ms ws t1 | S r => _ end) as [ok t2 e2|]; [|exact I].
        rewrite (Q _ _ _ eq_refl), app_nil_r. right. cbn [run step]. exact Sg. }
    unfold wr_to_write. destruct (m_kind m), w as [f| |f]; try exact I; try (exact (K _ (F (m_ty m)))).
    cbn in F. rewrite F. exact (N tab G).
Qed.

Lemma wsound_object : forall ctx c vs ws tab s s', Forall2 wmsound vs ws -> good P0 tab -> after_value s = Some s' ->
  wsays (forallb finite vs) s s' (wr_object ctx c ws tab).
Proof.
  intros ctx c vs ws tab s s' F G A. unfold wr_object. change (forallb finite vs) with (true && forallb finite vs).
  eapply wsays_then; [apply (wsays_emit s (FKey :: s')); [cbn; now rewrite A|exact G]|]. intros t1 G1.
  pose proof (wsound_members ctx (c_members c) vs ws F (c_root c) s' t1 G1) as M.
  destruct (wr_members ctx (c_root c) true true (c_members c) ws t1) as [[|] t2 e2|]; cbn; [| |exact I].
  - rewrite run_app. destruct M as [(_ & B & R & G2)|[R|(p & p' & R & Ap)]]; rewrite R; cbn; auto.
    right. destruct p as [|[] p]; cbn in Ap; try discriminate; reflexivity.
  - destruct M as [(X & _)|M]; [discriminate|exact M].
Qed.

Lemma wsound_scalar : forall t v tab s s', good P0 tab -> after_value s = Some s' ->
  wsays (finite v) s s' (wr_scalar e t v tab).
Proof.
  intros t v tab s s' G A.
  assert (T : forall o, wsays true s s' (text_event tab o)).
  { intros [x|]; [|exact I]. left. cbn. rewrite A. auto. }
  assert (B : forall f, wsays (is_finite f) s s' (if is_finite f then emit [EDbl f] tab else WRet false tab [])).
  { intros f. destruct (is_finite f); [left; cbn; rewrite A; auto|]. right. exists s, s'. auto. }
  destruct t, v; cbn [wr_scalar finite]; try exact I; try (left; cbn; rewrite A; auto; fail); try apply T; try apply B.
  destruct (in_int64 _); [apply T|exact I].
Qed.

Definition wall (v : val) : Prop := forall t, wsound v (wr e v t).
Definition wparts (v : val) : Prop := in_heap H v ->
  wall v /\ match v with VList l => Forall wall l | VSome x => wall x | _ => True end.

Lemma apply_types_Forall2 : forall A B (R : B -> A -> Prop) fs vs ts r, apply_types fs ts = Some r ->
  Forall2 (fun v f => forall t, R v (f t)) vs fs -> Forall2 R vs r.
Proof.
  intros A B R fs. induction fs as [|f fs IH]; intros vs [|t ts] r E F; cbn in E; try discriminate; inversion F; subst.
  - injection E as <-. constructor.
  - destruct (apply_types fs ts) eqn:D; [|discriminate]. injection E as <-.
    constructor; [auto|]. eapply IH; eassumption.
Qed.

Lemma Forall_map_Forall2 : forall A B (R : A -> B -> Prop) (f : A -> B) l, Forall (fun x => R x (f x)) l -> Forall2 R l (map f l).
Proof. intros A B R f l F. induction F; cbn; constructor; assumption. Qed.

Lemma write_finite_parts : forall v, wparts v.
Proof.
  assert (S : forall v t ctx tab s s', good P0 tab -> after_value s = Some s' -> wr e v t ctx tab = wr_scalar e t v tab ->
    wsays (finite v) s s' (wr e v t ctx tab)).
  { intros v t ctx tab s s' G A ->. now apply wsound_scalar. }
  induction v as [| |b|z|f|x|b|z|z|l IH|l IH|i v IH|l IH| |v IH| |v IH|a v IH] using val_ind';
    intros HV; (split; [intros t ctx tab s s' G A|]); try exact I;
    try (destruct t; refine (S _ _ _ _ _ _ G A _); reflexivity);
    try (apply IH; exact HV).
  - (* VList *)
    assert (F : Forall wall l).
    { apply in_heap_list in HV. rewrite Forall_forall in *. intros x Ix. apply (IH x Ix), HV, Ix. }
    assert (FU : forall u, Forall2 wsound l (map (fun f => f u) (map (wr e) l))).
    { intros u. rewrite map_map. apply Forall_map_Forall2. eapply Forall_impl; [|exact F]. intros x X. apply X. }
    assert (FT : Forall2 (fun v f => forall t, wsound v (f t)) l (map (wr e) l)) by (apply Forall_map_Forall2; exact F).
    destruct t; try (refine (S _ _ _ _ _ _ G A _); reflexivity); cbn.
    + destruct (dict_type t) as [w|].
      * destruct (all_some (map (keyed (wr e)) l)) as [fs|] eqn:D; [|exact I].
        assert (K : Forall2 (fun v (p : string * (ty -> wfun)) => forall t, wsound v (snd p t)) l fs).
        { apply in_heap_list in HV. clear F FU FT. revert fs D. induction l as [|x l IHl]; intros fs D; cbn in D.
          - injection D as <-. constructor.
          - destruct (keyed (wr e) x) as [p|] eqn:Kx; [|discriminate].
            destruct (all_some (map (keyed (wr e)) l)) eqn:D2; [|discriminate]. injection D as <-.
            inversion IH as [|? ? Px IHs]; subst. inversion HV as [|? ? Hx HVs]; subst.
            constructor; [|apply IHl; auto]. destruct (Px Hx) as [_ Q].
            destruct x as [| | | | | | | | |xs| | | | | | | |]; try discriminate.
            destruct xs as [|[] [|y [|]]]; try discriminate. injection Kx as <-. cbn.
            inversion Q as [|? ? _ Q']; subst. inversion Q' as [|? ? Qy _]; subst.
            intros t2 ctx2 tab2 s2 s3 G2 A2. specialize (Qy t2 ctx2 tab2 s2 s3 G2 A2). cbn. rewrite andb_true_r. exact Qy. }
        eapply wsound_map; [|exact G|exact A]. clear -K. induction K as [|v p vs ps Kv Ks IH]; cbn [map]; constructor; [exact (Kv w)|exact IH].
      * eapply wsound_array; [apply FU|exact G|exact A].
    + destruct (Nat.eqb n (List.length l)); [|exact I]. eapply wsound_array; [apply FU|exact G|exact A].
    + eapply wsound_array; [apply FU|exact G|exact A].
    + destruct (apply_types (map (wr e) l) [t1; t2]) as [fs|] eqn:D; [|exact I].
      eapply wsound_array; [eapply apply_types_Forall2; eassumption|exact G|exact A].
    + destruct (apply_types (map (wr e) l) ts) as [fs|] eqn:D; [|exact I].
      eapply wsound_array; [eapply apply_types_Forall2; eassumption|exact G|exact A].
  - apply in_heap_list in HV. rewrite Forall_forall in *. intros x Ix. apply (IH x Ix), HV, Ix.
  - (* VMap *)
    destruct t; try (refine (S _ _ _ _ _ _ G A _); reflexivity); cbn.
    rewrite visited_map. destruct (visited e ordered l) as [r|] eqn:D; [|exact I]. cbn.
    apply visited_perm in D; [|exact all].
    assert (X : forallb (fun p => finite (snd p)) l = forallb finite (map snd r)).
    { apply eq_true_iff_eq. rewrite !forallb_forall. split; intros X p Ip.
      - apply in_map_iff in Ip. destruct Ip as (q & <- & Iq). apply X. eapply Permutation_in; eassumption.
      - apply X. apply in_map. eapply Permutation_in; [apply Permutation_sym; exact D|exact Ip]. }
    rewrite X. apply wsound_map; [|exact G|exact A]. rewrite map_map.
    apply in_heap_map in HV. rewrite Forall_forall in IH, HV.
    assert (F : Forall (fun p => wall (snd p)) r).
    { apply Forall_forall. intros p Ip. apply (Permutation_in _ D) in Ip. apply (IH p Ip), HV, Ip. }
    clear -F. induction F as [|p ps Fp Fs IH]; cbn [map]; constructor; [apply Fp|exact IH].
  - (* VVariant *)
    destruct t; try (refine (S _ _ _ _ _ _ G A _); reflexivity); cbn.
    destruct (nth_error ts i); [|exact I]. destruct (IH HV) as [B _]. exact (B _ _ _ _ _ G A).
  - (* VObj *)
    destruct t; try (refine (S _ _ _ _ _ _ G A _); reflexivity).
    refine (wsound_object _ _ l _ _ _ _ _ G A).
    apply Forall_map_Forall2. apply in_heap_list in HV. rewrite Forall_forall in *. intros x Ix.
    destruct (IH x Ix (HV x Ix)) as [B C]. destruct x; try exact B; [reflexivity|exact C].
  - (* VPtr *)
    destruct (IH HV) as [B _].
    destruct t; try (refine (S _ _ _ _ _ _ G A _); reflexivity); cbn; exact (B _ _ _ _ _ G A).
  - (* VShared *)
    destruct t; try (refine (S _ _ _ _ _ _ G A _); reflexivity); cbn. destruct HV as [HV HX].
    destruct (ref_get Nat.eqb tab a) as [segs|] eqn:R.
    + left. split; [rewrite HV; exact (G _ _ R)|]. split; [|exact G]. exact (run_events (ref_json segs) s s' A).
    + destruct (IH HX) as [B _]. specialize (B t ctx tab s s' G A). destruct (wr e v t ctx tab) as [[|] t1 e1|]; cbn in *; [|exact B|exact I].
      rewrite app_nil_r. destruct B as [(Fv & R1 & G1)|R1]; [left|right; exact R1]. split; [exact Fv|]. split; [exact R1|].
      apply good_put; [exact G1|]. unfold P0. rewrite <- HV. exact Fv.
Qed.

(** What success of the writer means. *)
Lemma write_says : forall v t tab evs, in_heap H v -> write_events e t v = WRet true tab evs ->
  (finite v = true /\ well_formed evs) \/ (finite v = false /\ ~ well_formed evs).
Proof.
  intros v t tab evs HV E. destruct (write_finite_parts v HV) as [A _]. unfold write_events in E.
  assert (G : good P0 []) by (intros a s X; discriminate).
  specialize (A t [] [] [FTop] [FDone] G eq_refl). rewrite E in A. destruct A as [(F & R & _)|R]; [left; auto|].
  right. unfold well_formed. rewrite R. split; [|discriminate]. destruct (finite v) eqn:F; [|reflexivity].
  pose proof (writer_agrees e v t (or_intror F) [] []) as W. rewrite E in W. destruct W as (j & _ & ->).
  rewrite (run_events j [FTop] [FDone] eq_refl) in R. discriminate.
Qed.

End Writer.
End Heap.
