(** Serialization to a document: fails exactly on non-finite numbers outside objects, and
    leaves out the members with such a number. *)
From Coq Require Import List Arith ZArith NArith Ascii String Bool Lia Permutation.
From Verif Require Import Base Float DatetimeModel RefsModel Json PathModel Types SerializeModel WriteSpec WriteModel WriteProof FiniteProof.
Import ListNotations.

Section Heap.
Variable H : nat -> val.
Variable e : env.
Hypothesis all : fair e.

Definition Q0 (a : nat) : Prop := finite_outside (H a) = true.

Definition says {A} (b : bool) (r : sres A) : Prop :=
  match r with
  | SOk tab _ => b = true /\ good Q0 tab
  | SFail tab => b = false /\ good Q0 tab
  | SUndef => True
  end.

Definition ssound {A} (v : val) (f : sfun A) : Prop := forall ctx tab, good Q0 tab -> says (finite_outside v) (f ctx tab).

Lemma says_smap : forall A B (f : A -> B) b r, says b r -> says b (smap f r).
Proof. intros A B f b [tab a|tab|] S; exact S. Qed.

Lemma says_bind : forall A B (r : sres A) (f : wtable -> A -> sres B) a b,
  says a r -> (forall tab x, good Q0 tab -> says b (f tab x)) -> says (a && b) (sbind r f).
Proof.
  intros A B [tab x|tab|] f a b S F; cbn in *; try exact I.
  - destruct S as [-> G]. exact (F tab x G).
  - destruct S as [-> G]. split; [reflexivity|exact G].
Qed.

Lemma ssound_seq : forall A at_ vs (fs : list (sfun A)), Forall2 ssound vs fs -> forall k tab, good Q0 tab ->
  says (forallb finite_outside vs) (ser_seq at_ k fs tab).
Proof.
  intros A at_ vs fs F. induction F as [|v f vs fs Fv Fs IH]; intros k tab G; cbn; [split; [reflexivity|exact G]|].
  apply says_bind; [apply Fv, G|]. intros tab' x G'. apply says_smap, IH, G'.
Qed.

Lemma ssound_entries : forall A ctx vs (fs : list (string * sfun A)), Forall2 (fun v f => ssound v (snd f)) vs fs ->
  forall tab, good Q0 tab -> says (forallb finite_outside vs) (ser_entries ctx fs tab).
Proof.
  intros A ctx vs fs F. induction F as [|v [key f] vs fs Fv Fs IH]; intros tab G; cbn; [split; [reflexivity|exact G]|].
  apply says_bind; [apply Fv, G|]. intros tab' x G'. apply says_smap, IH, G'.
Qed.

Definition msound {A} (v : val) (w : mfun A) : Prop :=
  match w with
  | MPlain f | MPresent f => forall t ctx tab, good Q0 tab -> says (written v) (f t ctx tab)
  | MAbsent => written v = false
  end.

Definition kept (ms : list member) (vs : list val) : list string :=
  map fst (filter (fun p => written (snd p)) (combine (map m_name ms) vs)).

Lemma msound_members : forall A ctx ms vs (fs : list (mfun A)), Forall2 msound vs fs -> forall tab, good Q0 tab ->
  match ser_members ctx ms fs tab with
  | SOk tab' o => map fst o = kept ms vs /\ good Q0 tab'
  | SFail _ => False
  | SUndef => True
  end.
Proof.
  intros A ctx ms. induction ms as [|m ms IH]; intros vs fs F tab G.
  - destruct F; cbn; [split; [reflexivity|exact G]|exact I].
  - destruct F as [|v f vs fs Fv Fs]; cbn; [exact I|].
    assert (K : forall g, (forall tab, good Q0 tab -> says (written v) (g (name_segment (list_ascii_of_string (m_name m)) :: ctx) tab)) ->
      match (match g (name_segment (list_ascii_of_string (m_name m)) :: ctx) tab with
             | SUndef => SUndef
             | SFail tab => ser_members ctx ms fs tab
             | SOk tab a => smap (cons (m_name m, a)) (ser_members ctx ms fs tab)
             end) with
      | SOk tab' o => map fst o = kept (m :: ms) (v :: vs) /\ good Q0 tab'
      | SFail _ => False
      | SUndef => True
      end).
    { intros g Sg. specialize (Sg tab G). unfold kept. cbn [map combine filter snd].
      destruct (g _ tab) as [t1 a|t1|]; [| |exact I]; destruct Sg as [-> G1]; specialize (IH vs fs Fs t1 G1).
      - destruct (ser_members ctx ms fs t1) as [t2 o|t2|]; [|contradiction|exact I]. destruct IH as [IH G2].
        split; [cbn; f_equal; exact IH|exact G2].
      - exact IH. }
    unfold to_write. destruct (m_kind m), f as [f| |f]; try exact I; try (apply K; intros; apply Fv; assumption).
    cbn in Fv. specialize (IH vs fs Fs tab G). unfold kept. cbn [map combine filter snd]. rewrite Fv. exact IH.
Qed.

Lemma ssound_scalar : forall t v tab, good Q0 tab -> says (finite_outside v) (ser_scalar e t v tab).
Proof.
  intros t v tab G.
  assert (T : forall o, says true (of_text tab o)) by (intros [s|]; cbn; auto).
  destruct t, v; cbn; try exact I; try (split; [reflexivity|exact G]); try apply T.
  - destruct (is_finite f) eqn:E; cbn; auto.
  - destruct (is_finite f) eqn:E; cbn; auto.
  - destruct (in_int64 _); [apply T|exact I].
Qed.

Definition sall (v : val) : Prop := forall t, ssound v (ser e v t).
Definition sparts (v : val) : Prop := in_heap H v ->
  sall v /\ match v with VList l => Forall sall l | VSome x => sall x | _ => True end.

Lemma kept_object : forall c l ctx tab, in_heap H (VObj l) -> Forall sparts l -> good Q0 tab ->
  match ser e (VObj l) (TClass c) ctx tab with
  | SOk tab' j => (exists o, j = JObj o /\ map fst o = kept (c_members (class_of e c)) l) /\ good Q0 tab'
  | SFail _ => False
  | SUndef => True
  end.
Proof.
  intros c l ctx tab HV F G. cbn.
  assert (M : Forall2 msound l (map (mpart (ser e)) l)).
  { apply Forall_map_Forall2. apply in_heap_list in HV. rewrite Forall_forall in *. intros x Ix.
    destruct (F x Ix (HV x Ix)) as [A B].
    destruct x; try (intros t0 ctx0 tab0; apply A); [reflexivity|intros t0 ctx0 tab0; apply B]. }
  pose proof (msound_members _ ctx (c_members (class_of e c)) l _ M tab G) as K.
  destruct (ser_members _ _ _ _) as [tab' o|tab'|]; [|contradiction|exact I]. cbn. destruct K. eauto.
Qed.

Lemma outside_parts : forall v, sparts v.
Proof.
  assert (S : forall v t ctx tab, good Q0 tab -> ser e v t ctx tab = ser_scalar e t v tab ->
    says (finite_outside v) (ser e v t ctx tab)).
  { intros v t ctx tab G ->. apply ssound_scalar, G. }
  induction v as [| | | | | | | | |l IH|l IH|i v IH|l IH| |v IH| |v IH|a v IH] using val_ind';
    intros HV; (split; [intros t ctx tab G|]); try exact I;
    try (destruct t; refine (S _ _ _ _ G _); reflexivity);
    try (apply IH; exact HV).
  - (* VList *)
    assert (F : Forall sall l).
    { apply in_heap_list in HV. rewrite Forall_forall in *. intros x Ix. apply (IH x Ix), HV, Ix. }
    assert (FU : forall u, Forall2 ssound l (map (fun f => f u) (map (ser e) l))).
    { intros u. rewrite map_map. apply Forall_map_Forall2. eapply Forall_impl; [|exact F]. intros x X. apply X. }
    assert (FT : Forall2 (fun v f => forall t, ssound v (f t)) l (map (ser e) l)) by (apply Forall_map_Forall2; exact F).
    destruct t; try (refine (S _ _ _ _ G _); reflexivity); cbn.
    + destruct (dict_type t) as [w|].
      * destruct (all_some (map (keyed (ser e)) l)) as [fs|] eqn:D; [|exact I].
        assert (K : Forall2 (fun v (p : string * (ty -> sfun json)) => forall t, ssound v (snd p t)) l fs).
        { apply in_heap_list in HV. clear F FU FT. revert fs D. induction l as [|x l IHl]; intros fs D; cbn in D.
          - injection D as <-. constructor.
          - destruct (keyed (ser e) x) as [p|] eqn:Kx; [|discriminate].
            destruct (all_some (map (keyed (ser e)) l)) eqn:D2; [|discriminate]. injection D as <-.
            inversion IH as [|? ? Px IHs]; subst. inversion HV as [|? ? Hx HVs]; subst.
            constructor; [|apply IHl; auto]. destruct (Px Hx) as [_ Q].
            destruct x as [| | | | | | | | |xs| | | | | | | |]; try discriminate.
            destruct xs as [|[] [|y [|]]]; try discriminate. injection Kx as <-. cbn.
            inversion Q as [|? ? _ Q']; subst. inversion Q' as [|? ? Qy _]; subst.
            intros t2 ctx2 tab2 G2. specialize (Qy t2 ctx2 tab2 G2). cbn. rewrite andb_true_r. exact Qy. }
        apply says_smap, ssound_entries; [|exact G].
        clear -K. induction K as [|v p vs ps Kv Ks IH]; cbn [map]; constructor; [exact (Kv w)|exact IH].
      * apply says_smap, ssound_seq; [apply FU|exact G].
    + destruct (Nat.eqb n (List.length l)); [|exact I]. apply says_smap, ssound_seq; [apply FU|exact G].
    + apply says_smap, ssound_seq; [apply FU|exact G].
    + change (says (forallb finite_outside l) (match apply_types (map (ser e) l) [t1; t2] with
        | Some fs => smap JArr (ser_seq (at_index ctx) 0 fs tab) | None => SUndef end)).
      destruct (apply_types (map (ser e) l) [t1; t2]) as [fs|] eqn:D; [|exact I].
      apply says_smap, ssound_seq; [eapply apply_types_Forall2; eassumption|exact G].
    + destruct (apply_types (map (ser e) l) ts) as [fs|] eqn:D; [|exact I].
      apply says_smap, ssound_seq; [eapply apply_types_Forall2; eassumption|exact G].
  - apply in_heap_list in HV. rewrite Forall_forall in *. intros x Ix. apply (IH x Ix), HV, Ix.
  - (* VMap *)
    destruct t; try (refine (S _ _ _ _ G _); reflexivity); cbn.
    rewrite visited_map. destruct (visited e ordered l) as [r|] eqn:D; [|exact I]. cbn.
    apply visited_perm in D; [|exact all]. apply says_smap.
    assert (X : forallb (fun p => finite_outside (snd p)) l = forallb finite_outside (map snd r)).
    { apply eq_true_iff_eq. rewrite !forallb_forall. split; intros X p Ip.
      - apply in_map_iff in Ip. destruct Ip as (q & <- & Iq). apply X. eapply Permutation_in; eassumption.
      - apply X. apply in_map. eapply Permutation_in; [apply Permutation_sym; exact D|exact Ip]. }
    rewrite X. apply ssound_entries; [|exact G]. rewrite map_map.
    apply in_heap_map in HV. rewrite Forall_forall in IH, HV.
    assert (F : Forall (fun p => sall (snd p)) r).
    { apply Forall_forall. intros p Ip. apply (Permutation_in _ D) in Ip. apply (IH p Ip), HV, Ip. }
    clear -F. induction F as [|p ps Fp Fs IH]; cbn [map]; constructor; [apply Fp|exact IH].
  - (* VVariant *)
    destruct t; try (refine (S _ _ _ _ G _); reflexivity); cbn.
    destruct (nth_error ts i); [|exact I]. destruct (IH HV) as [A _]. exact (A _ _ _ G).
  - (* VObj *)
    destruct t; try (refine (S _ _ _ _ G _); reflexivity).
    pose proof (kept_object c l ctx tab HV IH G) as K. revert K.
    destruct (ser e (VObj l) (TClass c) ctx tab); cbn; intros K; [|contradiction|exact I]. split; [reflexivity|apply K].
  - (* VPtr *)
    destruct (IH HV) as [A _].
    destruct t; try (refine (S _ _ _ _ G _); reflexivity); cbn; exact (A _ _ _ G).
  - (* VShared *)
    destruct t; try (refine (S _ _ _ _ G _); reflexivity); cbn. destruct HV as [HV HX].
    destruct (ref_get Nat.eqb tab a) as [segs|] eqn:R.
    + cbn. split; [|exact G]. rewrite HV. exact (G _ _ R).
    + destruct (IH HX) as [A _]. specialize (A t ctx tab G). destruct (ser e v t ctx tab) as [t1 j|t1|]; cbn in *; [|exact A|exact I].
      destruct A as [A G1]. split; [exact A|]. apply good_put; [exact G1|]. unfold Q0. rewrite <- HV. exact A.
Qed.

Lemma outside_says : forall v t, in_heap H v -> says (finite_outside v) (serialize_to_document e t v).
Proof. intros v t HV. apply (proj1 (outside_parts v HV)). intros a s X. discriminate. Qed.

Lemma members_kept : forall c l ctx tab tab' j, in_heap H (VObj l) -> good Q0 tab ->
  ser e (VObj l) (TClass c) ctx tab = SOk tab' j ->
  exists o, j = JObj o /\ map fst o = kept (c_members (class_of e c)) l.
Proof.
  intros c l ctx tab tab' j HV G E. pose proof (kept_object c l ctx tab HV) as K. rewrite E in K. apply K; [|exact G].
  apply Forall_forall. intros x _. apply outside_parts.
Qed.
End Heap.
