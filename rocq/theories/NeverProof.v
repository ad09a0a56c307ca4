(** Values with finite numbers only never make the writer fail. *)
From Coq Require Import List Arith ZArith NArith Ascii String Bool Lia Permutation.
From Verif Require Import Base Float Base64Model DatetimeModel EnumModel RefsModel RefsProof Json PathModel Types
  SerializeModel Events WriteModel WriteSpec.
Import ListNotations.

Lemma wthen_true : forall x f tab evs, wthen x f = WRet true tab evs ->
  exists tab1 evs1 evs2, x = WRet true tab1 evs1 /\ f tab1 = WRet true tab evs2 /\ evs = evs1 ++ evs2.
Proof.
  intros [[|] tab1 evs1|] f tab evs H; cbn in H; try discriminate.
  destruct (f tab1) as [ok tab2 evs2|] eqn:E; [|discriminate]. injection H as -> -> <-. eauto 6.
Qed.

Lemma wthen_false : forall x f tab evs, wthen x f = WRet false tab evs ->
  x = WRet false tab evs \/ exists tab1 evs1 evs2, x = WRet true tab1 evs1 /\ f tab1 = WRet false tab evs2.
Proof.
  intros [[|] tab1 evs1|] f tab evs H; cbn in H; try discriminate.
  - destruct (f tab1) as [ok tab2 evs2|] eqn:E; [|discriminate]. injection H as -> -> <-. right. eauto 6.
  - now left.
Qed.

(** A writer that never gives false. *)
Definition never_false (w : wfun) : Prop := forall ctx tab tab' evs, w ctx tab <> WRet false tab' evs.

Lemma never_false_seq : forall at_ ws, Forall never_false ws -> forall k tab tab' evs,
  wr_seq at_ k ws tab <> WRet false tab' evs.
Proof.
  intros at_ ws H. induction H as [|w ws H Hs IH]; intros k tab tab' evs E; cbn in E; [discriminate|].
  apply wthen_false in E. destruct E as [E|(tab1 & evs1 & evs2 & _ & E)]; [exact (H _ _ _ _ E)|exact (IH _ _ _ _ E)].
Qed.

Lemma never_false_array : forall at_ ws, Forall never_false ws -> forall tab tab' evs,
  wr_array at_ ws tab <> WRet false tab' evs.
Proof.
  intros at_ ws H tab tab' evs E. unfold wr_array in E.
  apply wthen_false in E. destruct E as [E|(t1 & e1 & e2 & _ & E)]; [discriminate|].
  apply wthen_false in E. destruct E as [E|(t3 & e3 & e4 & _ & E)]; [|discriminate].
  exact (never_false_seq _ _ H _ _ _ _ E).
Qed.

Lemma never_false_entries : forall ctx ws, Forall (fun p => never_false (snd p)) ws -> forall tab tab' evs,
  wr_entries ctx ws tab <> WRet false tab' evs.
Proof.
  intros ctx ws H. induction H as [|[k w] ws H Hs IH]; intros tab tab' evs E; cbn in E; [discriminate|].
  change (wthen (emit [EKey k] tab) (fun tab => wthen (w (name_segment (list_ascii_of_string k) :: ctx) tab) (wr_entries ctx ws))
    = WRet false tab' evs) in E.
  apply wthen_false in E. destruct E as [E|(t1 & e1 & e2 & _ & E)]; [discriminate|].
  apply wthen_false in E. destruct E as [E|(t3 & e3 & e4 & _ & E)]; [exact (H _ _ _ _ E)|exact (IH _ _ _ E)].
Qed.

Lemma never_false_map : forall ctx ws, Forall (fun p => never_false (snd p)) ws -> forall tab tab' evs,
  wr_map ctx ws tab <> WRet false tab' evs.
Proof.
  intros ctx ws H tab tab' evs E. unfold wr_map in E.
  apply wthen_false in E. destruct E as [E|(t1 & e1 & e2 & _ & E)]; [discriminate|].
  apply wthen_false in E. destruct E as [E|(t3 & e3 & e4 & _ & E)]; [|discriminate].
  exact (never_false_entries _ _ H _ _ _ E).
Qed.

Definition mnever_false (w : wmfun) : Prop :=
  match w with WPlain f | WPresent f => forall t, never_false (f t) | WAbsent => True end.

Lemma never_false_members : forall ctx ms ws, Forall mnever_false ws -> forall root tab tab' evs,
  wr_members ctx root true true ms ws tab <> WRet false tab' evs.
Proof.
  intros ctx ms. induction ms as [|m ms IH]; intros ws H root tab tab' evs E.
  - destruct ws; discriminate.
  - destruct H as [|w ws H Hs]; [discriminate|]. cbn [wr_members] in E.
    assert (N : forall tab tab' evs, match root with
                | 0 => wr_members ctx 0 true true ms ws tab
                | S r => wr_members ctx r true true ms ws tab end <> WRet false tab' evs)
      by (intros; destruct root; apply IH; exact Hs).
    assert (W : match wr_to_write m w with Some (Some g) => never_false g | _ => True end).
    { unfold wr_to_write. destruct (m_kind m), w; try exact I; apply H. }
    destruct (wr_to_write m w) as [[g|]|]; [| |discriminate].
    + destruct (g _ tab) as [[|] tab1 evs1|] eqn:G; [| |discriminate].
      * destruct (match root with 0 => _ | S r => _ end) as [[|] tab2 evs2|] eqn:R; try discriminate.
        exact (N _ _ _ R).
      * exact (W _ _ _ _ G).
    + exact (N _ _ _ E).
Qed.

Lemma never_false_object : forall ctx c ws, Forall mnever_false ws -> forall tab tab' evs,
  wr_object ctx c ws tab <> WRet false tab' evs.
Proof.
  intros ctx c ws H tab tab' evs E. unfold wr_object in E.
  apply wthen_false in E. destruct E as [E|(t1 & e1 & e2 & _ & E)]; [discriminate|].
  apply wthen_false in E. destruct E as [E|(t3 & e3 & e4 & _ & E)]; [|discriminate].
  exact (never_false_members _ _ _ H _ _ _ _ E).
Qed.

Lemma scalar_finite : forall e t v tab tab' evs, finite v = true -> wr_scalar e t v tab <> WRet false tab' evs.
Proof.
  intros e t v tab tab' evs F E.
  assert (T : forall o, text_event tab o <> WRet false tab' evs) by (intros [s|] X; discriminate).
  destruct t, v; cbn in *; try discriminate; try (apply (T _ E)).
  - rewrite F in E. discriminate.
  - rewrite F in E. discriminate.
  - destruct (in_int64 _) in E; [exact (T _ E)|discriminate].
Qed.

Lemma all_some_Forall : forall A (P : A -> Prop) l r, all_some l = Some r ->
  Forall (fun o => match o with Some a => P a | None => True end) l -> Forall P r.
Proof.
  intros A P l. induction l as [|[a|] l IH]; intros r E F; cbn in E; [injection E as <-; constructor| |discriminate].
  destruct (all_some l) eqn:D; [|discriminate]. injection E as <-. inversion F; subst. constructor; [assumption|].
  apply IH; [reflexivity|assumption].
Qed.

Lemma apply_types_Forall : forall A (P : A -> Prop) fs ts r, apply_types fs ts = Some r ->
  Forall (fun f => forall t, P (f t)) fs -> Forall P r.
Proof.
  intros A P fs. induction fs as [|f fs IH]; intros [|t ts] r E F; cbn in E; try discriminate.
  - injection E as <-. constructor.
  - destruct (apply_types fs ts) eqn:D; [|discriminate]. injection E as <-. inversion F; subst.
    constructor; [auto|]. eapply IH; eassumption.
Qed.

Lemma visited_Forall : forall A (P : string * A -> Prop) e o l r, visited e o l = Some r -> Forall P l -> Forall P r.
Proof.
  intros A P e o l r E F. unfold visited in E. destruct o; [injection E as <-; exact F|].
  eapply all_some_Forall; [exact E|]. apply Forall_forall. intros x I. apply in_map_iff in I. destruct I as (i & <- & _).
  destruct (nth_error l i) eqn:D; [|exact I]. apply nth_error_In in D. rewrite Forall_forall in F. auto.
Qed.

Lemma forallb_Forall_imp : forall A (f : A -> bool) (P Q : A -> Prop) l, forallb f l = true ->
  Forall P l -> (forall x, f x = true -> P x -> Q x) -> Forall Q l.
Proof.
  intros A f P Q l B F H. rewrite forallb_forall in B. rewrite Forall_forall in *. intros x I. auto.
Qed.

(** The part treated apart of an optional and of a pair. *)
Definition pnever (e : env) (v : val) : Prop :=
  finite v = true ->
  (forall t, never_false (wr e v t)) /\
  match v with VList l => Forall (fun x => forall t, never_false (wr e x t)) l
             | VSome x => forall t, never_false (wr e x t) | _ => True end.

Lemma finite_writes : forall e v, pnever e v.
Proof.
  intros e.
  assert (S : forall v t ctx tab tab' evs, finite v = true -> wr e v t ctx tab = wr_scalar e t v tab ->
    wr e v t ctx tab <> WRet false tab' evs).
  { intros v t ctx tab tab' evs F ->. apply scalar_finite, F. }
  induction v as [| | | | | | | | |l IH|l IH|i v IH|l IH| |v IH| |v IH|a v IH] using val_ind';
    intros F; (split; [intros t ctx tab tab' evs|]); try (destruct t; refine (S _ _ _ _ _ _ F _); reflexivity); try exact I;
    try (apply IH; exact F).
  - (* VList *)
    assert (G : Forall (fun x => forall t, never_false (wr e x t)) l).
    { eapply forallb_Forall_imp; [exact F|exact IH|]. intros x Fx Px. apply (Px Fx). }
    assert (GU : forall u, Forall never_false (map (fun f => f u) (map (wr e) l))).
    { intros u. rewrite map_map. apply Forall_map. eapply Forall_impl; [|exact G]. intros x H. apply H. }
    assert (GT : Forall (fun f => forall t, never_false (f t)) (map (wr e) l)) by (apply Forall_map; exact G).
    destruct t; try (refine (S _ _ _ _ _ _ F _); reflexivity); cbn.
    + destruct (dict_type t) as [w|].
      * destruct (all_some (map (keyed (wr e)) l)) as [fs|] eqn:D; [|discriminate].
        apply never_false_map. apply Forall_map.
        eapply (all_some_Forall _ (fun p => never_false (snd p w))) in D; [exact D|].
        apply Forall_map. eapply forallb_Forall_imp; [exact F|exact IH|]. intros x Fx Px. destruct (Px Fx) as [_ Q].
        destruct x as [| | | | | | | | |l0| | | | | | | |]; try exact I.
        destruct l0 as [|[] [|y [|]]]; try exact I. cbn. inversion Q; subst. inversion H2; subst. apply H3.
      * apply never_false_array, GU.
    + destruct (Nat.eqb n (List.length l)); [apply never_false_array, GU|discriminate].
    + apply never_false_array, GU.
    + destruct (apply_types (map (wr e) l) [t1; t2]) as [fs|] eqn:D; [|discriminate].
      apply never_false_array. eapply apply_types_Forall; eassumption.
    + destruct (apply_types (map (wr e) l) ts) as [fs|] eqn:D; [|discriminate].
      apply never_false_array. eapply apply_types_Forall; eassumption.
  - eapply forallb_Forall_imp; [exact F|exact IH|]. intros x Fx Px. apply (Px Fx).
  - (* VMap *)
    destruct t; try (refine (S _ _ _ _ _ _ F _); reflexivity); cbn.
    destruct (visited e ordered (map (fun p => (fst p, wr e (snd p))) l)) as [fs|] eqn:D; [|discriminate].
    apply never_false_map. apply Forall_map.
    eapply (visited_Forall _ (fun p => never_false (snd p t))) in D; [exact D|].
    apply Forall_map. eapply forallb_Forall_imp; [exact F|exact IH|]. intros x Fx Px. apply (Px Fx).
  - (* VVariant *)
    destruct t; try (refine (S _ _ _ _ _ _ F _); reflexivity); cbn.
    destruct (nth_error ts i); [apply IH; exact F|discriminate].
  - (* VObj *)
    destruct t; try (refine (S _ _ _ _ _ _ F _); reflexivity); cbn.
    apply never_false_object. apply Forall_map. eapply forallb_Forall_imp; [exact F|exact IH|]. intros x Fx Px.
    destruct (Px Fx) as [A B]. destruct x; try exact A; [exact I|exact B].
  - (* VPtr *)
    destruct t; try (refine (S _ _ _ _ _ _ F _); reflexivity); cbn; apply IH; exact F.
  - (* VShared *)
    destruct t; try (refine (S _ _ _ _ _ _ F _); reflexivity); cbn.
    destruct (ref_get Nat.eqb tab a) as [segs|]; [discriminate|]. intros E. apply wthen_false in E.
    destruct E as [E|(t1 & e1 & e2 & _ & E)]; [|discriminate]. destruct (IH F) as [H _]. exact (H _ _ _ _ _ E).
Qed.

(** Only the members visited by the original archive count. *)
Lemma derived_ignored : forall ctx ms ws flag tab ok tab' evs,
  wr_members ctx 0 true flag ms ws tab = WRet ok tab' evs -> ok = true.
Proof.
  intros ctx ms. induction ms as [|m ms IH]; intros ws flag tab ok tab' evs E.
  - destruct ws; [|discriminate]. injection E as <- _ _. reflexivity.
  - destruct ws as [|w ws]; [discriminate|]. cbn [wr_members] in E.
    destruct (wr_to_write m w) as [[g|]|]; [| |discriminate].
    + destruct flag.
      * destruct (g _ tab) as [b t1 e1|]; [|discriminate].
        destruct (wr_members ctx 0 true b ms ws t1) as [b2 t2 e2|] eqn:D; [|discriminate].
        injection E as -> _ _. eapply IH; exact D.
      * eapply IH; exact E.
    + eapply IH; exact E.
Qed.

Lemma root_members : forall ctx ms ws root tab tab' evs, Forall mnever_false (firstn root ws) ->
  wr_members ctx root true true ms ws tab <> WRet false tab' evs.
Proof.
  intros ctx ms. induction ms as [|m ms IH]; intros ws root tab tab' evs H E.
  - destruct ws; discriminate.
  - destruct root as [|root]; [apply derived_ignored in E; discriminate|].
    destruct ws as [|w ws]; [discriminate|]. cbn [firstn] in H. inversion H as [|? ? Hw Hs]; subst. cbn [wr_members] in E.
    assert (W : match wr_to_write m w with Some (Some g) => never_false g | _ => True end).
    { unfold wr_to_write. destruct (m_kind m), w; try exact I; apply Hw. }
    destruct (wr_to_write m w) as [[g|]|]; [| |discriminate].
    + destruct (g _ tab) as [[|] tab1 evs1|] eqn:G; [| |discriminate].
      * destruct (wr_members ctx root true true ms ws tab1) as [[|] tab2 evs2|] eqn:R; try discriminate.
        exact (IH _ _ _ _ _ Hs R).
      * exact (W _ _ _ _ G).
    + exact (IH _ _ _ _ _ Hs E).
Qed.

Lemma finite_mnever : forall e x, finite x = true -> mnever_false (wmpart (wr e) x).
Proof.
  intros e x F. destruct (finite_writes e x F) as [A B]. destruct x; try exact A; [exact I|exact B].
Qed.

Lemma root_object : forall e c l ctx tab tab' evs,
  forallb finite (firstn (c_root (class_of e c)) l) = true -> wr e (VObj l) (TClass c) ctx tab <> WRet false tab' evs.
Proof.
  intros e c l ctx tab tab' evs F E.
  change (wr_object ctx (class_of e c) (map (wmpart (wr e)) l) tab = WRet false tab' evs) in E. unfold wr_object in E.
  apply wthen_false in E. destruct E as [E|(t1 & e1 & e2 & _ & E)]; [discriminate|].
  apply wthen_false in E. destruct E as [E|(t3 & e3 & e4 & _ & E)]; [|discriminate].
  refine (root_members _ _ _ _ _ _ _ _ E). rewrite firstn_map. apply Forall_map. apply Forall_forall.
  intros x I. apply finite_mnever. rewrite forallb_forall in F. auto.
Qed.
