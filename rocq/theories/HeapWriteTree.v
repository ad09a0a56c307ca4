(** Writing of objects that contain finitely much: the writers on a heap and on trees. *)
From Coq Require Import List Arith ZArith NArith Ascii String Bool Lia Permutation Sorted.
From Verif Require Import Base Json Types DenoteSpec RoundSpec DocSpec GraphSpec RefsModel PathModel MergeFacts WriteSpec FiniteProof RefsProof SerializeModel Events WriteModel
  HeapModel HeapSpec HeapProof HeapWriteModel.
Import ListNotations.

Section Written.
Variable e : env.
Variable h : heap.

Definition alike (f : hwfun) (g : wfun) : Prop := forall ctx tab, f ctx tab = HWDone (g ctx tab).

Lemma then_alike : forall x y f g, x = HWDone y -> (forall tab, f tab = HWDone (g tab)) -> hwthen x f = HWDone (wthen y g).
Proof. intros x y f g -> H. destruct y as [[|] tab evs|]; cbn; try reflexivity. rewrite H. now destruct (g tab). Qed.

Lemma seq_alike : forall fs gs at_ k tab, Forall2 alike fs gs -> hw_seq at_ k fs tab = HWDone (wr_seq at_ k gs tab).
Proof. intros fs gs at_ k tab F. revert k tab. induction F as [|f g fs gs E F IH]; intros k tab; cbn; [reflexivity|]. apply then_alike; [apply E|]. intros tab'. apply IH. Qed.

Lemma array_alike : forall fs gs at_ tab, Forall2 alike fs gs -> hw_array at_ fs tab = HWDone (wr_array at_ gs tab).
Proof. intros fs gs at_ tab F. unfold hw_array, hemit. apply then_alike; [reflexivity|]. intros tab'. apply then_alike; [now apply seq_alike|reflexivity]. Qed.

Lemma entries_alike : forall fs gs ctx tab, Forall2 (fun p q => fst p = fst q /\ alike (snd p) (snd q)) fs gs -> hw_entries ctx fs tab = HWDone (wr_entries ctx gs tab).
Proof.
  intros fs gs ctx tab F. revert tab. induction F as [|[k f] [k' g] fs gs [E1 E2] F IH]; intros tab; cbn -[hwthen wthen] in *; [reflexivity|]. subst k'.
  apply then_alike; [reflexivity|]. intros tab'. apply then_alike; [apply E2|exact IH].
Qed.

Lemma map_alike : forall fs gs ctx tab, Forall2 (fun p q => fst p = fst q /\ alike (snd p) (snd q)) fs gs -> hw_map ctx fs tab = HWDone (wr_map ctx gs tab).
Proof. intros fs gs ctx tab F. unfold hw_map, hemit. apply then_alike; [reflexivity|]. intros tab'. apply then_alike; [now apply entries_alike|reflexivity]. Qed.

Definition same_at (v : val) : Prop := forall x t n, tree h x v -> kinds e h t x -> height v <= n -> alike (hwr e h n x t) (wr e v t).

Lemma items_alike : forall l m u n, Forall2 (tree h) l m -> Forall same_at m -> (forall y, In y l -> kinds e h u y) -> list_max (map height m) <= n ->
  Forall2 alike (map (fun y => hwr e h n y u) l) (map (fun f => f u) (map (wr e) m)).
Proof.
  intros l m u n F Q K M. rewrite map_map. eapply forall2_map; [exact F|]. intros x y Ix Iy T. rewrite Forall_forall in Q. eapply Q; eauto. eapply max_at; eauto.
Qed.

Lemma zip_alike : forall l m, Forall2 (tree h) l m -> forall ts n, Forall same_at m -> (forall i u y, nth_error ts i = Some u -> nth_error l i = Some y -> kinds e h u y) ->
  list_max (map height m) <= n ->
  match h_zip (hwr e h n) l ts, apply_types (map (wr e) m) ts with
  | Some fs, Some gs => Forall2 alike fs gs
  | None, None => True
  | _, _ => False
  end.
Proof.
  intros l m F. induction F as [|x y l m T F IH]; intros [|t ts] n Q K M; cbn; try exact I; [constructor|]. inversion Q; subst.
  cbn [map list_max fold_right] in M. assert (height y <= n /\ list_max (map height m) <= n) as [M1 M2] by (unfold list_max in *; lia).
  specialize (IH ts n). cbn in IH. destruct (h_zip (hwr e h n) l ts), (apply_types (map (wr e) m) ts); try (apply IH; auto; intros i; exact (K (S i))).
  constructor; [|apply IH; auto; intros i; exact (K (S i))]. eapply H1; eauto. exact (K 0 t x eq_refl eq_refl).
Qed.

Lemma members_alike : forall l m, Forall2 (tree h) l m -> forall ms n ctx root seen flag tab, Forall same_at m -> Forall (fun v => Forall same_at (children v)) m ->
  (forall i b y, nth_error ms i = Some b -> nth_error l i = Some y -> m_kind b <> MOptional -> kinds e h (m_ty b) y) ->
  (forall i b y, nth_error ms i = Some b -> nth_error l i = Some (HSome y) -> m_kind b = MOptional -> kinds e h (m_ty b) y) ->
  list_max (map height m) <= n ->
  hw_members (hwr e h n) ctx root seen flag ms l tab = HWDone (wr_members ctx root seen flag ms (map (wmpart (wr e)) m) tab).
Proof.
  intros l m F. induction F as [|x v l m T F IH]; intros [|b ms] n ctx root seen flag tab Q C K K' M; cbn; try reflexivity. inversion Q as [|? ? Qv Ql]; subst. inversion C as [|? ? Cv Cl]; subst.
  cbn [map list_max fold_right] in M. assert (height v <= n /\ list_max (map height m) <= n) as [M1 M2] by (unfold list_max in *; lia).
  assert (Next : forall flag tab,
    match root with O => hw_members (hwr e h n) ctx O seen flag ms l tab | S r => hw_members (hwr e h n) ctx r flag flag ms l tab end =
    HWDone match root with O => wr_members ctx O seen flag ms (map (wmpart (wr e)) m) tab | S r => wr_members ctx r flag flag ms (map (wmpart (wr e)) m) tab end).
  { intros flag' tab'. destruct root; apply IH; auto; intros i; first [exact (K (S i))|exact (K' (S i))]. }
  assert (Go : forall g s, alike g s ->
    (if flag then
       match g (name_segment (list_ascii_of_string (m_name b)) :: ctx) tab with
       | HWOverflow => HWOverflow
       | HWDone WUndef => HWDone WUndef
       | HWDone (WRet ok tab0 evs) =>
         match match root with O => hw_members (hwr e h n) ctx O seen ok ms l tab0 | S r => hw_members (hwr e h n) ctx r ok ok ms l tab0 end with
         | HWOverflow => HWOverflow
         | HWDone WUndef => HWDone WUndef
         | HWDone (WRet ok' tab1 evs') => HWDone (WRet ok' tab1 (EKey (m_name b) :: evs ++ evs'))
         end
       end
     else match root with O => hw_members (hwr e h n) ctx O seen flag ms l tab | S r => hw_members (hwr e h n) ctx r flag flag ms l tab end) =
    HWDone (if flag then
       match s (name_segment (list_ascii_of_string (m_name b)) :: ctx) tab with
       | WUndef => WUndef
       | WRet ok tab0 evs =>
         match match root with O => wr_members ctx O seen ok ms (map (wmpart (wr e)) m) tab0 | S r => wr_members ctx r ok ok ms (map (wmpart (wr e)) m) tab0 end with
         | WUndef => WUndef
         | WRet ok' tab1 evs' => WRet ok' tab1 (EKey (m_name b) :: evs ++ evs')
         end
       end
     else match root with O => wr_members ctx O seen flag ms (map (wmpart (wr e)) m) tab | S r => wr_members ctx r flag flag ms (map (wmpart (wr e)) m) tab end)).
  { intros g s A. rewrite !Next. destruct flag; [|reflexivity]. rewrite A. destruct (s _ tab) as [ok tab0 evs|]; [|reflexivity]. rewrite Next. now destruct (match root with O => _ | S _ => _ end). }
  unfold hw_member, wr_to_write, wmpart. specialize (K 0 b). specialize (K' 0 b). cbn [nth_error] in K, K'. destruct (m_kind b) eqn:Kb.
  - inversion T as [? E| | | | | | | | | |]; subst; try reflexivity; try (destruct E as [E|E]; [destruct v; try discriminate E|subst v]);
      apply Go; apply Qv; auto; apply K; congruence.
  - inversion T as [? E| | | | | | | | | |]; subst; try reflexivity; try (destruct E as [E|E]; [destruct v; try discriminate E|subst v]);
      apply Go; apply Qv; auto; apply K; congruence.
  - inversion T; subst; try reflexivity; try apply Next.
    + match goal with E : scalar_value _ = true \/ _ |- _ => destruct E as [E|E]; [destruct v; try discriminate E|subst v]; reflexivity end.
    + apply Go. cbn [children] in Cv. inversion Cv; subst. match goal with A : same_at _ |- _ => apply A end; auto. cbn in M1. lia.
Qed.

Lemma keyed_alike : forall w l m n, Forall2 (tree h) l m -> Forall (fun v => Forall same_at (children v)) m ->
  (forall i u y z, In y l -> nth_error [TString; w] i = Some u -> nth_error (match y with HList k => k | _ => [] end) i = Some z -> kinds e h u z) -> list_max (map height m) <= n ->
  match all_some (map h_keyed l), all_some (map (keyed (wr e)) m) with
  | Some ps, Some qs => Forall2 (fun p q => fst p = fst q /\ alike (snd p) (snd q)) (map (fun p => (fst p, hwr e h n (snd p) w)) ps) (map (fun p => (fst p, snd p w)) qs)
  | None, None => True
  | _, _ => False
  end.
Proof.
  intros w l m n F. induction F as [|x v l m T F IH]; intros C K M; cbn; [constructor|]. inversion C as [|? ? Cv Cl]; subst.
  cbn [map list_max fold_right] in M. assert (height v <= n /\ list_max (map height m) <= n) as [M1 M2] by (unfold list_max in *; lia).
  specialize (IH Cl (fun i u y z I => K i u y z (or_intror I)) M2).
  assert (E : match h_keyed x, keyed (wr e) v with
    | Some p, Some q => fst p = fst q /\ alike (hwr e h n (snd p) w) (snd q w)
    | None, None => True
    | _, _ => False
    end).
  { inversion T as [? E| ? k Fk| | | | | | | | |]; subst; cbn; try exact I; [destruct E as [E|E]; [destruct v; try discriminate E; exact I|subst; exact I]|].
    destruct Fk as [|x1 v1 ? ? T1 Fk]; [exact I|]. destruct Fk as [|x2 v2 ? ? T2 Fk].
    - destruct x1 as [[]| | | | | | | | | |]; inversion T1; subst; exact I.
    - destruct Fk as [|x3 v3 ? ? T3 Fk].
      + inversion T1 as [s E1| | | | | | | | | |]; subst; try exact I. destruct v1; try exact I. cbn. split; [reflexivity|].
        cbn [children] in Cv. inversion Cv as [|? ? _ Cv1]; subst. inversion Cv1; subst. match goal with A : same_at v2 |- _ => apply A end; [exact T2| |cbn [height map list_max fold_right] in M1; lia].
        exact (K 1 w _ x2 (or_introl eq_refl) eq_refl eq_refl).
      + inversion T1 as [s E1| | | | | | | | | |]; subst; try exact I. destruct v1; exact I. }
  destruct (h_keyed x) as [p|], (keyed (wr e) v) as [q|]; try contradiction; [|exact I].
  destruct (all_some (map h_keyed l)), (all_some (map (keyed (wr e)) m)); try contradiction; [|exact I]. constructor; [exact E|exact IH].
Qed.

Lemma visited_alike : forall o (l : list (string * hval)) m, Forall2 (fun p q => fst p = fst q /\ tree h (snd p) (snd q)) l m ->
  match visited e o l, visited e o (map (fun p => (fst p, wr e (snd p))) m) with
  | Some ps, Some qs => exists qs', qs = map (fun p => (fst p, wr e (snd p))) qs' /\ Forall2 (fun p q => fst p = fst q /\ tree h (snd p) (snd q) /\ In p l /\ In q m) ps qs'
  | None, None => True
  | _, _ => False
  end.
Proof.
  intros o l m F. unfold visited. destruct o.
  - exists m. split; [reflexivity|]. induction F as [|p q l m E F IH]; constructor; [cbn; tauto|]. eapply forall2_weaken; [|exact IH]. cbn. tauto.
  - assert (Ks : map fst (map (fun p : string * val => (fst p, wr e (snd p))) m) = map fst l).
    { rewrite map_map. cbn. clear -F. induction F as [|p q l m [E _] F IH]; cbn; [reflexivity|]. now rewrite IH, E. }
    rewrite Ks. assert (At : forall i, match nth_error l i, nth_error m i with Some p, Some q => fst p = fst q /\ tree h (snd p) (snd q) | None, None => True | _, _ => False end).
    { clear -F. induction F as [|p q l m E F IH]; intros [|i]; cbn; try exact I; [exact E|apply IH]. }
    induction (iteration e (map fst l)) as [|i is IH]; cbn; [exists []; split; [reflexivity|constructor]|].
    rewrite nth_error_map. specialize (At i). destruct (nth_error l i) as [p|] eqn:N1, (nth_error m i) as [q|] eqn:N2; try contradiction; cbn [option_map]; [|exact I].
    destruct (all_some (map (nth_error l) is)), (all_some (map (nth_error (map _ m)) is)); try contradiction; [|exact I].
    destruct IH as (qs' & -> & Q). exists (q :: qs'). split; [reflexivity|]. constructor; [|exact Q]. split; [apply At|]. split; [apply At|]. split; eapply nth_error_In; eauto.
Qed.

Lemma tree_same : forall v, same_at v /\ Forall same_at (children v).
Proof.
  intros v. assert (Both : forall l, Forall (fun v => same_at v /\ Forall same_at (children v)) l -> Forall same_at l /\ Forall (fun v => Forall same_at (children v)) l)
    by (intros l F; split; (eapply Forall_impl; [|exact F]); intros ? [? ?]; assumption).
  induction v as [| |b|z|f|s|b|z|z|l IH|l IH|i v IH|l IH| |v IH| |v IH|a v IH] using val_ind'; (split; [|try constructor; try exact (proj1 (Both _ IH)); try apply IH; try constructor]);
    intros x t n T K M ctx tab; (destruct n as [|n]; [exfalso; cbn in M; lia|]).
  1-9: inversion T; subst; destruct t; reflexivity.
  - destruct (Both _ IH) as [Q C]. cbn [height] in M. apply le_S_n in M. inversion T as [? E|l' ? F| | | | | | | | |]; subst; [destruct E; discriminate|].
    destruct t; try reflexivity; cbn [hwr wr].
    + destruct (dict_type t) as [w|] eqn:D.
      * assert (t = TPair TString w) by (destruct t; try discriminate; destruct t1; try discriminate; now injection D as ->). subst t.
        pose proof (keyed_alike w l' l n F C) as G. destruct (all_some (map h_keyed l')), (all_some (map (keyed (wr e)) l)).
        { apply map_alike. apply G; [|exact M]. intros i u y z I Ni Nz. destruct y; try (destruct i; discriminate Nz).
          eapply kinds_part; [eapply kinds_part; [exact K|eapply hpart_vector; exact I]|]. eapply hpart_pair; eauto. }
        { exfalso. apply G; [|exact M]. intros i u y z I Ni Nz. destruct y; try (destruct i; discriminate Nz).
          eapply kinds_part; [eapply kinds_part; [exact K|eapply hpart_vector; exact I]|]. eapply hpart_pair; eauto. }
        { exfalso. apply G; [|exact M]. intros i u y z I Ni Nz. destruct y; try (destruct i; discriminate Nz).
          eapply kinds_part; [eapply kinds_part; [exact K|eapply hpart_vector; exact I]|]. eapply hpart_pair; eauto. }
        reflexivity.
      * apply array_alike. apply items_alike; auto. intros y I. eapply kinds_part; [exact K|]. now apply hpart_vector.
    + rewrite <- (forall2_len _ _ _ _ _ F). destruct (Nat.eqb n0 (List.length l)); [|reflexivity].
      apply array_alike. apply items_alike; auto. intros y I. eapply kinds_part; [exact K|]. now apply hpart_array.
    + apply array_alike. apply items_alike; auto. intros y I. eapply kinds_part; [exact K|]. now apply hpart_set.
    + pose proof (zip_alike l' l F [t1; t2] n Q) as G. destruct (h_zip (hwr e h n) l' [t1; t2]), (apply_types (map (wr e) l) [t1; t2]).
      { apply array_alike. apply G; [|exact M]. intros i u y Ni Nz. eapply kinds_part; [exact K|]. eapply hpart_pair; eauto. }
      { exfalso. apply G; [|exact M]. intros i u y Ni Nz. eapply kinds_part; [exact K|]. eapply hpart_pair; eauto. }
      { exfalso. apply G; [|exact M]. intros i u y Ni Nz. eapply kinds_part; [exact K|]. eapply hpart_pair; eauto. }
      reflexivity.
    + pose proof (zip_alike l' l F ts n Q) as G. destruct (h_zip (hwr e h n) l' ts), (apply_types (map (wr e) l) ts).
      { apply array_alike. apply G; [|exact M]. intros i u y Ni Nz. eapply kinds_part; [exact K|]. eapply hpart_tuple; eauto. }
      { exfalso. apply G; [|exact M]. intros i u y Ni Nz. eapply kinds_part; [exact K|]. eapply hpart_tuple; eauto. }
      { exfalso. apply G; [|exact M]. intros i u y Ni Nz. eapply kinds_part; [exact K|]. eapply hpart_tuple; eauto. }
      reflexivity.
  - cbn [height] in M. apply le_S_n in M. inversion T as [? E| |l' ? F| | | | | | | |]; subst; [destruct E; discriminate|].
    destruct t; try reflexivity; cbn [hwr wr]. pose proof (visited_alike ordered l' l F) as G.
    destruct (visited e ordered l') as [ps|], (visited e ordered (map (fun p => (fst p, wr e (snd p))) l)) as [qs|]; try contradiction; [|reflexivity].
    destruct G as (qs' & -> & G). apply map_alike. rewrite map_map. eapply forall2_map; [exact G|]. intros [k y] [k' w] _ _ (E & Tr & I1 & I2). cbn in *. split; [exact E|].
    rewrite Forall_forall in IH. apply (proj1 (IH _ I2)); [exact Tr| |exact (max_at _ (fun p => height (snd p)) _ _ _ I2 M)]. eapply kinds_part; [exact K|]. eapply hpart_map; eauto.
  - cbn [height] in M. apply le_S_n in M. inversion T as [? E| | | | | | | | | |]; subst; [destruct E; discriminate|].
    destruct t; try reflexivity; cbn [hwr wr]. destruct (nth_error ts i) as [u|] eqn:N; [|reflexivity]. apply (proj1 IH); auto. eapply kinds_part; [exact K|]. now apply hpart_variant.
  - destruct (Both _ IH) as [Q C]. cbn [height] in M. apply le_S_n in M. inversion T as [? E| | | |l' ? F| | | | | |]; subst; [destruct E; discriminate|].
    destruct t; try reflexivity; cbn [hwr wr]. unfold hw_object, hemit. apply then_alike; [reflexivity|]. intros tab1. apply then_alike; [|reflexivity]. eapply members_alike; [exact F|exact Q|exact C| | |exact M].
    + intros i b y Ni Ny Kb. eapply kinds_part; [exact K|]. eapply hpart_member; eauto.
    + intros i b y Ni Ny Kb. eapply kinds_part; [exact K|]. eapply hpart_optional; eauto.
  - inversion T as [? E| | | | | | | | | |]; subst; [destruct E; discriminate|]. destruct t; reflexivity.
  - inversion T as [? E| | | | | | | | | |]; subst; [destruct E; discriminate|]. destruct t; reflexivity.
  - inversion T as [? E| | | | | | | | | |]; subst; [destruct E; discriminate|]. destruct t; reflexivity.
  - cbn [height] in M. apply le_S_n in M. inversion T as [? E| | | | | | | |x' ? Tx|a ? Tx|]; subst; [destruct E; discriminate| |].
    + destruct t; try reflexivity; cbn [hwr wr]; [apply (proj1 IH); auto; eapply kinds_part; [exact K|apply hpart_unique]|]. destruct (proj2 K t x'). apply leads_here.
    + destruct t; try reflexivity; cbn [hwr wr]; [|apply (proj1 IH); auto; eapply kinds_part; [exact K|apply hpart_raw]]. destruct (proj1 K t a). apply leads_here.
  - cbn [height] in M. apply le_S_n in M. inversion T as [? E| | | | | | | | | |? ? Tx]; subst; [destruct E; discriminate|].
    destruct t; try reflexivity; cbn [hwr wr]. destruct (ref_get Nat.eqb tab a); [reflexivity|]. rewrite (proj1 IH); [|exact Tx|eapply kinds_part; [exact K|apply hpart_shared]|exact M].
    destruct (wr e v t ctx tab) as [[|] ? ?|]; reflexivity.
Qed.
Theorem tree_written : forall t x v, tree h x v -> kinds e h t x -> exists n, forall m, n <= m ->
  heap_to_document e h m t x = HDone (serialize_to_document e t v) /\
  forall render str, heap_to_string render e h m t x str = match write_to_string render e t v str with Some (ok, s) => WString ok s | None => WStringUndef end.
Proof.
  intros t x v V K. exists (height v). intros m M. split; [now apply HeapProof.tree_same|]. intros render str. unfold heap_to_string, write_to_string, write_events.
  rewrite (proj1 (tree_same v) x t m V K M). now destruct (wr e v t [] []) as [[|] ? ?|].
Qed.
End Written.
