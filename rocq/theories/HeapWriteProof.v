(** Proofs for HeapWriteModel.v. *)
From Coq Require Import List Arith ZArith NArith Ascii String Bool Lia Permutation.
From Verif Require Import Base Float EnumModel RefsModel RefsProof Json PathModel Types SerializeModel Events WriteModel WriteSpec WriteProof DenoteSpec RoundSpec
  DocSpec GraphSpec FiniteProof HeapModel HeapSpec HeapProof HeapWriteModel.
Import ListNotations.

Section Alike.
Variables (e : env) (h : heap) (T : nat -> ty).
Hypothesis Hi : fair e.

(** Both overflow, or both succeed with the same table. *)
Definition both {A} (show : A -> list event) (r : hres A) (w : hwres) : Prop :=
  r = HOverflow /\ w = HWOverflow \/ exists tab a, r = HDone (SOk tab a) /\ w = HWDone (WRet true tab (show a)).

Definition both_fun {A} (show : A -> list event) (f : hfun A) (g : hwfun) : Prop := forall ctx tab, both show (f ctx tab) (g ctx tab).

Definition show_entry (p : string * json) : list event := EKey (fst p) :: events (snd p).

Lemma seq_both : forall fs gs at_ k tab, Forall2 (both_fun events) fs gs -> both (flat_map events) (h_seq at_ k fs tab) (hw_seq at_ k gs tab).
Proof.
  intros fs gs at_ k tab F. revert k tab. induction F as [|f g fs gs B F IH]; intros k tab; cbn [h_seq hw_seq].
  - right. exists tab, []. split; reflexivity.
  - destruct (B (at_ k) tab) as [(-> & ->)|(tab1 & a & -> & ->)]; [now left|]. cbn [hbind hwthen].
    destruct (IH (k + 1)%N tab1) as [(-> & ->)|(tab2 & b & -> & ->)]; [now left|]. right. exists tab2, (a :: b). split; reflexivity.
Qed.

Lemma array_both : forall fs gs at_ tab, Forall2 (both_fun events) fs gs -> both events (hmap JArr (h_seq at_ 0 fs tab)) (hw_array at_ gs tab).
Proof.
  intros fs gs at_ tab F. unfold hw_array, hemit, emit. cbn [hwthen]. destruct (seq_both fs gs at_ 0%N tab F) as [(-> & ->)|(tab1 & a & -> & ->)]; [now left|].
  right. exists tab1, (JArr a). split; reflexivity.
Qed.

Lemma entries_both : forall fs gs ctx tab, Forall2 (fun p q => fst p = fst q /\ both_fun events (snd p) (snd q)) fs gs ->
  both (flat_map show_entry) (h_entries ctx fs tab) (hw_entries ctx gs tab).
Proof.
  intros fs gs ctx tab F. revert tab. induction F as [|[k f] [k' g] fs gs [E B] F IH]; intros tab; cbn [h_entries hw_entries].
  - right. exists tab, []. split; reflexivity.
  - cbn in E, B. subst k'. unfold hemit, emit. cbn [hwthen]. destruct (B (name_segment (list_ascii_of_string k) :: ctx) tab) as [(-> & ->)|(tab1 & a & -> & ->)]; [now left|].
    cbn [hbind hwthen]. destruct (IH tab1) as [(-> & ->)|(tab2 & b & -> & ->)]; [now left|]. right. exists tab2, ((k, a) :: b). split; reflexivity.
Qed.

Lemma map_both : forall fs gs ctx tab, Forall2 (fun p q => fst p = fst q /\ both_fun events (snd p) (snd q)) fs gs ->
  both events (hmap JObj (h_entries ctx fs tab)) (hw_map ctx gs tab).
Proof.
  intros fs gs ctx tab F. unfold hw_map, hemit, emit. cbn [hwthen]. destruct (entries_both fs gs ctx tab F) as [(-> & ->)|(tab1 & a & -> & ->)]; [now left|].
  right. exists tab1, (JObj a). split; reflexivity.
Qed.

Definition alike_at (n : nat) : Prop := forall x t, sane e h T t x -> both_fun events (hser e h n x t) (hwr e h n x t).

Lemma members_both : forall n, alike_at n -> forall ms l, Forall2 (fun m x => match m_kind m with MOptional => x = HNone \/ exists y, x = HSome y | _ => x <> HNone /\ forall y, x <> HSome y end) ms l ->
  (forall i m y, nth_error ms i = Some m -> nth_error l i = Some y -> m_kind m <> MOptional -> sane e h T (m_ty m) y) ->
  (forall i m y, nth_error ms i = Some m -> nth_error l i = Some (HSome y) -> m_kind m = MOptional -> sane e h T (m_ty m) y) ->
  forall ctx root tab, both (flat_map show_entry) (h_members (hser e h n) ctx ms l tab) (hw_members (hwr e h n) ctx root true true ms l tab).
Proof.
  intros n An ms l F. induction F as [|m x ms l H F IH]; intros K K' ctx root tab; cbn [h_members hw_members].
  { right. exists tab, []. split; reflexivity. }
  assert (IH' : forall root tab, both (flat_map show_entry) (h_members (hser e h n) ctx ms l tab) (hw_members (hwr e h n) ctx root true true ms l tab)).
  { intros r tab'. apply IH; [intros i; exact (K (S i))|intros i; exact (K' (S i))]. } clear IH.
  assert (Go : forall y, sane e h T (m_ty m) y -> h_member (hser e h n) m x = Some (Some (hser e h n y (m_ty m))) -> hw_member (hwr e h n) m x = Some (Some (hwr e h n y (m_ty m))) ->
    both (flat_map show_entry) (h_members (hser e h n) ctx (m :: ms) (x :: l) tab) (hw_members (hwr e h n) ctx root true true (m :: ms) (x :: l) tab)).
  { intros y Sy E1 E2. cbn [h_members hw_members]. rewrite E1, E2. destruct (An y (m_ty m) Sy (name_segment (list_ascii_of_string (m_name m)) :: ctx) tab) as [(-> & ->)|(tab1 & a & -> & ->)]; [now left|].
    destruct root as [|r]; [destruct (IH' 0 tab1) as [(-> & ->)|(tab2 & b & -> & ->)]|destruct (IH' r tab1) as [(-> & ->)|(tab2 & b & -> & ->)]]; try (now left); right; exists tab2, ((m_name m, a) :: b); split; reflexivity. }
  destruct (m_kind m) eqn:Km.
  - destruct H as [H1 H2]. apply (Go x); [apply (K 0 m x); cbn; congruence| |]; unfold h_member, hw_member; rewrite Km; destruct x; congruence.
  - destruct H as [H1 H2]. apply (Go x); [apply (K 0 m x); cbn; congruence| |]; unfold h_member, hw_member; rewrite Km; destruct x; congruence.
  - destruct H as [->|(y & ->)].
    + unfold h_member, hw_member. rewrite Km. destruct root as [|r]; apply IH'.
    + apply (Go y); [apply (K' 0 m y); cbn; congruence| |]; unfold h_member, hw_member; now rewrite Km.
Qed.

Lemma zip_both : forall n, alike_at n -> forall l ts, List.length l = List.length ts -> (forall i u y, nth_error ts i = Some u -> nth_error l i = Some y -> sane e h T u y) ->
  exists fs gs, h_zip (hser e h n) l ts = Some fs /\ h_zip (hwr e h n) l ts = Some gs /\ Forall2 (both_fun events) fs gs.
Proof.
  intros n An. induction l as [|x l IH]; intros [|t ts] L K; try discriminate L.
  - exists [], []. repeat split; constructor.
  - injection L as L. destruct (IH ts L) as (fs & gs & Z & Z' & F); [intros i; exact (K (S i))|]. exists (hser e h n x t :: fs), (hwr e h n x t :: gs). cbn. rewrite Z, Z'.
    repeat split; constructor; [apply An; exact (K 0 t x eq_refl eq_refl)|exact F].
Qed.

Lemma list_both : forall n, alike_at n -> forall l u, (forall y, In y l -> sane e h T u y) ->
  Forall2 (both_fun events) (map (fun y => hser e h n y u) l) (map (fun y => hwr e h n y u) l).
Proof. intros n An l u K. induction l as [|y l IH]; constructor; [apply An, K; now left|apply IH; intros z I; apply K; now right]. Qed.

Lemma pairs_both : forall n, alike_at n -> forall (ps : list (string * hval)) u, (forall k y, In (k, y) ps -> sane e h T u y) ->
  Forall2 (fun p q => fst p = fst q /\ both_fun events (snd p) (snd q)) (map (fun p => (fst p, hser e h n (snd p) u)) ps) (map (fun p => (fst p, hwr e h n (snd p) u)) ps).
Proof.
  intros n An ps u K. induction ps as [|[k y] ps IH]; constructor; [split; [reflexivity|apply An, (K k); now left]|apply IH; intros k' z I; apply (K k'); now right].
Qed.

Lemma writes_alike : forall n, alike_at n.
Proof.
  induction n as [|n IH]; intros x t Sx ctx tab; cbn [hser hwr]; [now left|]. pose proof (sane_shaped _ _ _ _ _ Sx) as Sh.
  destruct Sh as [t v j Z Sc|u l|u l|u l|o u l|a b x y|ts l L|ts i u x N|c l F|u x|a|a].
  - assert (D : forall tab, exists j', ser_scalar e t v tab = SOk tab j').
    { unfold serialize_to_document in Z. intros tab0. destruct t, v; try discriminate Sc; cbn in Z |- *; try discriminate Z; eauto; unfold of_text in *;
        repeat match goal with Z : (match ?x with _ => _ end) = _ |- _ => destruct x; try discriminate Z end; eauto. }
    assert (G : both events (HDone (ser_scalar e t v tab)) (HWDone (wr_scalar e t v tab))).
    { destruct (D tab) as (j' & E). right. exists tab, j'. rewrite E. split; [reflexivity|]. clear Z D. f_equal. unfold emit in *.
      destruct t, v; try discriminate Sc; cbn [ser_scalar wr_scalar] in E |- *; try discriminate E; unfold of_text, text_event in *;
        repeat match goal with E : (match ?x with _ => _ end) = _ |- _ => destruct x; try discriminate E end; injection E as <-; reflexivity. }
    destruct t; exact G.
  - destruct (dict_type u) as [w|] eqn:D.
    + assert (u = TPair TString w) by (destruct u; try discriminate; destruct u1; try discriminate; now injection D as ->). subst u.
      destruct (keyed_sane e h T w l) as (ps & -> & S1 & S2); [intros y I; eapply sane_part; [exact Sx|now apply hpart_vector]|].
      apply map_both, pairs_both; auto.
    + apply array_both, list_both; [exact IH|]. intros y I. eapply sane_part; [exact Sx|]. now apply hpart_vector.
  - rewrite Nat.eqb_refl. apply array_both, list_both; [exact IH|]. intros y I. eapply sane_part; [exact Sx|]. now apply hpart_array.
  - apply array_both, list_both; [exact IH|]. intros y I. eapply sane_part; [exact Sx|]. now apply hpart_set.
  - destruct (visited_total _ e o l Hi) as (ps & V). rewrite V. pose proof (visited_perm _ _ _ _ _ Hi V) as Pm. apply map_both, pairs_both; [exact IH|].
    intros k z I. eapply sane_part; [exact Sx|]. eapply hpart_map. eapply Permutation_in; eauto.
  - destruct (zip_both n IH [x; y] [a; b] eq_refl) as (fs & gs & -> & -> & F); [intros i u z N1 N2; eapply sane_part; [exact Sx|]; eapply hpart_pair; eauto|]. now apply array_both.
  - destruct (zip_both n IH l ts L) as (fs & gs & -> & -> & F); [intros i u z N1 N2; eapply sane_part; [exact Sx|]; eapply hpart_tuple; eauto|]. now apply array_both.
  - rewrite N. apply IH. eapply sane_part; [exact Sx|now apply hpart_variant].
  - unfold hw_object, hemit, emit. cbn [hwthen].
    destruct (members_both n IH (c_members (class_of e c)) l F) with (ctx := ctx) (root := c_root (class_of e c)) (tab := tab) as [(-> & ->)|(tab1 & a & -> & ->)].
    + intros i m y N1 N2 K. eapply sane_part; [exact Sx|]. eapply hpart_member; eauto.
    + intros i m y N1 N2 K. eapply sane_part; [exact Sx|]. eapply hpart_optional; eauto.
    + now left.
    + right. exists tab1, (JObj a). split; reflexivity.
  - apply IH. eapply sane_part; [exact Sx|apply hpart_unique].
  - apply IH. eapply sane_part; [exact Sx|apply hpart_raw].
  - destruct (ref_get Nat.eqb tab a) as [segs|] eqn:G; [right; exists tab, (ref_json segs); split; reflexivity|].
    destruct (IH (h a) (T a)) with (ctx := ctx) (tab := tab) as [(-> & ->)|(tab1 & b & -> & ->)]; [eapply sane_part; [exact Sx|apply hpart_shared]|now left|].
    right. exists (ref_put Nat.eqb tab1 a ctx), b. cbn. rewrite app_nil_r. split; reflexivity.
Qed.

(** Writing comes to the same as serializing to a document and printing it. *)
Theorem heap_string : forall render t x n str, sane e h T t x ->
  match heap_to_document e h n t x with
  | HOverflow => heap_to_string render e h n t x str = WStringOverflow
  | HDone (SOk _ j) => heap_to_string render e h n t x str = WString true (document_to_string render j)
  | _ => False
  end.
Proof.
  intros render t x n str S. unfold heap_to_document, heap_to_string. destruct (writes_alike n x t S [] []) as [(-> & ->)|(tab & j & -> & ->)]; reflexivity.
Qed.
End Alike.
