(** Serialization of objects that point to each other. *)
From Coq Require Import List Arith ZArith NArith Ascii String Bool Lia Permutation Sorted.
From Verif Require Import Base Json Types DenoteSpec RoundSpec DocSpec GraphSpec RefsModel PathModel MergeFacts WriteSpec FiniteProof RefsProof SerializeModel HeapModel HeapSpec.
Import ListNotations.

(** * Trees *)

Fixpoint height (v : val) : nat :=
  match v with
  | VList l | VObj l => S (list_max (map height l))
  | VMap l => S (list_max (map (fun p => height (snd p)) l))
  | VVariant _ x | VSome x | VPtr x | VShared _ x => S (height x)
  | _ => 1
  end.

Lemma max_at : forall A (f : A -> nat) l x n, In x l -> list_max (map f l) <= n -> f x <= n.
Proof. intros A f l x n I M. pose proof (proj1 (list_max_le (map f l) n) M) as F. rewrite Forall_forall in F. apply F. now apply in_map. Qed.

Lemma forall2_weaken : forall A B (R S : A -> B -> Prop) l m, (forall x y, R x y -> S x y) -> Forall2 R l m -> Forall2 S l m.
Proof. intros A B R S l m H F. induction F; constructor; auto. Qed.

Section Trees.
Variable e : env.
Variable h : heap.

Lemma kinds_part : forall t x u y, kinds e h t x -> hpart e h t x u y -> kinds e h u y.
Proof. intros t x u y [A B] P. split; [intros w a L; apply (A w a)|intros w a L; apply (B w a)]; eapply leads_on; eauto. Qed.

Definition alike {A} (f : hfun A) (g : sfun A) : Prop := forall ctx tab, f ctx tab = HDone (g ctx tab).

Lemma seq_alike : forall A (fs : list (hfun A)) gs at_ k tab, Forall2 alike fs gs -> h_seq at_ k fs tab = HDone (ser_seq at_ k gs tab).
Proof.
  intros A fs gs at_ k tab F. revert k tab. induction F as [|f g fs gs E F IH]; intros k tab; cbn; [reflexivity|]. rewrite E. destruct (g (at_ k) tab); cbn; try reflexivity.
  rewrite IH. cbn. destruct (ser_seq _ _ _ _); reflexivity.
Qed.

Lemma entries_alike : forall A (fs : list (string * hfun A)) gs ctx tab, Forall2 (fun p q => fst p = fst q /\ alike (snd p) (snd q)) fs gs ->
  h_entries ctx fs tab = HDone (ser_entries ctx gs tab).
Proof.
  intros A fs gs ctx tab F. revert tab. induction F as [|[k f] [k' g] fs gs [E1 E2] F IH]; intros tab; cbn in *; [reflexivity|]. subst k'. rewrite E2. destruct (g _ tab); cbn; try reflexivity.
  rewrite IH. cbn. destruct (ser_entries _ _ _); reflexivity.
Qed.

Lemma map_done : forall A B (f : A -> B) r, hmap f (HDone r) = HDone (smap f r).
Proof. intros A B f []; reflexivity. Qed.

Definition same_at (v : val) : Prop := forall x t n, tree h x v -> kinds e h t x -> height v <= n -> alike (hser e h n x t) (ser e v t).

Definition children (v : val) : list val := match v with VList l | VObj l => l | VSome y => [y] | _ => [] end.

Lemma forall2_map : forall A B C D (R : A -> B -> Prop) (S : C -> D -> Prop) f g l m, Forall2 R l m -> (forall x y, In x l -> In y m -> R x y -> S (f x) (g y)) -> Forall2 S (map f l) (map g m).
Proof.
  intros A B C D R S f g l m F. induction F as [|x y l m Rxy F IH]; intros H; constructor; [apply H; [now left|now left|exact Rxy]|]. apply IH. intros a b Ia Ib. apply H; now right.
Qed.

Lemma items_alike : forall l m u n, Forall2 (tree h) l m -> Forall same_at m -> (forall y, In y l -> kinds e h u y) -> list_max (map height m) <= n ->
  Forall2 alike (map (fun y => hser e h n y u) l) (map (fun f => f u) (map (ser e) m)).
Proof.
  intros l m u n F Q K M. rewrite map_map. eapply forall2_map; [exact F|]. intros x y Ix Iy T. rewrite Forall_forall in Q. eapply Q; eauto. eapply max_at; eauto.
Qed.

Lemma zip_alike : forall l m, Forall2 (tree h) l m -> forall ts n, Forall same_at m -> (forall i u y, nth_error ts i = Some u -> nth_error l i = Some y -> kinds e h u y) ->
  list_max (map height m) <= n ->
  match h_zip (hser e h n) l ts, apply_types (map (ser e) m) ts with
  | Some fs, Some gs => Forall2 alike fs gs
  | None, None => True
  | _, _ => False
  end.
Proof.
  intros l m F. induction F as [|x y l m T F IH]; intros [|t ts] n Q K M; cbn; try exact I; [constructor|]. inversion Q; subst.
  cbn [map list_max fold_right] in M. assert (height y <= n /\ list_max (map height m) <= n) as [M1 M2] by (unfold list_max in *; lia).
  specialize (IH ts n). cbn in IH. destruct (h_zip (hser e h n) l ts), (apply_types (map (ser e) m) ts); try (apply IH; auto; intros i; exact (K (S i))).
  constructor; [|apply IH; auto; intros i; exact (K (S i))]. eapply H1; eauto. exact (K 0 t x eq_refl eq_refl).
Qed.

Lemma members_alike : forall l m, Forall2 (tree h) l m -> forall ms n ctx tab, Forall same_at m -> Forall (fun v => Forall same_at (children v)) m ->
  (forall i b y, nth_error ms i = Some b -> nth_error l i = Some y -> m_kind b <> MOptional -> kinds e h (m_ty b) y) ->
  (forall i b y, nth_error ms i = Some b -> nth_error l i = Some (HSome y) -> m_kind b = MOptional -> kinds e h (m_ty b) y) ->
  list_max (map height m) <= n ->
  h_members (hser e h n) ctx ms l tab = HDone (ser_members ctx ms (map (mpart (ser e)) m) tab).
Proof.
  intros l m F. induction F as [|x v l m T F IH]; intros [|b ms] n ctx tab Q C K K' M; cbn; try reflexivity. inversion Q as [|? ? Qv Ql]; subst. inversion C as [|? ? Cv Cl]; subst.
  cbn [map list_max fold_right] in M. assert (height v <= n /\ list_max (map height m) <= n) as [M1 M2] by (unfold list_max in *; lia).
  assert (IH' : forall tab, h_members (hser e h n) ctx ms l tab = HDone (ser_members ctx ms (map (mpart (ser e)) m) tab)).
  { intros tab'. apply IH; auto; intros i; [exact (K (S i))|exact (K' (S i))]. }
  assert (Go : forall g s tab, alike g s ->
    match g (name_segment (list_ascii_of_string (m_name b)) :: ctx) tab with
    | HOverflow => HOverflow
    | HDone SUndef => HDone SUndef
    | HDone (SFail tab0) => h_members (hser e h n) ctx ms l tab0
    | HDone (SOk tab0 a) => hmap (cons (m_name b, a)) (h_members (hser e h n) ctx ms l tab0)
    end = HDone match s (name_segment (list_ascii_of_string (m_name b)) :: ctx) tab with
    | SOk tab0 a => smap (cons (m_name b, a)) (ser_members ctx ms (map (mpart (ser e)) m) tab0)
    | SFail tab0 => ser_members ctx ms (map (mpart (ser e)) m) tab0
    | SUndef => SUndef
    end).
  { intros g s tab0 A. rewrite A. destruct (s _ tab0); auto. rewrite IH'. apply map_done. }
  unfold h_member, to_write, mpart. specialize (K 0 b). specialize (K' 0 b). cbn [nth_error] in K, K'. destruct (m_kind b) eqn:Kb.
  - inversion T as [? E| | | | | | | | | |]; subst; try reflexivity; try (destruct E as [E|E]; [destruct v; try discriminate E|subst v]);
      apply Go; apply Qv; auto; apply K; congruence.
  - inversion T as [? E| | | | | | | | | |]; subst; try reflexivity; try (destruct E as [E|E]; [destruct v; try discriminate E|subst v]);
      apply Go; apply Qv; auto; apply K; congruence.
  - inversion T; subst; try reflexivity; try apply IH'.
    + match goal with E : scalar_value _ = true \/ _ |- _ => destruct E as [E|E]; [destruct v; try discriminate E|subst v]; reflexivity end.
    + apply Go. cbn [children] in Cv. inversion Cv; subst. match goal with A : same_at _ |- _ => apply A end; auto. cbn in M1. lia.
Qed.

Lemma keyed_alike : forall w l m n, Forall2 (tree h) l m -> Forall (fun v => Forall same_at (children v)) m ->
  (forall i u y z, In y l -> nth_error [TString; w] i = Some u -> nth_error (match y with HList k => k | _ => [] end) i = Some z -> kinds e h u z) -> list_max (map height m) <= n ->
  match all_some (map h_keyed l), all_some (map (keyed (ser e)) m) with
  | Some ps, Some qs => Forall2 (fun p q => fst p = fst q /\ alike (snd p) (snd q)) (map (fun p => (fst p, hser e h n (snd p) w)) ps) (map (fun p => (fst p, snd p w)) qs)
  | None, None => True
  | _, _ => False
  end.
Proof.
  intros w l m n F. induction F as [|x v l m T F IH]; intros C K M; cbn; [constructor|]. inversion C as [|? ? Cv Cl]; subst.
  cbn [map list_max fold_right] in M. assert (height v <= n /\ list_max (map height m) <= n) as [M1 M2] by (unfold list_max in *; lia).
  specialize (IH Cl (fun i u y z I => K i u y z (or_intror I)) M2).
  assert (E : match h_keyed x, keyed (ser e) v with
    | Some p, Some q => fst p = fst q /\ alike (hser e h n (snd p) w) (snd q w)
    | None, None => True
    | _, _ => False
    end).
  { inversion T as [? E| ? k Fk| | | | | | | | |]; subst; cbn; try exact I; [destruct E as [E|E]; [destruct v; try discriminate E; exact I|subst; exact I]|].
    destruct Fk as [|x1 v1 ? ? T1 Fk]; [exact I|]. destruct Fk as [|x2 v2 ? ? T2 Fk].
    - destruct x1 as [[]| | | | | | | | | |]; inversion T1; subst; exact I.
    - destruct Fk as [|x3 v3 ? ? T3 Fk].
      + inversion T1 as [s E1| | | | | | | | | |]; subst; try exact I. destruct v1; try exact I. cbn. split; [reflexivity|].
        cbn [children] in Cv. inversion Cv as [|? ? _ Cv1]; subst. inversion Cv1; subst. match goal with A : same_at v2 |- _ => apply A end; [exact T2| |cbn [height map list_max fold_right] in M1; lia].
        exact (K 1 w _ x2 (or_introl eq_refl) eq_refl eq_refl).
      + inversion T1 as [s E1| | | | | | | | | |]; subst; try exact I. destruct v1; exact I. }
  destruct (h_keyed x) as [p|], (keyed (ser e) v) as [q|]; try contradiction; [|exact I].
  destruct (all_some (map h_keyed l)), (all_some (map (keyed (ser e)) m)); try contradiction; [|exact I]. constructor; [exact E|exact IH].
Qed.

Lemma visited_alike : forall o (l : list (string * hval)) m, Forall2 (fun p q => fst p = fst q /\ tree h (snd p) (snd q)) l m ->
  match visited e o l, visited e o (map (fun p => (fst p, ser e (snd p))) m) with
  | Some ps, Some qs => exists qs', qs = map (fun p => (fst p, ser e (snd p))) qs' /\ Forall2 (fun p q => fst p = fst q /\ tree h (snd p) (snd q) /\ In p l /\ In q m) ps qs'
  | None, None => True
  | _, _ => False
  end.
Proof.
  intros o l m F. unfold visited. destruct o.
  - exists m. split; [reflexivity|]. induction F as [|p q l m E F IH]; constructor; [cbn; tauto|]. eapply forall2_weaken; [|exact IH]. cbn. tauto.
  - assert (Ks : map fst (map (fun p : string * val => (fst p, ser e (snd p))) m) = map fst l).
    { rewrite map_map. cbn. clear -F. induction F as [|p q l m [E _] F IH]; cbn; [reflexivity|]. now rewrite IH, E. }
    rewrite Ks. assert (At : forall i, match nth_error l i, nth_error m i with Some p, Some q => fst p = fst q /\ tree h (snd p) (snd q) | None, None => True | _, _ => False end).
    { clear -F. induction F as [|p q l m E F IH]; intros [|i]; cbn; try exact I; [exact E|apply IH]. }
    induction (iteration e (map fst l)) as [|i is IH]; cbn; [exists []; split; [reflexivity|constructor]|].
    rewrite nth_error_map. specialize (At i). destruct (nth_error l i) as [p|] eqn:N1, (nth_error m i) as [q|] eqn:N2; try contradiction; cbn [option_map]; [|exact I].
    destruct (all_some (map (nth_error l) is)), (all_some (map (nth_error (map _ m)) is)); try contradiction; [|exact I].
    destruct IH as (qs' & -> & Q). exists (q :: qs'). split; [reflexivity|]. constructor; [|exact Q]. split; [apply At|]. split; [apply At|]. split; eapply nth_error_In; eauto.
Qed.

Lemma tree_same : forall v, same_at v /\ Forall same_at (children v).
Proof.
  intros v. assert (Both : forall l, Forall (fun v => same_at v /\ Forall same_at (children v)) l -> Forall same_at l /\ Forall (fun v => Forall same_at (children v)) l)
    by (intros l F; split; (eapply Forall_impl; [|exact F]); intros ? [? ?]; assumption).
  induction v as [| |b|z|f|s|b|z|z|l IH|l IH|i v IH|l IH| |v IH| |v IH|a v IH] using val_ind'; (split; [|try constructor; try exact (proj1 (Both _ IH)); try apply IH; try constructor]);
    intros x t n T K M ctx tab; (destruct n as [|n]; [exfalso; cbn in M; lia|]).
  1-9: inversion T; subst; destruct t; reflexivity.
  - destruct (Both _ IH) as [Q C]. cbn [height] in M. apply le_S_n in M. inversion T as [? E|l' ? F| | | | | | | | |]; subst; [destruct E; discriminate|].
    destruct t; try reflexivity; cbn [hser ser].
    + destruct (dict_type t) as [w|] eqn:D.
      * assert (t = TPair TString w) by (destruct t; try discriminate; destruct t1; try discriminate; now injection D as ->). subst t.
        pose proof (keyed_alike w l' l n F C) as G. destruct (all_some (map h_keyed l')), (all_some (map (keyed (ser e)) l)).
        { erewrite entries_alike; [apply map_done|]. apply G; [|exact M]. intros i u y z I Ni Nz. destruct y; try (destruct i; discriminate Nz).
          eapply kinds_part; [eapply kinds_part; [exact K|eapply hpart_vector; exact I]|]. eapply hpart_pair; eauto. }
        { exfalso. apply G; [|exact M]. intros i u y z I Ni Nz. destruct y; try (destruct i; discriminate Nz).
          eapply kinds_part; [eapply kinds_part; [exact K|eapply hpart_vector; exact I]|]. eapply hpart_pair; eauto. }
        { exfalso. apply G; [|exact M]. intros i u y z I Ni Nz. destruct y; try (destruct i; discriminate Nz).
          eapply kinds_part; [eapply kinds_part; [exact K|eapply hpart_vector; exact I]|]. eapply hpart_pair; eauto. }
        reflexivity.
      * erewrite seq_alike; [apply map_done|]. apply items_alike; auto. intros y I. eapply kinds_part; [exact K|]. now apply hpart_vector.
    + rewrite <- (forall2_len _ _ _ _ _ F). destruct (Nat.eqb n0 (List.length l)); [|reflexivity].
      erewrite seq_alike; [apply map_done|]. apply items_alike; auto. intros y I. eapply kinds_part; [exact K|]. now apply hpart_array.
    + erewrite seq_alike; [apply map_done|]. apply items_alike; auto. intros y I. eapply kinds_part; [exact K|]. now apply hpart_set.
    + pose proof (zip_alike l' l F [t1; t2] n Q) as G. destruct (h_zip (hser e h n) l' [t1; t2]), (apply_types (map (ser e) l) [t1; t2]).
      { erewrite seq_alike; [apply map_done|]. apply G; [|exact M]. intros i u y Ni Nz. eapply kinds_part; [exact K|]. eapply hpart_pair; eauto. }
      { exfalso. apply G; [|exact M]. intros i u y Ni Nz. eapply kinds_part; [exact K|]. eapply hpart_pair; eauto. }
      { exfalso. apply G; [|exact M]. intros i u y Ni Nz. eapply kinds_part; [exact K|]. eapply hpart_pair; eauto. }
      reflexivity.
    + pose proof (zip_alike l' l F ts n Q) as G. destruct (h_zip (hser e h n) l' ts), (apply_types (map (ser e) l) ts).
      { erewrite seq_alike; [apply map_done|]. apply G; [|exact M]. intros i u y Ni Nz. eapply kinds_part; [exact K|]. eapply hpart_tuple; eauto. }
      { exfalso. apply G; [|exact M]. intros i u y Ni Nz. eapply kinds_part; [exact K|]. eapply hpart_tuple; eauto. }
      { exfalso. apply G; [|exact M]. intros i u y Ni Nz. eapply kinds_part; [exact K|]. eapply hpart_tuple; eauto. }
      reflexivity.
  - cbn [height] in M. apply le_S_n in M. inversion T as [? E| |l' ? F| | | | | | | |]; subst; [destruct E; discriminate|].
    destruct t; try reflexivity; cbn [hser ser]. pose proof (visited_alike ordered l' l F) as G.
    destruct (visited e ordered l') as [ps|], (visited e ordered (map (fun p => (fst p, ser e (snd p))) l)) as [qs|]; try contradiction; [|reflexivity].
    destruct G as (qs' & -> & G). erewrite entries_alike; [apply map_done|]. rewrite map_map. eapply forall2_map; [exact G|]. intros [k y] [k' w] _ _ (E & Tr & I1 & I2). cbn in *. split; [exact E|].
    rewrite Forall_forall in IH. apply (proj1 (IH _ I2)); [exact Tr| |exact (max_at _ (fun p => height (snd p)) _ _ _ I2 M)]. eapply kinds_part; [exact K|]. eapply hpart_map; eauto.
  - cbn [height] in M. apply le_S_n in M. inversion T as [? E| | | | | | | | | |]; subst; [destruct E; discriminate|].
    destruct t; try reflexivity; cbn [hser ser]. destruct (nth_error ts i) as [u|] eqn:N; [|reflexivity]. apply (proj1 IH); auto. eapply kinds_part; [exact K|]. now apply hpart_variant.
  - destruct (Both _ IH) as [Q C]. cbn [height] in M. apply le_S_n in M. inversion T as [? E| | | |l' ? F| | | | | |]; subst; [destruct E; discriminate|].
    destruct t; try reflexivity; cbn [hser ser]. erewrite members_alike; [apply map_done|exact F|exact Q|exact C| | |exact M].
    + intros i b y Ni Ny Kb. eapply kinds_part; [exact K|]. eapply hpart_member; eauto.
    + intros i b y Ni Ny Kb. eapply kinds_part; [exact K|]. eapply hpart_optional; eauto.
  - inversion T as [? E| | | | | | | | | |]; subst; [destruct E; discriminate|]. destruct t; reflexivity.
  - inversion T as [? E| | | | | | | | | |]; subst; [destruct E; discriminate|]. destruct t; reflexivity.
  - inversion T as [? E| | | | | | | | | |]; subst; [destruct E; discriminate|]. destruct t; reflexivity.
  - cbn [height] in M. apply le_S_n in M. inversion T as [? E| | | | | | | |x' ? Tx|a ? Tx|]; subst; [destruct E; discriminate| |].
    + destruct t; try reflexivity; cbn [hser ser]; [apply (proj1 IH); auto; eapply kinds_part; [exact K|apply hpart_unique]|]. destruct (proj2 K t x'). apply leads_here.
    + destruct t; try reflexivity; cbn [hser ser]; [|apply (proj1 IH); auto; eapply kinds_part; [exact K|apply hpart_raw]]. destruct (proj1 K t a). apply leads_here.
  - cbn [height] in M. apply le_S_n in M. inversion T as [? E| | | | | | | | | |? ? Tx]; subst; [destruct E; discriminate|].
    destruct t; try reflexivity; cbn [hser ser]. destruct (ref_get Nat.eqb tab a); [reflexivity|]. rewrite (proj1 IH); [|exact Tx|eapply kinds_part; [exact K|apply hpart_shared]|exact M].
    destruct (ser e v t ctx tab); reflexivity.
Qed.
End Trees.

(** * Finished serialization *)

Section Finished.
Variable e : env.
Variable h : heap.
Variable T : nat -> ty.
Hypothesis Hi : fair e.

Definition inside (p q : ty * hval) : Prop := hpart e h (fst q) (snd q) (fst p) (snd p).
Definition finite_at (t : ty) (x : hval) : Prop := Acc inside (t, x).

Lemma finite_intro : forall t x, (forall u y, hpart e h t x u y -> finite_at u y) -> finite_at t x.
Proof. intros t x H. constructor. intros [u y] P. exact (H u y P). Qed.

Lemma finite_leaf : forall t v, finite_at t (HLeaf v).
Proof. intros t v. apply finite_intro. intros u y P. inversion P. Qed.

Lemma sane_part : forall t x u y, sane e h T t x -> hpart e h t x u y -> sane e h T u y.
Proof. intros t x u y S P w z L. apply S. eapply leads_on; eauto. Qed.

Lemma sane_shaped : forall t x, sane e h T t x -> shaped e T t x.
Proof. intros t x S. apply S. apply leads_here. Qed.

(** The objects in the table have been written completely. *)
Definition written_out (tab : wtable) : Prop := forall a, ref_get Nat.eqb tab a <> None -> finite_at (T a) (h a).

Definition good {A} (P : Prop) (r : hres A) : Prop := r = HOverflow \/ exists tab a, r = HDone (SOk tab a) /\ written_out tab /\ P.

Lemma good_bind : forall A B (P Q : Prop) (r : hres A) (f : wtable -> A -> hres B), good P r -> (forall tab a, written_out tab -> P -> good Q (f tab a)) -> good Q (hbind r f).
Proof. intros A B P Q r f [->|(tab & a & -> & W & p)] H; [now left|]. exact (H tab a W p). Qed.

Lemma good_done : forall A (P : Prop) tab (a : A), written_out tab -> P -> good P (HDone (SOk tab a)).
Proof. intros A P tab a W p. right. eauto. Qed.

Lemma good_map : forall A B (P Q : Prop) (f : A -> B) r, good P r -> (P -> Q) -> good Q (hmap f r).
Proof. intros A B P Q f r G H. eapply good_bind; [exact G|]. intros tab a W p. apply good_done; auto. Qed.

Definition promises {A} (P : Prop) (f : hfun A) : Prop := forall ctx tab, written_out tab -> good P (f ctx tab).

Lemma seq_good : forall A (Ps : list Prop) (fs : list (hfun A)) at_ k tab, Forall2 promises Ps fs -> written_out tab -> good (Forall (fun P => P) Ps) (h_seq at_ k fs tab).
Proof.
  intros A Ps fs at_ k tab F. revert k tab. induction F as [|P f Ps fs H F IH]; intros k tab W; cbn; [apply good_done; auto|].
  eapply good_bind; [apply H, W|]. intros tab' a W' p. eapply good_map; [apply IH, W'|]. auto.
Qed.

Lemma entries_good : forall A (Ps : list Prop) (fs : list (string * hfun A)) ctx tab, Forall2 (fun P f => promises P (snd f)) Ps fs -> written_out tab -> good (Forall (fun P => P) Ps) (h_entries ctx fs tab).
Proof.
  intros A Ps fs ctx tab F. revert tab. induction F as [|P [k f] Ps fs H F IH]; intros tab W; cbn; [apply good_done; auto|].
  eapply good_bind; [apply H, W|]. intros tab' a W' p. eapply good_map; [apply IH, W'|]. auto.
Qed.

Lemma promises_map : forall A B (P : A -> Prop) (f : A -> hfun B) l, (forall x, In x l -> promises (P x) (f x)) -> Forall2 promises (map P l) (map f l).
Proof. intros A B P f l H. induction l as [|x l IH]; constructor; [apply H; now left|]. apply IH. intros y I. apply H. now right. Qed.

Lemma promised : forall A (P : A -> Prop) l x, Forall (fun P => P) (map P l) -> In x l -> P x.
Proof. intros A P l x F I. rewrite Forall_forall in F. apply F. now apply in_map. Qed.

Definition fine (n : nat) : Prop := forall x t, sane e h T t x -> promises (finite_at t x) (hser e h n x t).

Lemma members_good : forall n, fine n -> forall ms l ctx tab, Forall2 (fun m x => match m_kind m with MOptional => x = HNone \/ exists y, x = HSome y | _ => x <> HNone /\ forall y, x <> HSome y end) ms l ->
  (forall i m y, nth_error ms i = Some m -> nth_error l i = Some y -> m_kind m <> MOptional -> sane e h T (m_ty m) y) ->
  (forall i m y, nth_error ms i = Some m -> nth_error l i = Some (HSome y) -> m_kind m = MOptional -> sane e h T (m_ty m) y) -> written_out tab ->
  good ((forall i m y, nth_error ms i = Some m -> nth_error l i = Some y -> m_kind m <> MOptional -> finite_at (m_ty m) y) /\
        (forall i m y, nth_error ms i = Some m -> nth_error l i = Some (HSome y) -> m_kind m = MOptional -> finite_at (m_ty m) y)) (h_members (hser e h n) ctx ms l tab).
Proof.
  intros n Fn ms l ctx tab F. revert tab. induction F as [|m x ms l H F IH]; intros tab K K' W; cbn [h_members].
  { apply good_done; [exact W|]. split; intros [|i] ? ? N; discriminate N. }
  specialize (IH). assert (IH' : forall tab, written_out tab -> good ((forall i m y, nth_error ms i = Some m -> nth_error l i = Some y -> m_kind m <> MOptional -> finite_at (m_ty m) y) /\
        (forall i m y, nth_error ms i = Some m -> nth_error l i = Some (HSome y) -> m_kind m = MOptional -> finite_at (m_ty m) y)) (h_members (hser e h n) ctx ms l tab)).
  { intros tab' W'. apply IH; [intros i; exact (K (S i))|intros i; exact (K' (S i))|exact W']. }
  assert (Go : forall y, (m_kind m <> MOptional -> x = y) -> (m_kind m = MOptional -> x = HSome y) -> h_member (hser e h n) m x = Some (Some (hser e h n y (m_ty m))) ->
    good ((forall i m0 y, nth_error (m :: ms) i = Some m0 -> nth_error (x :: l) i = Some y -> m_kind m0 <> MOptional -> finite_at (m_ty m0) y) /\
        (forall i m0 y, nth_error (m :: ms) i = Some m0 -> nth_error (x :: l) i = Some (HSome y) -> m_kind m0 = MOptional -> finite_at (m_ty m0) y)) (h_members (hser e h n) ctx (m :: ms) (x :: l) tab)).
  { intros y E1 E2 E3. cbn [h_members]. rewrite E3. assert (Sy : sane e h T (m_ty m) y).
    { destruct (m_kind m) eqn:Km; [apply (K 0 m y)|apply (K 0 m y)|apply (K' 0 m y)]; cbn; try rewrite E1 by discriminate; try rewrite E2 by reflexivity; congruence. }
    destruct (Fn y (m_ty m) Sy (name_segment (list_ascii_of_string (m_name m)) :: ctx) tab W) as [->|(tab' & a & -> & W' & A)]; [now left|].
    eapply good_map; [apply IH', W'|]. intros [A1 A2]. split; intros [|i] m0 z N1 N2 Km; cbn in N1, N2; eauto; injection N1 as <-; injection N2 as N2.
    - rewrite <- N2, E1 by exact Km. exact A.
    - rewrite E2 in N2 by exact Km. injection N2 as <-. exact A. }
  destruct (m_kind m) eqn:Km.
  - destruct H as [H1 H2]. apply (Go x); [auto|discriminate|]. unfold h_member. rewrite Km. destruct x; congruence.
  - destruct H as [H1 H2]. apply (Go x); [auto|discriminate|]. unfold h_member. rewrite Km. destruct x; congruence.
  - destruct H as [->|(y & ->)].
    + unfold h_member. rewrite Km. destruct (IH' tab W) as [->|(tab' & a & -> & W' & [A1 A2])]; [now left|]. apply good_done; [exact W'|].
      split; intros [|i] m0 z N1 N2 Km0; cbn in N1, N2; eauto; [injection N1 as <-; congruence|discriminate N2].
    + apply (Go y); [congruence|auto|]. unfold h_member. now rewrite Km.
Qed.

Lemma zip_good : forall n, fine n -> forall l ts, List.length l = List.length ts -> (forall i u y, nth_error ts i = Some u -> nth_error l i = Some y -> sane e h T u y) ->
  exists fs Ps, h_zip (hser e h n) l ts = Some fs /\ Forall2 promises Ps fs /\
    (Forall (fun P => P) Ps -> forall i u y, nth_error ts i = Some u -> nth_error l i = Some y -> finite_at u y).
Proof.
  intros n Fn. induction l as [|x l IH]; intros [|t ts] L K; try discriminate L.
  - exists [], []. split; [reflexivity|]. split; [constructor|]. intros _ [|i] ? ? N; discriminate N.
  - injection L as L. destruct (IH ts L) as (fs & Ps & Z & F & G); [intros i; exact (K (S i))|].
    exists (hser e h n x t :: fs), (finite_at t x :: Ps). split; [cbn; now rewrite Z|]. split; [constructor; [apply Fn; exact (K 0 t x eq_refl eq_refl)|exact F]|].
    intros A [|i] u y N1 N2; cbn in N1, N2; inversion A; subst; [congruence|eauto].
Qed.

Lemma keyed_sane : forall w l, (forall y, In y l -> sane e h T (TPair TString w) y) -> exists ps, all_some (map h_keyed l) = Some ps /\
  (forall k z, In (k, z) ps -> sane e h T w z) /\ (forall y, In y l -> exists k z, y = HList [HLeaf (VStr k); z] /\ In (k, z) ps).
Proof.
  intros w l. induction l as [|y l IH]; intros K.
  - exists []. split; [reflexivity|]. split; [intros ? ? []|intros ? []].
  - destruct IH as (ps & E & S1 & S2); [intros z I; apply K; now right|]. pose proof (K y (or_introl eq_refl)) as Sy. pose proof (sane_shaped _ _ Sy) as Sh.
    inversion Sh as [? v ? Z| | | | |? ? x z| | | | | |]; subst; [destruct v; discriminate|].
    assert (Sx : shaped e T TString x) by (apply Sy; eapply leads_on; [eapply (hpart_pair e h _ _ [x; z] 0); reflexivity|apply leads_here]).
    inversion Sx as [? v j Z Sc| | | | | | | | | | |]; subst. destruct v; try discriminate Z. exists ((s, z) :: ps). cbn. rewrite E. split; [reflexivity|]. split.
    + intros k z' [A|I]; [injection A as <- <-|now apply (S1 k)]. eapply sane_part; [exact Sy|]. eapply (hpart_pair e h _ _ _ 1); reflexivity.
    + intros y [<-|I]; [exists s, z; auto|]. destruct (S2 y I) as (k & z' & A & B). exists k, z'. auto.
Qed.

Lemma finished : forall n, fine n.
Proof.
  induction n as [|n IH]; intros x t Sx ctx tab W; cbn [hser]; [now left|]. pose proof (sane_shaped _ _ Sx) as Sh.
  destruct Sh as [t v j Z Sc|u l|u l|u l|o u l|a b x y|ts l L|ts i u x N|c l F|u x|a|a].
  - assert (D : forall tab, exists j', ser_scalar e t v tab = SOk tab j').
    { unfold serialize_to_document in Z. intros tab0. destruct t, v; try discriminate Sc; cbn in Z |- *; try discriminate Z; eauto; unfold of_text in *;
        repeat match goal with Z : (match ?x with _ => _ end) = _ |- _ => destruct x; try discriminate Z end; eauto. }
    assert (G : good (finite_at t (HLeaf v)) (HDone (ser_scalar e t v tab))).
    { destruct (D tab) as (j' & ->). apply good_done; [exact W|apply finite_leaf]. }
    destruct t; exact G.
  - destruct (dict_type u) as [w|] eqn:D.
    + assert (u = TPair TString w) by (destruct u; try discriminate; destruct u1; try discriminate; now injection D as ->). subst u.
      destruct (keyed_sane w l) as (ps & -> & S1 & S2); [intros y I; eapply sane_part; [exact Sx|now apply hpart_vector]|].
      eapply good_map.
      * apply (entries_good _ (map (fun p => finite_at w (snd p)) ps)); [|exact W]. clear S2. induction ps as [|[k z] ps IHp]; constructor; [|apply IHp; intros k' z' I; apply (S1 k'); now right].
        cbn. apply IH. apply (S1 k). now left.
      * intros A. apply finite_intro. intros u y P. inversion P as [? ? ? I| | | | | | | | | | |]; subst. destruct (S2 y I) as (k & z & -> & Iz). apply finite_intro. intros u' y' P'.
        inversion P' as [| | |? ? ? i ? ? N1 N2| | | | | | | |]; subst. destruct i as [|[|i]]; cbn in N1, N2.
        { injection N1 as <-. injection N2 as <-. apply finite_leaf. }
        { injection N1 as <-. injection N2 as <-. exact (promised _ _ _ _ A Iz). }
        { destruct i; discriminate. }
    + eapply good_map; [apply seq_good; [apply promises_map|exact W]|].
      * intros y I. apply IH. eapply sane_part; [exact Sx|]. now apply hpart_vector.
      * intros A. apply finite_intro. intros u' y P. inversion P as [? ? ? I| | | | | | | | | | |]; subst. exact (promised _ (finite_at u') _ _ A I).
  - rewrite Nat.eqb_refl. eapply good_map; [apply seq_good; [apply promises_map|exact W]|].
    + intros y I. apply IH. eapply sane_part; [exact Sx|]. now apply hpart_array.
    + intros A. apply finite_intro. intros u' y P. inversion P as [|? ? ? ? I| | | | | | | | | |]; subst. exact (promised _ (finite_at u') _ _ A I).
  - eapply good_map; [apply seq_good; [apply promises_map|exact W]|].
    + intros y I. apply IH. eapply sane_part; [exact Sx|]. now apply hpart_set.
    + intros A. apply finite_intro. intros u' y P. inversion P as [| |? ? ? I| | | | | | | | |]; subst. exact (promised _ (finite_at u') _ _ A I).
  - destruct (visited_total _ e o l Hi) as (ps & V). rewrite V. pose proof (visited_perm _ _ _ _ _ Hi V) as Pm. eapply good_map.
    + apply (entries_good _ (map (fun p => finite_at u (snd p)) ps)); [|exact W].
      assert (S1 : forall k z, In (k, z) ps -> sane e h T u z) by (intros k z I; eapply sane_part; [exact Sx|]; eapply hpart_map; eapply Permutation_in; eauto).
      clear Pm V. induction ps as [|[k z] ps IHp]; constructor; [|apply IHp; intros k' z' I; apply (S1 k'); now right].
      cbn. apply IH. apply (S1 k). now left.
    + intros A. apply finite_intro. intros u' y P. inversion P as [| | | | |? ? ? k ? I| | | | | |]; subst. apply (Permutation_in _ (Permutation_sym Pm)) in I. exact (promised _ (fun p => finite_at u' (snd p)) _ _ A I).
  - destruct (zip_good n IH [x; y] [a; b] eq_refl) as (fs & Ps & -> & F & G); [intros i u z N1 N2; eapply sane_part; [exact Sx|]; eapply hpart_pair; eauto|].
    eapply good_map; [apply seq_good; [exact F|exact W]|]. intros A. apply finite_intro. intros u z P. inversion P as [| | |? ? ? i ? ? N1 N2| | | | | | | |]; subst. eauto.
  - destruct (zip_good n IH l ts L) as (fs & Ps & -> & F & G); [intros i u z N1 N2; eapply sane_part; [exact Sx|]; eapply hpart_tuple; eauto|].
    eapply good_map; [apply seq_good; [exact F|exact W]|]. intros A. apply finite_intro. intros u z P. inversion P as [| | | |? ? i ? ? N1 N2| | | | | | |]; subst. eauto.
  - rewrite N. assert (Su : sane e h T u x) by (eapply sane_part; [exact Sx|now apply hpart_variant]). destruct (IH x u Su ctx tab W) as [->|(tab' & j & -> & W' & A)]; [now left|].
    apply good_done; [exact W'|]. apply finite_intro. intros u' y P. inversion P; subst. assert (u' = u) by congruence. now subst.
  - eapply good_map; [apply members_good; [exact IH|exact F| | |exact W]|].
    + intros i m y N1 N2 K. eapply sane_part; [exact Sx|]. eapply hpart_member; eauto.
    + intros i m y N1 N2 K. eapply sane_part; [exact Sx|]. eapply hpart_optional; eauto.
    + intros [A B]. apply finite_intro. intros u' y P. inversion P; subst; eauto.
  - assert (Su : sane e h T u x) by (eapply sane_part; [exact Sx|apply hpart_unique]). destruct (IH x u Su ctx tab W) as [->|(tab' & j & -> & W' & A)]; [now left|].
    apply good_done; [exact W'|]. apply finite_intro. intros u' y P. inversion P; now subst.
  - assert (Su : sane e h T (T a) (h a)) by (eapply sane_part; [exact Sx|apply hpart_raw]). destruct (IH (h a) (T a) Su ctx tab W) as [->|(tab' & j & -> & W' & A)]; [now left|].
    apply good_done; [exact W'|]. apply finite_intro. intros u' y P. inversion P; now subst.
  - assert (Fin : finite_at (T a) (h a) -> finite_at (TShared (T a)) (HShared a)) by (intros A; apply finite_intro; intros u' y P; inversion P; now subst).
    destruct (ref_get Nat.eqb tab a) as [segs|] eqn:G; [apply good_done; [exact W|]; apply Fin, W; congruence|].
    assert (Su : sane e h T (T a) (h a)) by (eapply sane_part; [exact Sx|apply hpart_shared]). destruct (IH (h a) (T a) Su ctx tab W) as [->|(tab' & j & -> & W' & A)]; [now left|].
    cbn [hbind]. apply good_done; [|auto]. intros b. rewrite (ref_get_put _ _ Nat.eqb Nat.eqb_eq). destruct (ref_get Nat.eqb tab' b) eqn:Gb; [intros _; apply W'; congruence|].
    destruct (Nat.eqb_spec a b) as [<-|]; [auto|congruence].
Qed.

(** * Cycles *)

Lemma leads_trans : forall t x u y w z, leads e h t x u y -> leads e h u y w z -> leads e h t x w z.
Proof. intros t x u y w z A. induction A; intros B; [exact B|]. eapply leads_on; eauto. Qed.

Lemma finite_part : forall t x u y, finite_at t x -> leads e h t x u y -> finite_at u y.
Proof. intros t x u y F L. induction L as [|t x u y w z P L IH]; [exact F|]. apply IH. destruct F as [F]. exact (F (u, y) P). Qed.

Lemma finite_no_loop : forall t x, finite_at t x -> forall u y, hpart e h t x u y -> leads e h u y t x -> False.
Proof.
  enough (G : forall q, Acc inside q -> forall u y, hpart e h (fst q) (snd q) u y -> leads e h u y (fst q) (snd q) -> False) by (intros t x F; exact (G (t, x) F)).
  intros q F. induction F as [[t0 x0] _ IH]. cbn [fst snd] in *. intros u y P L.
  inversion L as [? ? |? ? w z ? ? P' L']; subst.
  - exact (IH (_, _) P _ _ P L).
  - apply (IH (u, y) P w z P'). cbn [fst snd]. eapply leads_trans; [exact L'|]. eapply leads_on; [exact P|apply leads_here].
Qed.

Theorem cycle_overflows : forall t x, sane e h T t x -> cyclic e h t x -> forall n, heap_to_document e h n t x = HOverflow.
Proof.
  intros t x S (u & y & w & z & L & P & L') n. destruct (finished n x t S [] []) as [O|(tab & j & _ & _ & A)]; [intros a G; now destruct G|exact O|].
  destruct (finite_no_loop u y (finite_part _ _ _ _ A L) w z P L').
Qed.

(** * Without cycles *)

Lemma every_tree : forall l, (forall x, In x l -> exists v, tree h x v) -> exists m, Forall2 (tree h) l m.
Proof.
  induction l as [|x l IH]; intros H; [exists []; constructor|]. destruct (H x) as (v & V); [now left|]. destruct IH as (m & M); [intros y I; apply H; now right|]. exists (v :: m). now constructor.
Qed.

Lemma finite_tree : forall t x, finite_at t x -> sane e h T t x -> exists v, tree h x v.
Proof.
  enough (G : forall q, Acc inside q -> sane e h T (fst q) (snd q) -> exists v, tree h (snd q) v) by (intros t x F; exact (G (t, x) F)).
  intros q F. induction F as [[t x] _ IH]. cbn [fst snd]. intros Sx.
  assert (Part : forall u y, hpart e h t x u y -> exists v, tree h y v) by (intros u y P; apply (IH (u, y) P); eapply sane_part; eauto). clear IH.
  pose proof (sane_shaped _ _ Sx) as Sh. destruct Sh as [t v j Z Sc|u l|u l|u l|o u l|a b x y|ts l L|ts i u x N|c l F|u x|a|a].
  - exists v. constructor. now left.
  - destruct (every_tree l) as (m & M); [intros y I; eapply Part; now apply hpart_vector|]. exists (VList m). now constructor.
  - destruct (every_tree l) as (m & M); [intros y I; eapply Part; now apply hpart_array|]. exists (VList m). now constructor.
  - destruct (every_tree l) as (m & M); [intros y I; eapply Part; now apply hpart_set|]. exists (VList m). now constructor.
  - assert (M : exists m, Forall2 (fun p q => fst p = fst q /\ tree h (snd p) (snd q)) l m).
    { assert (H : forall k y, In (k, y) l -> exists v, tree h y v) by (intros k y I; eapply Part; eapply hpart_map; eauto). clear -H. induction l as [|[k y] l IH]; [exists []; constructor|].
      destruct (H k y) as (v & V); [now left|]. destruct IH as (m & M); [intros k' z I; apply (H k'); now right|]. exists ((k, v) :: m). constructor; auto. }
    destruct M as (m & M). exists (VMap m). now constructor.
  - destruct (every_tree [x; y]) as (m & M); [|exists (VList m); constructor; exact M].
    intros z [<-|[<-|[]]]; eapply Part; [eapply (hpart_pair e h _ _ _ 0); reflexivity|eapply (hpart_pair e h _ _ _ 1); reflexivity].
  - destruct (every_tree l) as (m & M); [|exists (VList m); constructor; exact M]. intros y I. apply In_nth_error in I. destruct I as (i & N).
    destruct (nth_error ts i) as [u|] eqn:Nt; [eapply Part; eapply hpart_tuple; eauto|]. apply nth_error_None in Nt. assert (i < List.length l) by (apply nth_error_Some; congruence). lia.
  - destruct (Part u x) as (v & V); [now apply hpart_variant|]. exists (VVariant i v). now constructor.
  - destruct (every_tree l) as (m & M); [|exists (VObj m); constructor; exact M]. intros y I. apply In_nth_error in I. destruct I as (i & N).
    destruct (nth_error (c_members (class_of e c)) i) as [b|] eqn:Nb.
    2: { apply nth_error_None in Nb. assert (i < List.length l) by (apply nth_error_Some; congruence). pose proof (forall2_len _ _ _ _ _ F). lia. }
    assert (H : match m_kind b with MOptional => y = HNone \/ exists z, y = HSome z | _ => y <> HNone /\ forall z, y <> HSome z end).
    { clear -F N Nb. revert i N Nb. induction F as [|b' y' ms l H F IH]; intros [|i] N Nb; cbn in N, Nb; try discriminate; [injection N as <-; injection Nb as <-; exact H|exact (IH i N Nb)]. }
    destruct (m_kind b) eqn:K; [apply (Part (m_ty b) y), (hpart_member e h c l i b y Nb N); congruence|apply (Part (m_ty b) y), (hpart_member e h c l i b y Nb N); congruence|].
    destruct H as [->|(z & ->)]; [exists VNone; constructor|]. destruct (Part (m_ty b) z) as (v & V); [eapply hpart_optional; eauto|]. exists (VSome v). constructor. exact V.
  - destruct (Part u x) as (v & V); [apply hpart_unique|]. exists (VPtr v). now constructor.
  - destruct (Part (T a) (h a)) as (v & V); [apply hpart_raw|]. exists (VPtr v). now constructor.
  - destruct (Part (T a) (h a)) as (v & V); [apply hpart_shared|]. exists (VShared a v). now constructor.
Qed.

Lemma sane_kinds : forall t x, sane e h T t x -> kinds e h t x.
Proof. intros t x S. split; intros u y L; apply S in L; inversion L. Qed.

(** [seen] are the objects on the way to [x]. *)
Definition on_the_way (size : nat) (seen : list nat) (t : ty) (x : hval) : Prop :=
  (forall a, In a seen -> leads e h (T a) (h a) t x) /\ sane e h T t x /\ bounded h size e t x /\ ~ cyclic e h t x.

Lemma way_part : forall size seen t x u y, on_the_way size seen t x -> hpart e h t x u y -> on_the_way size seen u y.
Proof.
  intros size seen t x u y (A & B & [C1 C2] & D) P. split; [intros a I; eapply leads_trans; [exact (A a I)|]; eapply leads_on; [exact P|apply leads_here]|].
  split; [eapply sane_part; eauto|]. split; [split; intros w a L; [apply (C1 w)|apply (C2 w)]; eapply leads_on; eauto|].
  intros (u' & y' & w & z & L & Q). apply D. exists u', y', w, z. split; [eapply leads_on; eauto|exact Q].
Qed.

Lemma finite_up_to_objects : forall size seen, (forall t x a, on_the_way size seen t x -> hpart e h t x (T a) (h a) -> x = HRaw a \/ x = HShared a -> finite_at (T a) (h a)) ->
  forall x t, on_the_way size seen t x -> finite_at t x.
Proof.
  intros size seen Obj x. enough (G : (forall t, on_the_way size seen t x -> finite_at t x) /\ match x with HSome y => forall t, on_the_way size seen t y -> finite_at t y | _ => True end) by apply G.
  induction x as [v|l IH|l IH|i x IH|l IH| |x IH| |x IH|a|a] using hval_ind'; (split; [|try exact I; try apply IH]); intros t W; apply finite_intro; intros u y P; pose proof (way_part _ _ _ _ _ _ W P) as Wy; try rewrite Forall_forall in IH.
  - inversion P.
  - inversion P as [? ? ? I|? ? ? ? I|? ? ? I|? ? ? ? ? ? ? N|? ? ? ? ? ? N| | | | | | |]; subst; try (apply (proj1 (IH _ I)); exact Wy); apply nth_error_In in N; apply (proj1 (IH _ N)); exact Wy.
  - inversion P as [| | | | |? ? ? k ? I| | | | | |]; subst. apply (proj1 (IH _ I)). exact Wy.
  - inversion P; subst. apply (proj1 IH). exact Wy.
  - inversion P as [| | | | | |? ? ? ? ? ? N|? ? ? ? ? ? N| | | |]; subst; apply nth_error_In in N; [apply (proj1 (IH _ N))|apply (proj2 (IH _ N))]; exact Wy.
  - inversion P.
  - inversion P.
  - inversion P.
  - inversion P; subst. apply (proj1 IH). exact Wy.
  - assert (u = T a /\ y = h a) as [-> ->] by (pose proof (sane_shaped _ _ (proj1 (proj2 W))) as Sh; inversion P; subst; inversion Sh; subst; auto). apply (Obj t (HRaw a)); auto.
  - assert (u = T a /\ y = h a) as [-> ->] by (pose proof (sane_shaped _ _ (proj1 (proj2 W))) as Sh; inversion P; subst; inversion Sh; subst; auto). apply (Obj t (HShared a)); auto.
Qed.

Lemma acyclic_finite : forall size k seen, List.length seen + k = size -> NoDup seen -> (forall a, In a seen -> a < size) -> forall x t, on_the_way size seen t x -> finite_at t x.
Proof.
  intros size k. induction k as [|k IH]; intros seen Len Nd Small; apply finite_up_to_objects; intros t x a W P X; pose proof W as (A & Sn & [B1 B2] & D).
  all: assert (New : ~ In a seen) by (intros I; apply D; exists t, x, (T a), (h a); split; [apply leads_here|]; split; [exact P|exact (A a I)]).
  all: assert (Low : a < size) by (pose proof (sane_shaped _ _ Sn) as Sh; destruct X as [-> | ->]; inversion P; subst; inversion Sh; subst; [apply (B2 (T a))|apply (B1 (T a))]; apply leads_here).
  - exfalso. assert (L : List.length (a :: seen) <= List.length (seq 0 size)).
    { apply NoDup_incl_length; [now constructor|]. intros b [<-|I]; apply in_seq; [lia|]. specialize (Small b I). lia. }
    rewrite seq_length in L. cbn in L. lia.
  - apply (IH (a :: seen)); [cbn; lia|now constructor|intros b [<-|I]; auto|]. destruct (way_part _ _ _ _ _ _ W P) as (A' & R). split; [|exact R].
    intros b [<-|I]; [apply leads_here|auto].
Qed.

Theorem tree_serialized : forall t x v, tree h x v -> kinds e h t x ->
  exists n, forall m, n <= m -> heap_to_document e h m t x = HDone (serialize_to_document e t v).
Proof. intros t x v V K. exists (height v). intros m M. now apply tree_same. Qed.

Theorem acyclic_serialized : forall size t x, sane e h T t x -> bounded h size e t x -> ~ cyclic e h t x ->
  exists v n tab j, tree h x v /\ serialize_to_document e t v = SOk tab j /\ forall m, n <= m -> heap_to_document e h m t x = HDone (SOk tab j).
Proof.
  intros size t x S B C. assert (F : finite_at t x).
  { apply (acyclic_finite size size []); [reflexivity|constructor|intros a []|]. split; [intros a []|auto]. }
  destruct (finite_tree t x F S) as (v & V). destruct (tree_serialized t x v V (sane_kinds _ _ S)) as (n & D). exists v, n.
  destruct (finished n x t S [] []) as [O|(tab & j & R & _)]; [intros a G; now destruct G|unfold heap_to_document in D; specialize (D n (le_n n)); rewrite O in D; discriminate D|].
  exists tab, j. assert (E : serialize_to_document e t v = SOk tab j) by (specialize (D n (le_n n)); unfold heap_to_document in D; rewrite R in D; now injection D).
  split; [exact V|]. split; [exact E|]. intros m M. rewrite <- E. now apply D.
Qed.
End Finished.
