(** Proofs about the polymorphic stack. *)
From Coq Require Import List ZArith Arith Bool Lia Permutation.
From Verif Require Import HashModel HashProof StackModel StackSpec.
Import ListNotations.
Local Open Scope Z_scope.

Section Proofs.
Variables (capacity : nat) (memory_size : Z).
Hypothesis mem_ok : 0 <= memory_size < 2 ^ 63.

(** Objects and their addresses for a stack. *)
Fixpoint layout (l : list frame) : list (Z * frame) :=
  match l with
  | [] => []
  | f :: l' => (used l', f) :: layout l'
  end.

Definition top (l : list frame) : option Z :=
  match l with [] => None | _ :: l' => Some (used l') end.

(** The saved pointers: entry k is the address of the frame below the k-th. *)
Definition saved (l : list frame) (items : list (option Z)) : Prop :=
  List.length items = capacity /\
  forall k l1 f l2, l = l1 ++ f :: l2 -> List.length l2 = k -> nth_error items k = Some (top l2).

Record good (l : list frame) (s : pstack) (ds : list nat) : Prop := {
  g_current : s_current s = top l;
  g_next : s_next s = used l;
  g_items : saved l (s_items s);
  g_count : s_count s = List.length l;
  g_cap : (List.length l <= capacity)%nat;
  g_live : s_live s = layout l;
  g_log : s_destroyed s = ds;
  g_proper : Forall proper l;
  g_room : l <> [] -> used l < memory_size
}.

Lemma used_cons : forall f l, used (f :: l) = f_size f + used l.
Proof. reflexivity. Qed.

Lemma used_nonneg : forall l, Forall proper l -> 0 <= used l.
Proof.
  induction l as [|f l IH]; intros H; [cbn; lia|]. rewrite used_cons. inversion H as [|? ? P F]; subst.
  destruct P as (P1 & P2 & _). specialize (IH F). lia.
Qed.

Lemma layout_below : forall l, Forall proper l ->
  Forall (fun '(b, g) => 0 <= b /\ b + f_size g <= used l) (layout l).
Proof.
  induction l as [|f l IH]; intros H; cbn [layout]; [constructor|]. rewrite used_cons. inversion H as [|? ? P F]; subst.
  pose proof (used_nonneg l F). specialize (IH F). destruct P as (P1 & P2 & _). constructor; [lia|].
  eapply Forall_impl; [|exact IH]. intros [b g]. cbn. lia.
Qed.

Lemma layout_disjoint : forall l, Forall proper l -> disjoint (layout l).
Proof.
  induction l as [|f l IH]; intros H; cbn; [exact I|]. inversion H as [|? ? P F]; subst. split; [|auto].
  eapply Forall_impl; [|apply layout_below; exact F]. intros [b g]. cbn. lia.
Qed.

Lemma nth_error_upd : forall A (l l' : list A) i v k, upd l i v = Some l' ->
  nth_error l' k = if Nat.eqb k i then Some v else nth_error l k.
Proof.
  induction l as [|x l IH]; intros l' i v k E; [destruct i; discriminate|].
  destruct i as [|i]; cbn in E.
  - injection E as <-. destruct k; reflexivity.
  - destruct (upd l i v) as [r|] eqn:E2; [|discriminate]. injection E as <-.
    destruct k as [|k]; [reflexivity|]. cbn. eapply IH; eassumption.
Qed.

Lemma upd_length : forall A (l l' : list A) i v, upd l i v = Some l' -> List.length l' = List.length l.
Proof.
  induction l as [|x l IH]; intros l' i v E; [destruct i; discriminate|].
  destruct i as [|i]; cbn in E.
  - injection E as <-. reflexivity.
  - destruct (upd l i v) as [r|] eqn:E2; [|discriminate]. injection E as <-. cbn. f_equal. eauto.
Qed.

Lemma upd_some : forall A (l : list A) i v, (i < List.length l)%nat -> exists l', upd l i v = Some l'.
Proof. intros A l i v H. destruct (upd_spec A l i v H) as (l' & E & _). eauto. Qed.

Lemma fits_spec : forall l s ds f, good l s ds -> proper f ->
  (capacity <=? s_count s)%nat || (to_ptrdiff (memory_size - f_align f - f_size f) <=? s_next s) =
  negb (fits capacity memory_size l f).
Proof.
  intros l s ds f G (P1 & P2 & P3 & P4). rewrite (g_count _ _ _ G), (g_next _ _ _ G).
  pose proof (used_nonneg l (g_proper _ _ _ G)) as U. unfold fits. rewrite negb_andb. f_equal.
  - destruct (Nat.leb_spec capacity (List.length l)), (Nat.ltb_spec (List.length l) capacity); cbn; lia || reflexivity.
  - assert (to_ptrdiff (memory_size - f_align f - f_size f) = memory_size - f_align f - f_size f) as E.
    { unfold to_ptrdiff. destruct (Z.le_gt_cases 0 (memory_size - f_align f - f_size f)).
      - rewrite Z.mod_small by lia. destruct (Z.ltb_spec (memory_size - f_align f - f_size f) (2 ^ 63)); lia.
      - rewrite <- (Z.mod_add _ 1) by lia. rewrite Z.mod_small by lia.
        destruct (Z.ltb_spec (memory_size - f_align f - f_size f + 1 * 2 ^ 64) (2 ^ 63)); lia. }
    rewrite E. destruct (Z.leb_spec (memory_size - f_align f - f_size f) (used l)),
      (Z.ltb_spec (used l + f_size f + f_align f) memory_size); cbn; lia || reflexivity.
Qed.

Lemma emplace_good : forall l s ds f, good l s ds -> proper f ->
  if fits capacity memory_size l f
  then exists s', emplace capacity memory_size true f s = Done s' /\ good (f :: l) s' ds
  else emplace capacity memory_size true f s = Thrown s.
Proof.
  intros l s ds f G P. unfold emplace. rewrite (fits_spec l s ds f G P).
  destruct (fits capacity memory_size l f) eqn:F; cbn [negb]; [|reflexivity].
  apply andb_true_iff in F. destruct F as [F1 F2]. apply Nat.ltb_lt in F1. apply Z.ltb_lt in F2.
  destruct G as [G1 G2 [G3 G3'] G4 G5 G6 G7 G8 G9].
  destruct (upd_some _ (s_items s) (s_count s) (s_current s)) as (items & E); [lia|]. rewrite E.
  eexists. split; [reflexivity|]. pose proof P as (P1 & P2 & _).
  split; cbn [s_current s_next s_items s_count s_live s_destroyed]; auto.
  - now rewrite G2.
  - rewrite used_cons. lia.
  - split; [rewrite (upd_length _ _ _ _ _ E); assumption|]. intros k l1 g l2 EL K.
    rewrite (nth_error_upd _ _ _ _ _ k E), G4. destruct l1 as [|x l1]; cbn in EL; injection EL as -> ->.
    + subst k. now rewrite Nat.eqb_refl, G1.
    + destruct (Nat.eqb_spec k (List.length (l1 ++ g :: l2))) as [E2|]; [|eapply G3'; eauto].
      rewrite app_length in E2. cbn in E2. lia.
  - cbn. lia.
  - cbn. now rewrite G6, G2.
  - intros _. rewrite used_cons. lia.
Qed.

Lemma pop_unsafe_good : forall l s ds f, good (f :: l) s ds ->
  exists s', pop_unsafe s = Some s' /\ good l s' (ds ++ [f_id f]).
Proof.
  intros l s ds f [G1 G2 [G3 G3'] G4 G5 G6 G7 G8 G9]. unfold pop_unsafe. rewrite G4, G1. cbn [List.length top].
  rewrite G6. cbn [layout object_at]. rewrite Z.eqb_refl.
  rewrite (G3' (List.length l) [] f l eq_refl eq_refl).
  cbn in G5. destruct (upd_some _ (s_items s) (List.length l) None) as (items & E); [lia|]. rewrite E.
  eexists. split; [reflexivity|]. inversion G8 as [|? ? P F]; subst.
  split; cbn [s_current s_next s_items s_count s_live s_destroyed]; auto.
  - split; [rewrite (upd_length _ _ _ _ _ E); assumption|]. intros k l1 g l2 EL K.
    rewrite (nth_error_upd _ _ _ _ _ k E). destruct (Nat.eqb_spec k (List.length l)) as [E2|].
    + subst. rewrite app_length in E2. cbn in E2. lia.
    + apply (G3' k (f :: l1) g l2); [now rewrite EL|assumption].
  - lia.
  - cbn [remove_at]. now rewrite Z.eqb_refl.
  - intros NE. specialize (G9 ltac:(discriminate)). rewrite used_cons in G9.
    destruct P as (_ & P2 & _). lia.
Qed.

Lemma replay_good : forall ops l s ds, Forall proper_op ops -> good l s ds ->
  exists s', replay capacity memory_size ops s =
      Some (s', snd (fst (ideal capacity memory_size ops l))) /\
    good (fst (fst (ideal capacity memory_size ops l))) s' (ds ++ snd (ideal capacity memory_size ops l)).
Proof.
  induction ops as [|o ops IH]; intros l s ds HP G.
  - exists s. cbn. rewrite app_nil_r. auto.
  - inversion HP as [|? ? P F]; subst. destruct o as [f|]; cbn [replay perform ideal].
    + pose proof (emplace_good l s ds f G P) as E. destruct (fits capacity memory_size l f).
      * destruct E as (s' & E & G'). rewrite E. destruct (IH (f :: l) s' ds F G') as (t & ER & GR).
        rewrite ER. destruct (ideal capacity memory_size ops (f :: l)) as [[r bs] d]. exists t. split; [reflexivity|exact GR].
      * rewrite E. destruct (IH l s ds F G) as (t & ER & GR).
        rewrite ER. destruct (ideal capacity memory_size ops l) as [[r bs] d]. exists t. split; [reflexivity|exact GR].
    + unfold pop. rewrite (g_count _ _ _ G). destruct l as [|f l]; cbn [List.length].
      * destruct (IH [] s ds F G) as (t & ER & GR).
        rewrite ER. destruct (ideal capacity memory_size ops []) as [[r bs] d]. exists t. split; [reflexivity|exact GR].
      * destruct (pop_unsafe_good l s ds f G) as (s' & E & G'). rewrite E.
        destruct (IH l s' _ F G') as (t & ER & GR). rewrite <- app_assoc in GR.
        rewrite ER. destruct (ideal capacity memory_size ops l) as [[r bs] d]. exists t. split; [reflexivity|exact GR].
Qed.

Lemma fresh_good : good [] (fresh capacity) [].
Proof.
  split; cbn; auto; try lia; try congruence.
  split; [apply repeat_length|]. intros k l1 f l2 E. destruct l1; discriminate.
Qed.

Lemma pop_all_good : forall l s ds, good l s ds ->
  exists s', pop_all (List.length l) s = Some s' /\ good [] s' (ds ++ map f_id l).
Proof.
  induction l as [|f l IH]; intros s ds G; cbn [List.length pop_all map].
  - exists s. rewrite app_nil_r. auto.
  - destruct (pop_unsafe_good l s ds f G) as (s' & E & G'). rewrite E.
    destruct (IH s' _ G') as (t & ET & GT). rewrite <- app_assoc in GT. eauto.
Qed.

Lemma used_emplaced : forall ops l,
  Permutation (snd (ideal capacity memory_size ops l) ++ map f_id (fst (fst (ideal capacity memory_size ops l))))
    (map f_id l ++ emplaced ops (snd (fst (ideal capacity memory_size ops l)))).
Proof.
  induction ops as [|o ops IH]; intros l.
  - cbn. now rewrite app_nil_r.
  - destruct o as [f|]; cbn [ideal].
    + destruct (fits capacity memory_size l f).
      * specialize (IH (f :: l)). destruct (ideal capacity memory_size ops (f :: l)) as [[r bs] d].
        cbn [fst snd emplaced map] in *. etransitivity; [exact IH|]. cbn. apply Permutation_middle.
      * specialize (IH l). destruct (ideal capacity memory_size ops l) as [[r bs] d]. exact IH.
    + destruct l as [|f l].
      * specialize (IH []). destruct (ideal capacity memory_size ops []) as [[r bs] d]. exact IH.
      * specialize (IH l). destruct (ideal capacity memory_size ops l) as [[r bs] d].
        cbn [fst snd emplaced map app] in *. now constructor.
Qed.

Theorem stack_refines : forall ops, Forall proper_op ops ->
  let '(l, answers, popped) := ideal capacity memory_size ops [] in
  exists s, replay capacity memory_size ops (fresh capacity) = Some (s, answers) /\
    s_count s = List.length l /\ back s = hd_error l /\ map snd (s_live s) = l /\
    s_destroyed s = popped.
Proof.
  intros ops P. destruct (replay_good ops [] _ [] P fresh_good) as (s & E & G).
  destruct (ideal capacity memory_size ops []) as [[l bs] ds]. cbn [fst snd app] in *.
  exists s. split; [exact E|]. destruct G as [G1 G2 G3 G4 G5 G6 G7 G8 G9].
  repeat split; auto.
  - unfold back. rewrite G1, G6. destruct l as [|f l]; [reflexivity|]. cbn. now rewrite Z.eqb_refl.
  - rewrite G6. clear. induction l as [|f l IH]; [reflexivity|]. cbn. now rewrite IH.
Qed.

Theorem stack_layout : forall ops s answers, Forall proper_op ops ->
  replay capacity memory_size ops (fresh capacity) = Some (s, answers) ->
  disjoint (s_live s) /\
  Forall (fun '(a, f) => 0 <= a /\ a + f_size f <= memory_size) (s_live s) /\
  (List.length (s_live s) <= capacity)%nat.
Proof.
  intros ops s answers P E. destruct (replay_good ops [] _ [] P fresh_good) as (s' & E' & G).
  rewrite E in E'. injection E' as <- _. destruct G as [G1 G2 G3 G4 G5 G6 G7 G8 G9]. rewrite G6.
  split; [now apply layout_disjoint|]. split.
  - destruct (fst (fst (ideal capacity memory_size ops []))) as [|f l] eqn:EL; [constructor|].
    specialize (G9 ltac:(discriminate)). eapply Forall_impl; [|apply layout_below; exact G8].
    intros [b g] H. cbn beta iota in *. lia.
  - replace (List.length (layout _)) with (List.length (fst (fst (ideal capacity memory_size ops [])))); [assumption|].
    clear. generalize (fst (fst (ideal capacity memory_size ops []))). induction l; cbn; congruence.
Qed.

Theorem stack_destroys : forall ops s answers, Forall proper_op ops ->
  replay capacity memory_size ops (fresh capacity) = Some (s, answers) ->
  exists t, destroy s = Some t /\ s_live t = [] /\ Permutation (s_destroyed t) (emplaced ops answers).
Proof.
  intros ops s answers P E. destruct (replay_good ops [] _ [] P fresh_good) as (s' & E' & G).
  rewrite E in E'. injection E' as <- ->. unfold destroy. rewrite (g_count _ _ _ G).
  destruct (pop_all_good _ _ _ G) as (t & ET & GT). exists t. split; [exact ET|]. split; [apply (g_live _ _ _ GT)|].
  rewrite (g_log _ _ _ GT). cbn [app]. apply (used_emplaced ops []).
Qed.

Lemma used_divide : forall A l, Forall (fun f => (A | f_size f)) l -> (A | used l).
Proof.
  intros A. induction l as [|f l IH]; intros H; [apply Z.divide_0_r|]. rewrite used_cons.
  inversion H; subst. apply Z.divide_add_r; auto.
Qed.

Lemma ideal_in : forall (Q : frame -> Prop) ops l, Forall Q l ->
  Forall (fun o => match o with Emplace f => Q f | Pop => True end) ops ->
  Forall Q (fst (fst (ideal capacity memory_size ops l))).
Proof.
  intros Q. induction ops as [|o ops IH]; intros l HL H; [exact HL|].
  inversion H as [|? ? HO HF]; subst. destruct o as [f|]; cbn [ideal].
  - destruct (fits capacity memory_size l f).
    + specialize (IH (f :: l) ltac:(constructor; assumption) HF).
      destruct (ideal capacity memory_size ops (f :: l)) as [[r bs] d]. exact IH.
    + specialize (IH l HL HF). destruct (ideal capacity memory_size ops l) as [[r bs] d]. exact IH.
  - destruct l as [|f l].
    + specialize (IH [] HL HF). destruct (ideal capacity memory_size ops []) as [[r bs] d]. exact IH.
    + inversion HL; subst. specialize (IH l ltac:(assumption) HF).
      destruct (ideal capacity memory_size ops l) as [[r bs] d]. exact IH.
Qed.

Theorem stack_aligned : forall A base ops s answers, Forall proper_op ops -> (A | base) ->
  Forall (fun o => match o with Emplace f => (f_align f | A) /\ (A | f_size f) | Pop => True end) ops ->
  replay capacity memory_size ops (fresh capacity) = Some (s, answers) ->
  Forall (fun '(a, f) => (f_align f | base + a)) (s_live s).
Proof.
  intros A base ops s answers P B H E. destruct (replay_good ops [] _ [] P fresh_good) as (s' & E' & G).
  rewrite E in E'. injection E' as <- _. rewrite (g_live _ _ _ G).
  pose proof (ideal_in (fun f => (f_align f | A) /\ (A | f_size f)) ops [] (Forall_nil _) H) as K.
  induction (fst (fst (ideal capacity memory_size ops []))) as [|f l IH] in K |- *; [constructor|].
  inversion K as [|? ? K1 K2]; subst. cbn. constructor; [|auto].
  apply Z.divide_trans with A; [tauto|]. apply Z.divide_add_r; [assumption|].
  apply used_divide. eapply Forall_impl; [|exact K2]. intros g [_ D]. exact D.
Qed.

(** A constructor that throws. *)
Theorem stack_constructor_throws : forall ops s answers f s', Forall proper_op ops -> proper f ->
  replay capacity memory_size ops (fresh capacity) = Some (s, answers) ->
  emplace capacity memory_size false f s = Thrown s' -> s' <> s -> destroy s' = None.
Proof.
  intros ops s answers f s' P PF E EM NE. destruct (replay_good ops [] _ [] P fresh_good) as (s2 & E' & G).
  rewrite E in E'. injection E' as <- _. revert G. generalize (fst (fst (ideal capacity memory_size ops []))). intros l G.
  unfold emplace in EM. rewrite (fits_spec l s _ f G PF) in EM.
  destruct (fits capacity memory_size l f) eqn:F; cbn [negb] in EM; [|congruence].
  destruct (upd (s_items s) (s_count s) (s_current s)) as [items|] eqn:EU; [|discriminate].
  injection EM as <-. unfold destroy. cbn [s_count].
  destruct G as [G1 G2 [G3 G3'] G4 G5 G6 G7 G8 G9]. rewrite G4.
  destruct l as [|g l].
  - cbn. rewrite G1. reflexivity.
  - (* the frame at the top is destroyed, then once more *)
    cbn [List.length pop_all].
    unfold pop_unsafe at 1. cbn [s_count s_current s_live s_items]. rewrite G1, G6.
    cbn [List.length top layout object_at remove_at]. rewrite Z.eqb_refl.
    rewrite (nth_error_upd _ _ _ _ _ (S (List.length l)) EU), G4. cbn [List.length]. rewrite Nat.eqb_refl.
    destruct (upd items (S (List.length l)) None) as [items2|]; [|reflexivity].
    cbn [s_destroyed]. rewrite G1. cbn [top].
    unfold pop_unsafe at 1. cbn [s_count s_current s_live s_items].
    replace (object_at (layout l) (used l)) with (@None frame); [reflexivity|].
    assert (forall m a, Forall proper m -> used m <= a -> object_at (layout m) a = None) as K.
    { clear. induction m as [|x m IH]; intros a HF H; [reflexivity|]. cbn.
      inversion HF as [|? ? (P1 & P2 & _) HF']; subst. rewrite used_cons in H.
      pose proof (used_nonneg m HF'). destruct (Z.eqb_spec (used m) a); [lia|]. apply IH; [assumption|lia]. }
    symmetry. apply K; [|lia]. now inversion G8.
Qed.
End Proofs.
