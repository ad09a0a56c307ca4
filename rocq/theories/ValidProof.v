(** Whatever is read, the object keeps a content of its type. *)
From Coq Require Import List Arith ZArith NArith Ascii String Bool Lia Sorted.
From Verif Require Import Base Float NumericModel NumericSpec EnumModel EnumProof Base64Model DatetimeModel DatetimeSpec DatetimeProof RefsModel Json PathModel Types SerializeModel DeserializeModel
  DenoteSpec DenoteProof DenoteFacts SafetySpec SameProof MapFacts RewriteSpec RewriteProof IndetProof IndetSafe ValidSpec.
From Verif Require FragmentProps.
Import ListNotations.

Lemma wrap_range : forall k z, (1 <= width k)%Z -> in_range k (wrap k z).
Proof.
  intros [w s] z H. cbn in H. unfold in_range, wrap. cbn [width is_signed].
  assert (P : (2 ^ w = 2 * 2 ^ (w - 1))%Z) by (rewrite <- Z.pow_succ_r by lia; f_equal; lia).
  pose proof (Z.pow_pos_nonneg 2 (w - 1)). pose proof (Z.mod_pos_bound z (2 ^ w)). pose proof (Z.mod_pos_bound (z + 2 ^ (w - 1)) (2 ^ w)).
  cbn zeta. destruct s; repeat match goal with |- context [if ?b then _ else _] => destruct b eqn:? end; lia.
Qed.

Lemma zero_range : forall k, (1 <= width k)%Z -> in_range k 0.
Proof. intros [w s] H. cbn in H. unfold in_range. cbn [width is_signed]. pose proof (Z.pow_pos_nonneg 2 (w - 1)). pose proof (Z.pow_pos_nonneg 2 w). destruct s; lia. Qed.

Lemma odd_double : forall f, in_format binary64 f = true -> match f with FFin _ m _ => odd_pos m = true | _ => True end.
Proof. intros f I. destruct f; auto. cbn in I. destruct (odd_pos m); [reflexivity|discriminate]. Qed.

Lemma number_format : forall j f fm, good_format fm -> doubles j -> number j = Some f -> in_format fm (Float.round fm f) = true.
Proof.
  intros j f fm G D N. destruct j; try discriminate; injection N as <-; apply round_in_format; auto; apply odd_double.
  - apply round_in_format; [apply good64|apply integer_format].
  - apply D. constructor.
Qed.

Section Valid.
Variable e : env.
Variable root : json.
Hypothesis P : valid_classes e.

Lemma repeat_valid : forall u x n, valid e u x -> Forall (valid e u) (repeat x n).
Proof. intros u x n V. induction n; constructor; auto. Qed.

Lemma vinit_valid : forall t, valid e t (vinit e t).
Proof.
  induction t as [| | | | | | | | | | |u IHt|n u IHt|u IHt|o u IHt|a b IHa IHb|ts IHts|ts IHts|c|u IHt|u IHt|u IHt] using ty_ind'; cbn [vinit]; try (constructor; auto; fail).
  - apply valid_int, zero_range.
  - apply valid_time. lia.
  - apply valid_enum, zero_range.
  - apply valid_array; [apply repeat_length|]. now apply repeat_valid.
  - apply valid_set; [constructor|]. constructor.
  - apply valid_map; constructor.
  - apply valid_tuple. induction IHts; cbn; constructor; auto.
  - destruct ts as [|u ts]; [apply valid_variant_of_nothing|]. inversion IHts; subst. eapply valid_variant; [reflexivity|assumption].
  - apply P.
Qed.

Lemma dinit_valid : forall t, valid e t (dinit e t).
Proof.
  induction t as [| | | | | | | | | | |u IHt|n u IHt|u IHt|o u IHt|a b IHa IHb|ts IHts|ts IHts|c|u IHt|u IHt|u IHt] using ty_ind'; try (apply (vinit_valid _)); cbn [dinit]; try (now apply valid_unset).
  - apply valid_array; [apply repeat_length|]. now apply repeat_valid.
  - apply P.
Qed.

(** The objects behind shared pointers that were read. *)
Definition sound (st : dstate) : Prop := Forall (fun p => valid e (o_type (snd p)) (o_content (snd p))) (objects st).

Definition stays (t : ty) (old : val) (st st' : dstate) (v : val) : Prop := sound st -> valid e t old -> sound st' /\ valid e t v.

Definition keeps (t : ty) (f : reader) : Prop := forall old ctx loc st ok st' v, f old ctx loc st = DRet ok st' v -> stays t old st st' v.

Lemma stays_old : forall t old st, stays t old st st old.
Proof. intros t old st S V. auto. Qed.

Lemma stays_new : forall t old st v, valid e t v -> stays t old st st v.
Proof. intros t old st v V S _. auto. Qed.

Lemma keeps_reject : forall t exc why old ctx st ok st' v, reject exc why old ctx st = DRet ok st' v -> stays t old st st' v.
Proof. intros t exc why old ctx st ok st' v R. unfold reject in R. destruct exc; inversion R; subst. apply stays_old. Qed.

Lemma int_stays : forall exc k j old ctx loc st ok st' v, read_int exc k j old ctx loc st = DRet ok st' v ->
  st' = st /\ (ok = true /\ (exists z, v = VInt z /\ ((1 <= width k)%Z -> in_range k z)) \/ ok = false /\ v = old).
Proof.
  intros exc k j old ctx loc st ok st' v R. unfold read_int, reject in R.
  destruct j; try (destruct exc; inversion R; subst; auto; fail).
  destruct (is_kind _ _); [|destruct exc; inversion R; subst; auto; fail]. destruct (check_range _ _ _); [|destruct exc; inversion R; subst; auto; fail].
  injection R as <- <- <-. split; [reflexivity|]. left. split; [reflexivity|]. eexists. split; [reflexivity|]. apply wrap_range.
Qed.

Lemma scalar_keeps : forall exc t j, doubles j -> keeps t (read_scalar e exc t j).
Proof.
  intros exc t j D old ctx loc st ok st' v R. destruct t; cbn [read_scalar] in R; try discriminate.
  - destruct j; try (eapply keeps_reject; exact R). injection R as <- <- <-. apply stays_new. constructor.
  - destruct j; try (eapply keeps_reject; exact R). injection R as <- <- <-. apply stays_new. constructor.
  - destruct (int_stays _ _ _ _ _ _ _ _ _ _ R) as [-> [(_ & z & -> & G)|(_ & ->)]]; [apply stays_new; now constructor|apply stays_old].
  - unfold read_float in R. destruct (number j) eqn:N; [|eapply keeps_reject; exact R]. injection R as <- <- <-. apply stays_new. constructor.
    apply (number_format j); auto. apply good32.
  - unfold read_float in R. destruct (number j) eqn:N; [|eapply keeps_reject; exact R]. injection R as <- <- <-. apply stays_new. constructor.
    apply (number_format j); auto. apply good64.
  - destruct j; try (eapply keeps_reject; exact R). injection R as <- <- <-. apply stays_new. constructor.
  - destruct j; try (eapply keeps_reject; exact R). destruct (base64_decode _) as [[[] b]|]; try discriminate; [injection R as <- <- <-; apply stays_new; constructor|].
    unfold reject in R. destruct exc; [discriminate|]. injection R as <- <- <-. apply stays_new. constructor.
  - destruct j; try (eapply keeps_reject; exact R). destruct (parse_datetime _ _) as [[z|]|] eqn:E; try discriminate; [|eapply keeps_reject; exact R].
    injection R as <- <- <-. apply stays_new. constructor. apply parse_datetime_iff in E. destruct E as (? & ? & ? & ? & ? & ? & ? & ? & ? & ? & ? & ? & ? & B). exact B.
  - destruct j; try (eapply keeps_reject; exact R). destruct (parse_date _ _) as [[z|]|] eqn:E; try discriminate; [|eapply keeps_reject; exact R].
    injection R as <- <- <-. apply stays_new. constructor.
  - destruct (read_int exc k j VIndet ctx loc st) as [[] st1 x| | |] eqn:E; inversion R; subst.
    + destruct (int_stays _ _ _ _ _ _ _ _ _ _ E) as [-> [(_ & z & -> & G)|(F & _)]]; [apply stays_new; now constructor|discriminate].
    + destruct (int_stays _ _ _ _ _ _ _ _ _ _ E) as [-> _]. apply stays_old.
  - destruct j; try (eapply keeps_reject; exact R). destruct (enum_from_string _ _) as [z|] eqn:E; [|eapply keeps_reject; exact R]. injection R as <- <- <-. apply stays_new. constructor.
    right. apply enum_from_string_some in E. apply in_map_iff. now exists (z, s).
Qed.

Lemma items_valid : forall u add (Q : list val -> Prop), (forall l x, valid e u x -> Q l -> Q (add l x)) -> forall fs, Forall (keeps u) fs ->
  forall k acc ctx loc st ok st' v, Q acc -> read_items (dinit e u) add fs k acc ctx loc st = DRet ok st' v -> sound st -> sound st' /\ exists l, v = VList l /\ Q l.
Proof.
  intros u add Q A fs F. induction F as [|f fs K F IH]; intros k acc ctx loc st ok st' v Qa R S; cbn in R.
  - injection R as <- <- <-. eauto.
  - destruct (f _ _ _ _) as [[] st1 x| | |] eqn:E; try discriminate; destruct (K _ _ _ _ _ _ _ E S (dinit_valid u)) as [S1 V].
    + eapply IH; [|exact R|exact S1]. auto.
    + injection R as <- <- <-. eauto.
Qed.

Lemma array_length : forall init fs k acc ctx loc st st' l, read_items init push_back fs k acc ctx loc st = DRet true st' (VList l) -> List.length l = List.length acc + List.length fs.
Proof.
  intros init fs. induction fs as [|f fs IH]; intros k acc ctx loc st st' l R; cbn in R.
  - injection R as <- <-. cbn. lia.
  - destruct (f _ _ _ _) as [[] st1 x| | |]; try discriminate. apply IH in R. rewrite R. unfold push_back. rewrite app_length. cbn. lia.
Qed.

Lemma entries_valid : forall u fs, Forall (fun p => keeps u (snd p)) fs -> forall k acc ctx loc st ok st' v o,
  valid e (TMap o u) (VMap acc) -> read_entries (dinit e u) fs k acc ctx loc st = DRet ok st' v -> sound st -> sound st' /\ valid e (TMap o u) v.
Proof.
  intros u fs F. induction F as [|[name f] fs K F IH]; intros k acc ctx loc st ok st' v o V R S; cbn [read_entries snd] in *.
  - injection R as <- <- <-. auto.
  - destruct (f _ _ _ _) as [[] st1 x| | |] eqn:E; try discriminate; destruct (K _ _ _ _ _ _ _ E S (dinit_valid u)) as [S1 Vx].
    + eapply IH; [|exact R|exact S1]. inversion V as [| | | | | | | | | | | | | | |? ? ? Fv Sv| | | | | | | | | | |]; subst. apply valid_map; [|now apply map_assign_ascending].
      rewrite Forall_forall in *. intros p I. apply assign_in in I as [-> |I]; [exact Vx|auto].
    + injection R as <- <- <-. auto.
Qed.

Lemma tuple_valid : forall ts fs, Forall2 keeps ts fs -> forall k olds ctx loc st ok l st', read_tuple fs k olds ctx loc st = (ok, l, None, st') ->
  sound st -> Forall2 (valid e) ts olds -> sound st' /\ Forall2 (valid e) ts l.
Proof.
  intros ts fs F. induction F as [|t f ts fs K F IH]; intros k olds ctx loc st ok l st' R S G; cbn [read_tuple] in R.
  - injection R as <- <- <-. auto.
  - apply hd_Forall2 in G as [G1 G2]. destruct (f _ _ _ _) as [[] st1 x| | |] eqn:E; try discriminate; destruct (K _ _ _ _ _ _ _ E S G1) as [S1 V].
    + destruct (read_tuple _ _ _ _ _ _) as [[[ok2 l2] stop2] st2] eqn:R2. injection R as <- <- -> <-. destruct (IH _ _ _ _ _ _ _ _ R2 S1 G2). auto.
    + injection R as <- <- <-. auto.
Qed.

Definition member_valid (m : member) (x : val) : Prop :=
  (m_kind m <> MOptional -> valid e (m_ty m) x) /\ (m_kind m = MOptional -> x = VNone \/ exists y, x = VSome y /\ valid e (m_ty m) y).

Lemma members_valid : forall exc (fs : list (string * (bool -> ty -> reader))), (forall k f name exc t, find_fun fs 0 name = Some (k, f) -> keeps t (f exc t)) ->
  forall ms r seen flag olds ctx loc st ok l st', read_members e exc fs ms r seen flag olds ctx loc st = (ok, l, None, st') ->
  sound st -> Forall2 member_valid ms olds -> sound st' /\ Forall2 member_valid ms l.
Proof.
  intros exc fs A ms. induction ms as [|m ms IH]; intros r seen flag olds ctx loc st ok l st' R S G; cbn [read_members] in R.
  - injection R as <- <- <-. split; [exact S|constructor].
  - destruct (read_member _ _ _ _ _ _ _ _ _) as [ok1 st1 x| | |] eqn:E; try discriminate. apply hd_Forall2 in G as [G1 G2].
    assert (Gx : sound st1 /\ member_valid m x).
    { unfold read_member in E. destruct (find_fun fs 0 (m_name m)) as [[k f]|] eqn:F, (m_kind m) eqn:K.
      - destruct (A _ _ _ _ _ F _ _ _ _ _ _ _ E S) as [S1 V]; [apply G1; congruence|]. split; [exact S1|]. split; [auto|congruence].
      - destruct (A _ _ _ _ _ F _ _ _ _ _ _ _ E S) as [S1 V]; [apply G1; congruence|]. split; [exact S1|]. split; [auto|congruence].
      - destruct (f _ _ _ _ _ _) as [ok2 st2 y| | |] eqn:E2; try discriminate. injection E as <- <- <-.
        destruct (A _ _ _ _ _ F _ _ _ _ _ _ _ E2 S) as [S1 V]; [apply dinit_valid|]. split; [exact S1|]. split; [congruence|eauto].
      - destruct exc; [discriminate|]. injection E as <- <- <-. auto.
      - injection E as <- <- <-. auto.
      - injection E as <- <- <-. split; [exact S|]. split; [congruence|now left]. }
    destruct Gx as [S1 Gx].
    destruct r as [|r]; [destruct (read_members _ _ _ _ 0 _ _ _ _ _ _) as [[[? l2] stop2] ?] eqn:R2|destruct (read_members _ _ _ _ r _ _ _ _ _ _) as [[[? l2] stop2] ?] eqn:R2];
      injection R as <- <- -> <-; destruct (IH _ _ _ _ _ _ _ _ _ _ R2 S1 G2); auto.
Qed.

Lemma found_sound : forall st place o, sound st -> ref_get place_eqb (objects st) place = Some o -> valid e (o_type o) (o_content o).
Proof.
  intros st place o S. unfold sound in S. induction S as [|[k x] t H S IH]; cbn; [discriminate|]. destruct (place_eqb k place); [intros E; injection E as <-; exact H|exact IH].
Qed.

Lemma put_sound : forall t place o, Forall (fun p => valid e (o_type (snd p)) (o_content (snd p))) t -> valid e (o_type o) (o_content o) ->
  Forall (fun p => valid e (o_type (snd p)) (o_content (snd p))) (ref_put place_eqb t place o).
Proof. intros t place o F V. unfold ref_put. destruct (ref_get _ t place); [exact F|]. apply Forall_app. split; [exact F|]. constructor; [exact V|constructor]. Qed.

Lemma all_valid : forall j, doubles j -> forall t exc, keeps t (deser e root j exc t).
Proof.
  assert (Main : forall j, doubles j -> (forall l, j = JArr l -> Forall (fun j => forall t exc, keeps t (deser e root j exc t)) l) ->
    (forall l, j = JObj l -> Forall (fun p => forall t exc, keeps t (deser e root (snd p) exc t)) l) -> forall t exc, keeps t (deser e root j exc t)).
  { intros j D Fa Fo t.
    assert (Tu : forall exc l ts fs, j = JArr l -> apply_types (map (fun f => f exc) (map (deser e root) l)) ts = Some fs -> Forall2 keeps ts fs).
    { intros exc l ts fs E. specialize (Fa l E). clear E. revert ts fs. induction Fa as [|j' l A F IH]; intros [|t' ts] fs H; cbn in H; try discriminate.
      - injection H as <-. constructor.
      - destruct (apply_types _ ts) eqn:E; [|discriminate]. injection H as <-. constructor; [apply A|now apply IH]. }
    assert (It : forall exc l u, j = JArr l -> Forall (keeps u) (map (fun f => f exc u) (map (deser e root) l))).
    { intros exc l u E. specialize (Fa l E). clear - Fa. induction Fa as [|j' l A F IH]; constructor; auto. }
    induction t as [| | | | | | | | | | |u IHt|n u IHt|u IHt|o u IHt|a b IHa IHb|ts IHts|ts IHts|c|u IHt|u IHt|u IHt] using ty_ind'; intros exc old ctx loc st ok st' v R;
      rewrite deser_unfold in R; cbn [deser_step] in R; try discriminate; try (eapply scalar_keeps; [exact D|exact R]).
    - destruct j as [| | | | |l|]; try (eapply keeps_reject; exact R). intros S _.
      destruct (items_valid u push_back (Forall (valid e u)) ltac:(intros l0 x0 V0 F0; apply Forall_app; auto) _ (It exc l u eq_refl) _ _ _ _ _ _ _ _ (Forall_nil _) R S) as [S1 (l' & -> & G)].
      split; [exact S1|]. now apply valid_vector.
    - destruct j as [| | | | |l|]; try (eapply keeps_reject; exact R). destruct (negb _) eqn:N; [eapply keeps_reject; exact R|]. unfold read_array in R.
      apply negb_false_iff, Nat.eqb_eq in N.
      destruct (read_items _ _ _ _ _ _ _ _) as [[] st1 x| | |] eqn:E; inversion R; subst; intros S V;
        destruct (items_valid u push_back (Forall (valid e u)) ltac:(intros l0 x0 V0 F0; apply Forall_app; auto) _ (It exc l u eq_refl) _ _ _ _ _ _ _ _ (Forall_nil _) E S) as [S1 (l' & -> & G)]; auto.
      split; [exact S1|]. apply valid_array; [|exact G]. apply array_length in E. rewrite E, !map_length. reflexivity.
    - destruct j as [| | | | |l|]; try (eapply keeps_reject; exact R). intros S _.
      destruct (items_valid u (set_insert (less e u)) (fun l => Forall (valid e u) l /\ (ordered (less e u) -> rising (less e u) l))
        ltac:(intros l0 x0 V0 [F0 O0]; split; [rewrite Forall_forall in *; intros y I; apply insert_in in I as [-> |I]; auto|intros O; apply insert_rising; auto])
        _ (It exc l u eq_refl) _ _ _ _ _ _ _ _ (conj (Forall_nil _) (fun _ => SSorted_nil _)) R S) as [S1 (l' & -> & G1 & G2)].
      split; [exact S1|]. now apply valid_set.
    - destruct j as [| | | | | |l]; try (eapply keeps_reject; exact R). intros S _.
      refine (entries_valid u _ _ _ _ _ _ _ _ _ _ _ _ R S); [|apply valid_map; constructor].
      specialize (Fo l eq_refl). clear - Fo. rewrite map_map. cbn. induction Fo as [|p l A F IH]; constructor; auto. apply A.
    - destruct j as [| | | | |l|]; try (eapply keeps_reject; exact R). destruct (apply_types _ _) eqn:E; [|eapply keeps_reject; exact R].
      pose proof (Tu _ _ _ _ eq_refl E) as K. destruct (read_tuple _ _ _ _ _ _) as [[[ok2 l2] [?|]] st2] eqn:R2; cbn in R.
      { exfalso. exact (tuple_stop _ _ _ _ _ _ _ _ _ _ R2 _ _ _ R). }
      injection R as <- <- <-. intros S V. inversion V; subst; try contradiction. cbn [parts_of] in R2. destruct (tuple_valid _ _ K _ _ _ _ _ _ _ _ R2 S) as [S1 G]; [repeat constructor; assumption|].
      split; [exact S1|]. inversion G as [|? ? ? ? G1 G2]; subst; inversion G2 as [|? ? ? ? G3 G4]; subst; inversion G4; subst; now apply valid_pair.
    - destruct j as [| | | | |l|]; try (eapply keeps_reject; exact R). destruct (apply_types _ _) eqn:E; [|eapply keeps_reject; exact R].
      pose proof (Tu _ _ _ _ eq_refl E) as K. destruct (read_tuple _ _ _ _ _ _) as [[[ok2 l2] [?|]] st2] eqn:R2; cbn in R.
      { exfalso. exact (tuple_stop _ _ _ _ _ _ _ _ _ _ R2 _ _ _ R). }
      injection R as <- <- <-. intros S V. inversion V; subst; try contradiction. cbn [parts_of] in R2. destruct (tuple_valid _ _ K _ _ _ _ _ _ _ _ R2 S) as [S1 G]; [assumption|].
      split; [exact S1|]. now apply valid_tuple.
    - assert (G : forall us i st o r st', Forall (fun t => forall exc, keeps t (deser e root j exc t)) us -> sound st ->
        read_variant (map (fun u => (dinit e u, deser e root j false u)) us) i ctx loc st = (o, r, st') -> (r = None -> sound st') /\
        match o with Some (i', x) => exists k u, i' = i + k /\ nth_error us k = Some u /\ valid e u x /\ sound st' | None => True end).
      { clear - P. intros us. induction us as [|u us IH]; intros i st o r st' F S R; cbn [map read_variant] in R; [injection R as <- <- <-; auto|]. inversion F as [|? ? F1 F2]; subst.
        destruct (deser _ _ _ _ _ _ _ _ _) as [[] st1 y| | |] eqn:E.
        - injection R as <- <- <-. destruct (F1 _ _ _ _ _ _ _ _ E S (dinit_valid u)) as [S1 V]. split; [auto|]. exists 0, u. repeat split; auto; lia.
        - destruct (F1 _ _ _ _ _ _ _ _ E S (dinit_valid u)) as [S1 _]. destruct (IH _ _ _ _ _ F2 S1 R) as [A B]. split; [exact A|].
          destruct o as [[i' x]|]; [|exact I]. destruct B as (k & u' & -> & N & G). exists (1 + k), u'. split; [lia|]. auto.
        - injection R as <- <- <-. split; [discriminate|exact I].
        - injection R as <- <- <-. split; [discriminate|exact I].
        - injection R as <- <- <-. split; [discriminate|exact I]. }
      destruct (read_variant _ _ _ _ _) as [[[[i x]|] r] st1] eqn:E; intros S V; destruct (G _ _ _ _ _ _ IHts S E) as [G1 G2].
      + injection R as <- <- <-. destruct G2 as (k & u & -> & N & Gx & S1). cbn. split; [exact S1|]. eapply valid_variant; eauto.
      + destruct r as [r|].
        * exfalso. subst r. clear - E. revert E. generalize 0 as i, st as st0.
          induction ts as [|u ts IH]; intros i st0 E; cbn [map read_variant] in E; [discriminate|].
          destruct (deser _ _ _ _ _ _ _ _ _) as [[] ? y| | |]; try discriminate. eauto.
        * unfold reject in R. destruct exc; [discriminate|]. injection R as <- <- <-. auto.
    - destruct j as [| | | | | |l]; try (eapply keeps_reject; exact R).
      destruct (read_members _ _ _ _ _ _ _ _ _ _ _) as [[[ok2 l2] [?|]] st2] eqn:R2; cbn in R.
      { exfalso. exact (members_stop _ _ _ _ _ _ _ _ _ _ _ _ _ _ _ R2 _ _ _ R). }
      injection R as <- <- <-. intros S F. inversion F; subst; try contradiction. cbn [parts_of] in R2.
      assert (A : forall k f name exc t, find_fun (map (fun p : string * json => (fst p, deser e root (snd p))) l) 0 name = Some (k, f) -> keeps t (f exc t)).
      { intros k f name exc' t Ef. rewrite find_fun_map in Ef. destruct (find_member l name) eqn:Fm, (find_index l name); try discriminate. injection Ef as <- <-.
        apply find_member_In in Fm. specialize (Fo l eq_refl). rewrite Forall_forall in Fo. apply (Fo _ Fm). }
      destruct (members_valid exc _ A _ _ _ _ _ _ _ _ _ _ _ R2 S ltac:(assumption)) as [S1 G]. split; [exact S1|now apply valid_class].
    - intros S V. destruct (deser _ _ _ _ _ _ _ _ _) as [[] st1 x| | |] eqn:E; inversion R; subst; destruct (IHt _ _ _ _ _ _ _ _ E S (vinit_valid u)) as [S1 V1]; auto.
      split; [exact S1|]. now apply valid_unique.
    - intros S V. destruct (match j with JObj l => find_member l "$ref" | _ => None end) as [target|].
      + unfold read_ref in R. destruct target; try discriminate. destruct (parse_reference _) as [tokens|]; [|discriminate].
        destruct (pointer_get root tokens) as [[place ?]|]; [|injection R as <- <- <-; auto]. destruct (ref_get _ _ _) as [o|] eqn:G; [|injection R as <- <- <-; auto].
        destruct (ty_eqb _ _) eqn:T; [|discriminate]. injection R as <- <- <-. split; [exact S|]. apply valid_shared. apply FragmentProps.ty_eqb_true in T. rewrite <- T. now apply (found_sound st place).
      + unfold register_shared in R. destruct (deser _ _ _ _ _ _ _ _ _) as [[] st1 x| | |] eqn:E; inversion R; subst; destruct (IHt _ _ _ _ _ _ _ _ E S (vinit_valid u)) as [S1 V1].
        * split; [|now apply valid_shared]. now apply put_sound.
        * split; [exact S1|now apply valid_shared]. }
  induction j as [|b|z|f|s|l IH|l IH] using json_ind'; intros D; apply Main; auto; intros ? E; try discriminate; injection E as <-; rewrite Forall_forall in *; intros x I; apply IH; auto; intros f If; apply D.
  - eapply inside_element; eauto.
  - destruct x. eapply inside_member; eauto.
Qed.
End Valid.
