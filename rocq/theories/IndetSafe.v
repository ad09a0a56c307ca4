(** When nothing indeterminate is copied. *)
From Coq Require Import List Arith ZArith NArith Ascii String Bool Lia.
From Verif Require Import Base Float NumericModel EnumModel Base64Model DatetimeModel RefsModel Json PathModel Types SerializeModel DeserializeModel
  DenoteSpec DenoteProof DenoteFacts SameProof IndetModel IndetSpec IndetProof.
Import ListNotations.

(** * The same, if what is moved has a value *)

Section Same.
Variable e : env.
Variable root : json.
Variable Q : bool -> ty -> Prop.
Hypothesis Qvector : forall exc u, Q exc (TVector u) -> Q exc u.
Hypothesis Qset : forall exc u, Q exc (TSet u) -> Q exc u.
Hypothesis Qarray : forall exc n u, Q exc (TArray n u) -> Q exc u.
Hypothesis Qmap : forall exc o u, Q exc (TMap o u) -> Q exc u.
Hypothesis Qpair : forall exc a b, Q exc (TPair a b) -> Q exc a /\ Q exc b.
Hypothesis Qtuple : forall exc ts, Q exc (TTuple ts) -> Forall (Q exc) ts.
Hypothesis Qvariant : forall exc ts, Q exc (TVariant ts) -> Forall (Q false) ts.
Hypothesis Qunique : forall exc u, Q exc (TUnique u) -> Q exc u.
Hypothesis Qshared : forall exc u, Q exc (TShared u) -> Q exc u.
Hypothesis Qclass : forall exc c m, Q exc (TClass c) -> In m (c_members (class_of e c)) -> Q exc (m_ty m).
Hypothesis item : forall exc u j ctx loc st st' v, Q exc u ->
  deser e root j exc u (dinit e u) ctx loc st = DRet true st' v -> determinate e v u = true.
Hypothesis optional : forall exc c m j ctx loc st ok st' v, Q exc (TClass c) -> In m (c_members (class_of e c)) -> m_kind m = MOptional ->
  deser e root j exc (m_ty m) (dinit e (m_ty m)) ctx loc st = DRet ok st' v -> determinate e v (m_ty m) = true.

Definition equal (f g : reader) : Prop := forall old ctx loc st, f old ctx loc st = g old ctx loc st.
Definition equal_at (init : val) (f g : reader) : Prop := forall ctx loc st, f init ctx loc st = g init ctx loc st.

Lemma items_equal : forall init add fs gs, Forall2 (equal_at init) fs gs -> forall k acc ctx loc st,
  read_items init add fs k acc ctx loc st = read_items init add gs k acc ctx loc st.
Proof.
  intros init add fs gs F. induction F as [|f g fs gs E F IH]; intros k acc ctx loc st; cbn; auto. rewrite E. destruct (g _ _ _ _) as [[] ? ?| | |]; auto.
Qed.

Lemma entries_equal : forall init fs gs, Forall2 (fun p q => fst p = fst q /\ equal_at init (snd p) (snd q)) fs gs -> forall k acc ctx loc st,
  read_entries init fs k acc ctx loc st = read_entries init gs k acc ctx loc st.
Proof.
  intros init fs gs F. induction F as [|[n f] [n' g] fs gs [En E] F IH]; intros k acc ctx loc st; cbn [fst snd read_entries] in *; auto; subst n'.
  rewrite E. destruct (g _ _ _ _) as [[] ? ?| | |]; auto.
Qed.

Lemma tuple_equal : forall fs gs, Forall2 equal fs gs -> forall k olds ctx loc st,
  read_tuple fs k olds ctx loc st = read_tuple gs k olds ctx loc st.
Proof.
  intros fs gs F. induction F as [|f g fs gs E F IH]; intros k olds ctx loc st; [reflexivity|]. cbn [read_tuple]. rewrite E.
  destruct (g _ _ _ _) as [[] ? ?| | |]; auto. now rewrite IH.
Qed.

Lemma variant_equal : forall fs gs, Forall2 (fun p q => fst p = fst q /\ equal_at (fst p) (snd p) (snd q)) fs gs -> forall i ctx loc st,
  read_variant fs i ctx loc st = read_variant gs i ctx loc st.
Proof.
  intros fs gs F. induction F as [|[n f] [n' g] fs gs [En E] F IH]; intros i ctx loc st; cbn [fst snd read_variant] in *; auto; subst n'.
  rewrite E. destruct (g _ _ _ _) as [[] ? ?| | |]; auto.
Qed.

Definition agree (j : json) : Prop := forall t exc, Q exc t -> equal (mdeser e root j exc t) (deser e root j exc t).

Lemma moving_equal : forall j exc u, Q exc u -> equal_at (dinit e u) (mdeser e root j exc u) (deser e root j exc u) ->
  equal_at (dinit e u) (moving e u (mdeser e root j exc u)) (deser e root j exc u).
Proof.
  intros j exc u q E ctx loc st. unfold moving. rewrite E. destruct (deser e root j exc u (dinit e u) ctx loc st) as [[] st' v| | |] eqn:R; auto.
  now rewrite (item _ _ _ _ _ _ _ _ q R).
Qed.

Lemma members_equal : forall exc c l, Q exc (TClass c) -> Forall (fun p => agree (snd p)) l -> forall ms,
  incl ms (c_members (class_of e c)) -> forall r seen flag olds ctx loc st,
  m_members e exc (map (fun p => (fst p, mdeser e root (snd p))) l) ms r seen flag olds ctx loc st =
  read_members e exc (map (fun p => (fst p, deser e root (snd p))) l) ms r seen flag olds ctx loc st.
Proof.
  intros exc c l q A ms. induction ms as [|m ms IH]; intros I r seen flag olds ctx loc st; [reflexivity|]. cbn [m_members read_members].
  assert (Im : In m (c_members (class_of e c))) by (apply I; now left).
  assert (E : m_member e exc (map (fun p => (fst p, mdeser e root (snd p))) l) m flag (hd VIndet olds) ctx loc st =
              read_member e exc (map (fun p => (fst p, deser e root (snd p))) l) m flag (hd VIndet olds) ctx loc st).
  { unfold m_member, read_member. rewrite !find_fun_map. destruct (find_member l (m_name m)) as [j|] eqn:F, (find_index l (m_name m)); auto.
    apply find_member_In in F. rewrite Forall_forall in A. specialize (A _ F (m_ty m) exc (Qclass _ _ _ q Im)). cbn [snd] in A. rewrite !A.
    destruct (m_kind m) eqn:K; auto. destruct (deser e root j exc (m_ty m) (dinit e (m_ty m)) (at_name ctx (m_name m)) (loc ++ [n]) st) as [ok st' v| | |] eqn:R; auto.
    now rewrite (optional _ _ _ _ _ _ _ _ _ _ q Im K R). }
  rewrite E. destruct (read_member _ _ _ _ _ _ _ _ _) as [ok st' x| | |]; auto. destruct r; rewrite IH; auto; intros x' Ix; apply I; now right.
Qed.

Lemma applied_equal : forall exc l, Forall agree l -> forall ts, Forall (Q exc) ts ->
  match apply_types (map (fun f => f exc) (map (mdeser e root) l)) ts, apply_types (map (fun f => f exc) (map (deser e root) l)) ts with
  | Some fs, Some gs => Forall2 equal fs gs
  | None, None => True
  | _, _ => False
  end.
Proof.
  intros exc l A. induction A as [|j l A As IH]; intros [|t ts] q; cbn; auto. inversion q; subst.
  specialize (IH ts H2). destruct (apply_types _ ts), (apply_types _ ts); try tauto. constructor; auto.
Qed.

Lemma all_agree : forall j, agree j.
Proof.
  assert (Main : forall j, (forall l, j = JArr l -> Forall agree l) -> (forall l, j = JObj l -> Forall (fun p => agree (snd p)) l) -> agree j).
  { intros j Fa Fo t.
    assert (M : forall exc u l, j = JArr l -> Q exc u -> Forall2 (equal_at (dinit e u)) (map (fun f => moving e u (f exc u)) (map (mdeser e root) l)) (map (fun f => f exc u) (map (deser e root) l))).
    { intros exc u l E q. specialize (Fa l E). clear E. induction Fa as [|j' l A F IH]; constructor; auto. apply moving_equal; [exact q|]. intros ctx loc st. now apply A. }
    induction t as [| | | | | | | | | | |u IHt|n u IHt|u IHt|o u IHt|a b IHa IHb|ts IHts|ts IHts|c|u IHt|u IHt|u IHt] using ty_ind'; intros exc q old ctx loc st;
      rewrite deser_unfold, mdeser_unfold; cbn [deser_step mdeser_step]; auto.
    - destruct j; auto. apply items_equal. eauto.
    - destruct j; auto. destruct (negb _); auto. unfold read_array. erewrite items_equal; [reflexivity|]. eauto.
    - destruct j; auto. apply items_equal. eauto.
    - destruct j as [| | | | | |l]; auto. apply entries_equal. specialize (Fo l eq_refl). apply Qmap in q. clear - Fo q item. induction Fo as [|p fs A Fo IH]; constructor; auto. split; [reflexivity|].
      apply moving_equal; [exact q|]. intros ctx loc st. now apply A.
    - destruct j as [| | | | |l|]; auto. pose proof (applied_equal exc l (Fa l eq_refl) [a; b]) as P. destruct (Qpair _ _ _ q). specialize (P ltac:(auto)).
      destruct (apply_types _ _), (apply_types _ _); try tauto; auto. now rewrite (tuple_equal _ _ P).
    - destruct j as [| | | | |l|]; auto. pose proof (applied_equal exc l (Fa l eq_refl) ts (Qtuple _ _ q)) as P.
      destruct (apply_types _ _), (apply_types _ _); try tauto; auto. now rewrite (tuple_equal _ _ P).
    - erewrite variant_equal; [reflexivity|]. apply Qvariant in q. clear - q IHts item. induction IHts as [|u ts U F IH]; inversion q; subst; constructor; auto. split; [reflexivity|].
      apply moving_equal; [assumption|]. intros ctx loc st. now apply U.
    - destruct j as [| | | | | |l]; auto. erewrite members_equal; eauto using incl_refl.
    - rewrite IHt; eauto.
    - destruct (match j with JObj l => find_member l "$ref" | _ => None end); auto. rewrite IHt; eauto. }
  induction j as [|b|z|f|s|l IH|l IH] using json_ind'; apply Main; intros ? E; try discriminate; injection E as <-; exact IH.
Qed.
End Same.

(** * What is read from scratch *)

Lemma hd_Forall2 : forall A (R : A -> val -> Prop) a l olds, Forall2 R (a :: l) olds -> R a (hd VIndet olds) /\ Forall2 R l (tl olds).
Proof. intros A R a l olds F. inversion F; subst. auto. Qed.

Section Values.
Variable e : env.
Hypothesis P : prepared e.

Lemma vinit_ready : forall t, ready e t (vinit e t).
Proof.
  induction t using ty_ind'; try (now apply ready_whole); cbn [vinit].
  - now apply ready_pair.
  - apply ready_tuple. induction H; constructor; auto.
  - apply P.
Qed.

Lemma dinit_ready : forall t, ready e t (dinit e t).
Proof. intros []; cbn [dinit]; try (now apply ready_whole); try apply vinit_ready. apply P. Qed.

Lemma scalar_given : forall j t old v, (forall l, j <> JArr l) -> (forall l, j <> JObj l) -> denotes e t old j v -> given e t v.
Proof.
  intros j t old v A O D. induction D; try (now apply given_owning); try (now apply given_bare); try (exfalso; eapply A; reflexivity); try (exfalso; eapply O; reflexivity).
Qed.

Lemma denotes_given : forall j t old v, denotes e t old j v -> ready e t old -> given e t v.
Proof.
  induction j as [|b|z|f|s|l IH|l IH] using json_ind'; intros t old v D; try (intros _; eapply scalar_given; [| |exact D]; discriminate).
  - assert (G : forall ts olds js vs, Forall (fun j => forall t old v, denotes e t old j v -> ready e t old -> given e t v) js -> parts_denote (denotes e) ts olds js vs ->
              Forall2 (ready e) ts olds -> Forall2 (given e) ts vs).
    { clear. intros ts olds js vs F D. induction D as [|t ts olds j js v vs D Ds IHD]; intros R; constructor; inversion F; subst; apply hd_Forall2 in R as [R1 R2]; eauto. }
    inversion D as [ | | | | | | | | | | | | |u ? js vs F|u ? js vs F|u ? js vs F| |a b ? js vs F|ts ? js vs F| |]; subst; intros R; try (now apply given_owning).
    + apply given_array. clear - F IH P. induction F as [|j v js vs D F IHF]; inversion IH; subst; constructor; eauto using dinit_ready.
    + inversion R; subst; [contradiction|]. cbn [components] in F. apply (G _ _ _ _ IH) in F; [|auto].
      inversion F as [|? ? ? ? G1 G2]; subst. inversion G2 as [|? ? ? ? G3 G4]; subst. inversion G4; subst. now apply given_pair.
    + inversion R; subst; [contradiction|]. cbn [components] in F. apply (G _ _ _ _ IH) in F; [|auto]. now apply given_tuple.
  - inversion D as [ | | | | | | | | | | | | | | | | | | |c ? ? vs F|]; subst; intros R; try (now apply given_owning).
    inversion R as [| | |? olds Rl]; subst; [contradiction|]. cbn [components] in F. apply given_class. clear D R.
    revert vs F. induction Rl as [|m x ms xs [R1 R2] Rl IHR]; intros vs F; inversion F as [|? ? ? v vs' Dm F']; subst; constructor; [|exact (IHR _ F')].
    cbn [hd] in Dm. inversion Dm as [j v' K Fj Dj| K Fj|j v' K Fj Dj|K Fj]; subst; split; intros K'; try congruence.
    + apply find_member_In in Fj. rewrite Forall_forall in IH. eapply (IH _ Fj); eauto.
    + auto.
    + right. exists v'. split; [reflexivity|]. apply find_member_In in Fj. rewrite Forall_forall in IH. eapply (IH _ Fj); eauto using dinit_ready.
    + now left.
Qed.
End Values.

(** * What is read into an object with values *)

Inductive firm (e : env) : ty -> val -> Prop :=
| firm_whole : forall t v, replaced_whole t -> firm e t v
| firm_pair : forall a b x y, firm e a x -> firm e b y -> firm e (TPair a b) (VList [x; y])
| firm_tuple : forall ts l, Forall2 (firm e) ts l -> firm e (TTuple ts) (VList l)
| firm_class : forall c v, given e (TClass c) v -> firm e (TClass c) v.

Section Kept.
Variable e : env.
Variable root : json.
Hypothesis P : initialised e.
Hypothesis O : steady_optionals e.

Lemma vinit_firm : forall t, firm e t (vinit e t).
Proof.
  induction t using ty_ind'; try (now apply firm_whole); cbn [vinit].
  - now apply firm_pair.
  - apply firm_tuple. induction H; constructor; auto.
  - apply firm_class, P.
Qed.

Lemma dinit_firm : forall t, firm e t (dinit e t).
Proof. intros []; cbn [dinit]; try (now apply firm_whole); try apply vinit_firm. apply firm_class, P. Qed.

Definition kept (t : ty) (old : val) (ok : bool) (v : val) : Prop := (ok = true -> firm e t old -> given e t v) /\ (given e t old -> given e t v).

Definition keeps (t : ty) (f : reader) : Prop := forall old ctx loc st ok st' v, f old ctx loc st = DRet ok st' v -> kept t old ok v.

Lemma kept_given : forall t old ok v, given e t v -> kept t old ok v.
Proof. intros t old ok v G. split; auto. Qed.

Lemma kept_owning : forall t old ok v, owning t -> kept t old ok v.
Proof. intros t old ok v H. now apply kept_given, given_owning. Qed.

Lemma kept_old : forall t old, kept t old false old.
Proof. intros t old. split; [discriminate|auto]. Qed.

Lemma keeps_reject : forall t exc why old ctx st ok st' v, reject exc why old ctx st = DRet ok st' v -> kept t old ok v.
Proof. intros t exc why old ctx st ok st' v R. unfold reject in R. destruct exc; inversion R; subst. apply kept_old. Qed.

Lemma int_kept : forall exc k t j old ctx loc st ok st' v, bare t -> read_int exc k j old ctx loc st = DRet ok st' v -> ok = true /\ given e t v \/ ok = false /\ v = old.
Proof.
  intros exc k t j old ctx loc st ok st' v B R. unfold read_int, reject in R.
  destruct j; try (destruct exc; inversion R; subst; auto; fail).
  destruct (is_kind _ _); [|destruct exc; inversion R; subst; auto; fail]. destruct (check_range _ _ _); [|destruct exc; inversion R; subst; auto; fail].
  injection R as <- <- <-. left. split; [reflexivity|]. now apply given_bare.
Qed.

Lemma scalar_keeps : forall exc t j, keeps t (read_scalar e exc t j).
Proof.
  intros exc t j old ctx loc st ok st' v R. destruct t; try (apply kept_owning; exact I); cbn [read_scalar] in R; try discriminate.
  - destruct j; try (eapply keeps_reject; exact R). injection R as <- <- <-. now apply kept_given, given_bare.
  - destruct (int_kept _ _ (TInt k) _ _ _ _ _ _ _ _ I R) as [[-> G]|[-> ->]]; [now apply kept_given|apply kept_old].
  - unfold read_float in R. destruct (number j); [|eapply keeps_reject; exact R]. injection R as <- <- <-. now apply kept_given, given_bare.
  - unfold read_float in R. destruct (number j); [|eapply keeps_reject; exact R]. injection R as <- <- <-. now apply kept_given, given_bare.
  - destruct j; try (eapply keeps_reject; exact R). destruct (parse_date _ _) as [[z|]|]; [|eapply keeps_reject; exact R|discriminate]. injection R as <- <- <-. now apply kept_given, given_bare.
  - destruct (read_int exc k j VIndet ctx loc st) as [[] st1 x| | |] eqn:E; inversion R; subst; [|apply kept_old].
    destruct (int_kept _ _ (TEnumInt k) _ _ _ _ _ _ _ _ I E) as [[_ G]|[F _]]; [now apply kept_given|discriminate].
  - destruct j; try (eapply keeps_reject; exact R). destruct (enum_from_string _ _); [|eapply keeps_reject; exact R]. injection R as <- <- <-. now apply kept_given, given_bare.
Qed.

Lemma items_given : forall u fs, Forall (keeps u) fs -> forall k acc ctx loc st st' v, Forall (given e u) acc ->
  read_items (dinit e u) push_back fs k acc ctx loc st = DRet true st' v -> exists l, v = VList l /\ Forall (given e u) l.
Proof.
  intros u fs F. induction F as [|f fs K F IH]; intros k acc ctx loc st st' v A R; cbn in R.
  - injection R as <- <-. eauto.
  - destruct (f _ _ _ _) as [[] st1 x| | |] eqn:E; try discriminate. apply K in E. eapply IH; [|exact R]. apply Forall_app. split; auto. constructor; auto.
    apply (proj1 E); [reflexivity|apply dinit_firm].
Qed.

Lemma tuple_keeps : forall ts fs, Forall2 keeps ts fs -> forall k olds ctx loc st ok l st', read_tuple fs k olds ctx loc st = (ok, l, None, st') ->
  (ok = true -> Forall2 (firm e) ts olds -> Forall2 (given e) ts l) /\ (Forall2 (given e) ts olds -> Forall2 (given e) ts l).
Proof.
  intros ts fs F. induction F as [|t f ts fs K F IH]; intros k olds ctx loc st ok l st' R; cbn [read_tuple] in R.
  - injection R as <- <- <-. split; constructor.
  - destruct (f _ _ _ _) as [[] st1 x| | |] eqn:E; try discriminate.
    + destruct (read_tuple _ _ _ _ _ _) as [[[ok2 l2] stop2] st2] eqn:R2. injection R as <- <- -> <-. apply K in E. apply IH in R2.
      split; [intros T G|intros G]; apply hd_Forall2 in G as [G1 G2]; constructor; [exact (proj1 E eq_refl G1)|exact (proj1 R2 T G2)|exact (proj2 E G1)|exact (proj2 R2 G2)].
    + injection R as <- <- <-. apply K in E. split; [discriminate|]. intros G. apply hd_Forall2 in G as [G1 G2]. constructor; [exact (proj2 E G1)|exact G2].
Qed.

Lemma tuple_stop : forall fs k olds ctx loc st ok l r st', read_tuple fs k olds ctx loc st = (ok, l, Some r, st') -> forall b s x, r <> DRet b s x.
Proof.
  induction fs as [|f fs IH]; intros k olds ctx loc st ok l r st' R; cbn [read_tuple] in R; [discriminate|].
  destruct (f _ _ _ _) as [[] st1 y| | |]; try (injection R as <- <- <- <-; discriminate); try discriminate.
  destruct (read_tuple _ _ _ _ _ _) as [[[ok2 l2] stop2] st2] eqn:R2. injection R as <- <- -> <-. eapply IH; exact R2.
Qed.

Lemma members_stop : forall exc fs ms c seen flag olds ctx loc st ok l r st', read_members e exc fs ms c seen flag olds ctx loc st = (ok, l, Some r, st') -> forall b s x, r <> DRet b s x.
Proof.
  intros exc fs ms. induction ms as [|m ms IH]; intros c seen flag olds ctx loc st ok l r st' R; cbn [read_members] in R; [discriminate|].
  destruct (read_member _ _ _ _ _ _ _ _ _) as [ok1 st1 x| | |]; try (injection R as <- <- <- <-; discriminate).
  destruct c as [|c]; [destruct (read_members _ _ _ _ 0 _ _ _ _ _ _) as [[[? l2] stop2] ?] eqn:R2|destruct (read_members _ _ _ _ c _ _ _ _ _ _) as [[[? l2] stop2] ?] eqn:R2];
    injection R as <- <- -> <-; eapply IH; exact R2.
Qed.

Definition member_given (m : member) (x : val) : Prop :=
  (m_kind m <> MOptional -> given e (m_ty m) x) /\ (m_kind m = MOptional -> x = VNone \/ exists y, x = VSome y /\ given e (m_ty m) y).

Lemma members_keep : forall exc c (fs : list (string * (bool -> ty -> reader))), (forall k f name exc t, find_fun fs 0 name = Some (k, f) -> keeps t (f exc t)) ->
  forall ms, incl ms (c_members (class_of e c)) -> forall r seen flag olds ctx loc st ok l st',
  read_members e exc fs ms r seen flag olds ctx loc st = (ok, l, None, st') -> Forall2 member_given ms olds -> Forall2 member_given ms l.
Proof.
  intros exc c fs A ms. induction ms as [|m ms IH]; intros I r seen flag olds ctx loc st ok l st' R G; cbn [read_members] in R.
  - injection R as <- <- <-. constructor.
  - destruct (read_member _ _ _ _ _ _ _ _ _) as [ok1 st1 x| | |] eqn:E; try discriminate. apply hd_Forall2 in G as [G1 G2].
    assert (Gx : member_given m x).
    { unfold read_member in E. destruct (find_fun fs 0 (m_name m)) as [[k f]|] eqn:F, (m_kind m) eqn:K.
      - apply (A _ _ _ _ _ F) in E. split; [intros _; apply (proj2 E), G1; congruence|congruence].
      - apply (A _ _ _ _ _ F) in E. split; [intros _; apply (proj2 E), G1; congruence|congruence].
      - destruct (f _ _ _ _ _ _) as [ok2 st2 y| | |] eqn:E2; try discriminate. injection E as <- <- <-. apply (A _ _ _ _ _ F) in E2.
        split; [congruence|]. intros _. right. exists y. split; [reflexivity|]. apply (proj2 E2). eapply O; [|exact K]. apply I. now left.
      - destruct exc; [discriminate|]. injection E as <- <- <-. exact G1.
      - injection E as <- <- <-. exact G1.
      - injection E as <- <- <-. split; [congruence|now left]. }
    assert (I' : incl ms (c_members (class_of e c))) by (intros y Iy; apply I; now right).
    destruct r as [|r]; [destruct (read_members _ _ _ _ 0 _ _ _ _ _ _) as [[[? l2] stop2] ?] eqn:R2|destruct (read_members _ _ _ _ r _ _ _ _ _ _) as [[[? l2] stop2] ?] eqn:R2];
      injection R as <- <- -> <-; constructor; eauto.
Qed.

Lemma all_keep : forall j t exc, keeps t (deser e root j exc t).
Proof.
  assert (Main : forall j, (forall l, j = JArr l -> Forall (fun j => forall t exc, keeps t (deser e root j exc t)) l) ->
    (forall l, j = JObj l -> Forall (fun p => forall t exc, keeps t (deser e root (snd p) exc t)) l) -> forall t exc, keeps t (deser e root j exc t)).
  { intros j Fa Fo t.
    assert (Tu : forall exc l ts fs, j = JArr l -> apply_types (map (fun f => f exc) (map (deser e root) l)) ts = Some fs -> Forall2 keeps ts fs).
    { intros exc l ts fs E. specialize (Fa l E). clear E. revert ts fs. induction Fa as [|j' l A F IH]; intros [|t' ts] fs H; cbn in H; try discriminate.
      - injection H as <-. constructor.
      - destruct (apply_types _ ts) eqn:E; [|discriminate]. injection H as <-. constructor; [apply A|now apply IH]. }
    induction t as [| | | | | | | | | | |u IHt|n u IHt|u IHt|o u IHt|a b IHa IHb|ts IHts|ts IHts|c|u IHt|u IHt|u IHt] using ty_ind'; intros exc old ctx loc st ok st' v R;
      try (apply kept_owning; exact I); rewrite deser_unfold in R; cbn [deser_step] in R; try discriminate; try (eapply scalar_keeps; exact R).
    - destruct j as [| | | | |l|]; try (eapply keeps_reject; exact R). destruct (negb _); [eapply keeps_reject; exact R|]. unfold read_array in R.
      destruct (read_items _ _ _ _ _ _ _ _) as [[] st1 x| | |] eqn:E; inversion R; subst; [|apply kept_old].
      assert (Ki : Forall (keeps u) (map (fun f => f exc u) (map (deser e root) l))).
      { specialize (Fa l eq_refl). clear - Fa. induction Fa as [|j' l A F IH]; constructor; auto. }
      destruct (items_given u _ Ki _ _ _ _ _ _ _ (Forall_nil _) E) as (l' & -> & G). now apply kept_given, given_array.
    - destruct j as [| | | | |l|]; try (eapply keeps_reject; exact R). destruct (apply_types _ _) eqn:E; [|eapply keeps_reject; exact R].
      pose proof (Tu _ _ _ _ eq_refl E) as K. destruct (read_tuple _ _ _ _ _ _) as [[[ok2 l2] [?|]] st2] eqn:R2; cbn in R.
      { exfalso. exact (tuple_stop _ _ _ _ _ _ _ _ _ _ R2 _ _ _ R). }
      injection R as <- <- <-. apply (tuple_keeps _ _ K) in R2 as [R2 R3].
      assert (Fin : Forall2 (given e) [a; b] l2 -> given e (TPair a b) (VList l2)).
      { intros G. inversion G as [|? ? ? ? G1 G2]; subst; inversion G2 as [|? ? ? ? G3 G4]; subst; inversion G4; subst; now apply given_pair. }
      split; [intros T F; inversion F; subst; [contradiction|]|intros F; inversion F; subst; try refute]; cbn [parts_of] in *; apply Fin; auto.
    - destruct j as [| | | | |l|]; try (eapply keeps_reject; exact R). destruct (apply_types _ _) eqn:E; [|eapply keeps_reject; exact R].
      pose proof (Tu _ _ _ _ eq_refl E) as K. destruct (read_tuple _ _ _ _ _ _) as [[[ok2 l2] [?|]] st2] eqn:R2; cbn in R.
      { exfalso. exact (tuple_stop _ _ _ _ _ _ _ _ _ _ R2 _ _ _ R). }
      injection R as <- <- <-. apply (tuple_keeps _ _ K) in R2 as [R2 R3].
      split; [intros T F; inversion F; subst; [contradiction|]|intros F; inversion F; subst; try refute]; cbn [parts_of] in *; apply given_tuple; auto.
    - assert (G : forall us i st i' x r st', Forall (fun t => forall exc, keeps t (deser e root j exc t)) us ->
        read_variant (map (fun u => (dinit e u, deser e root j false u)) us) i ctx loc st = (Some (i', x), r, st') -> exists k u, i' = i + k /\ nth_error us k = Some u /\ given e u x).
      { clear - P. intros us. induction us as [|u us IH]; intros i st i' x r st' F R; cbn [map read_variant] in R; [discriminate|]. inversion F as [|? ? F1 F2]; subst.
        destruct (deser _ _ _ _ _ _ _ _ _) as [[] st1 y| | |] eqn:E; try discriminate.
        - injection R as <- <- <- <-. exists 0, u. repeat split; [lia|]. apply F1 in E. exact (proj1 E eq_refl (dinit_firm u)).
        - destruct (IH _ _ _ _ _ _ F2 R) as (k & u' & -> & N & G). exists (S k), u'. repeat split; auto. lia. }
      destruct (read_variant _ _ _ _ _) as [[[[i x]|] r] st1] eqn:E.
      + injection R as <- <- <-. destruct (G _ _ _ _ _ _ _ IHts E) as (k & u & -> & N & Gx). cbn. apply kept_given. eapply given_variant; eauto.
      + destruct r as [r|]; [|eapply keeps_reject; exact R]. exfalso. subst r. clear - E. revert E. generalize 0 as i, st as st0.
        induction ts as [|u ts IH]; intros i st0 E; cbn [map read_variant] in E; [discriminate|].
        destruct (deser _ _ _ _ _ _ _ _ _) as [[] ? y| | |]; try discriminate. eauto.
    - destruct j as [| | | | | |l]; try (eapply keeps_reject; exact R).
      destruct (read_members _ _ _ _ _ _ _ _ _ _ _) as [[[ok2 l2] [?|]] st2] eqn:R2; cbn in R.
      { exfalso. exact (members_stop _ _ _ _ _ _ _ _ _ _ _ _ _ _ R2 _ _ _ R). }
      injection R as <- <- <-. assert (G : given e (TClass c) old -> given e (TClass c) (VObj l2)).
      { intros F. inversion F; subst; try refute. apply given_class. eapply members_keep; [|apply incl_refl|exact R2|eassumption].
        intros k f name exc' t Ef. rewrite find_fun_map in Ef. destruct (find_member l name) eqn:Fm, (find_index l name); try discriminate. injection Ef as <- <-.
        apply find_member_In in Fm. specialize (Fo l eq_refl). rewrite Forall_forall in Fo. apply (Fo _ Fm). }
      split; auto. intros _ F. inversion F; subst; [contradiction|auto].
    }
  induction j as [|b|z|f|s|l IH|l IH] using json_ind'; apply Main; intros ? E; try discriminate; injection E as <-; exact IH.
Qed.
End Kept.

(** * Both forms of deserialize *)

Lemma initialised_agree : forall e root, initialised e -> steady_optionals e -> forall j t exc old ctx loc st,
  mdeser e root j exc t old ctx loc st = deser e root j exc t old ctx loc st.
Proof.
  intros e root P O j t exc. apply (all_agree e root (fun _ _ => True)); auto.
  - intros _ ts _. induction ts; auto.
  - intros _ ts _. induction ts; auto.
  - intros exc' u j' ctx loc st st' v _ R. apply given_determinate. apply (all_keep e root P O) in R. exact (proj1 R eq_refl (dinit_firm e P u)).
  - intros exc' c m j' ctx loc st ok st' v _ I K R. apply given_determinate. apply (all_keep e root P O) in R. exact (proj2 R (O _ _ I K)).
Qed.

Definition throwing_plain (exc : bool) (t : ty) : Prop := exc = true /\ plain t = true /\ real_ints t = true.

Lemma throwing_given : forall e root, ordinary e -> prepared e -> forall t, ordinary_type t -> forall j old ctx loc st ok st' v, ready e t old ->
  deser e root j true t old ctx loc st = DRet ok st' v -> given e t v.
Proof.
  intros e root (Pc & Rc & Ck) P t [Pt Rt] j old ctx loc st ok st' v Rd R.
  destruct (all_fine e root Rc Ck Pc j t Pt Rt) as [_ S]. specialize (S true (or_introl eq_refl) old ctx loc st). rewrite R in S. cbn in S.
  destruct ok; [|destruct S; discriminate]. eapply denotes_given; [exact P|apply S|exact Rd].
Qed.

Lemma throwing_agree : forall e root, ordinary e -> prepared e -> forall t, ordinary_type t -> forall j old ctx loc st,
  mdeser e root j true t old ctx loc st = deser e root j true t old ctx loc st.
Proof.
  intros e root Oe P t [Pt Rt] j. pose proof Oe as (Pc & Rc & Ck). apply (all_agree e root throwing_plain); try (repeat split; assumption); clear - Oe P Pc Rc Ck; unfold throwing_plain; cbn [plain real_ints].
  - tauto.
  - tauto.
  - tauto.
  - tauto.
  - intros exc a b (-> & A & B). apply andb_prop in A, B. tauto.
  - intros exc ts (-> & A & B). rewrite forallb_forall in A, B. apply Forall_forall. auto.
  - intros exc ts (_ & A & _). discriminate.
  - tauto.
  - intros exc u (_ & A & _). discriminate.
  - intros exc c m (-> & _) I. specialize (Pc c). specialize (Rc c). rewrite forallb_forall in Pc, Rc. auto.
  - intros exc u j ctx loc st st' v (-> & A & B) R. apply given_determinate. eapply throwing_given; eauto; [split; assumption|now apply dinit_ready].
  - intros exc c m j ctx loc st ok st' v (-> & _) I _ R. apply given_determinate. specialize (Pc c). specialize (Rc c). rewrite forallb_forall in Pc, Rc.
    eapply throwing_given; eauto; [split; auto|now apply dinit_ready].
Qed.

(** * Accepted documents *)

Section Accepted.
Variable e : env.
Variable root : json.
Hypothesis P : prepared e.
Hypothesis O : ordinary e.

Definition takes (j : json) : Prop := forall t, plain t = true -> real_ints t = true -> forall exc, rcomplete (fun old v => denotes e t old j v) (mdeser e root j exc t).

Lemma moving_takes : forall j u exc, rcomplete (fun old v => denotes e u old j v) (mdeser e root j exc u) ->
  rcomplete (fun old v => old = dinit e u /\ denotes e u old j v) (moving e u (mdeser e root j exc u)).
Proof.
  intros j u exc C old ctx loc st v [-> D]. unfold moving. rewrite (C _ _ _ _ _ D).
  rewrite given_determinate; [reflexivity|]. eapply denotes_given; eauto using dinit_ready.
Qed.

Lemma member_takes : forall exc l m old v ctx loc st, Forall (fun p => takes (snd p)) l ->
  plain (m_ty m) = true -> real_ints (m_ty m) = true -> member_denotes (denotes e) e l m old v ->
  m_member e exc (map (fun p => (fst p, mdeser e root (snd p))) l) m true old ctx loc st = DRet true st v.
Proof.
  intros exc l m old v ctx loc st F Pm Rm D. unfold m_member.
  pose proof (find_fun_member _ (mdeser e root) l (m_name m)) as X.
  destruct (find_fun _ 0 (m_name m)) as [[k f]|].
  - destruct X as (j & Fj & ->). assert (C : takes j).
    { apply find_member_In in Fj. rewrite Forall_forall in F. exact (F _ Fj). }
    specialize (C _ Pm Rm exc). inversion D as [j' v' K F' Dv|K F'|j' v' K F' Dv|K F']; subst; try congruence;
      rewrite F' in Fj; injection Fj as ->.
    + rewrite (C _ _ _ _ _ Dv). destruct (m_kind m); congruence.
    + rewrite K, (C _ _ _ _ _ Dv). rewrite given_determinate; [reflexivity|]. eapply denotes_given; eauto using dinit_ready.
  - inversion D as [j' v' K F' Dv|K F'|j' v' K F' Dv|K F']; subst; try congruence; rewrite K; reflexivity.
Qed.

Lemma members_take : forall exc l ms, Forall (fun p => takes (snd p)) l ->
  forallb (fun m => plain (m_ty m)) ms = true -> forallb (fun m => real_ints (m_ty m)) ms = true ->
  forall olds vs, members_denote (denotes e) e l ms olds vs -> forall r ctx loc st,
  m_members e exc (map (fun p => (fst p, mdeser e root (snd p))) l) ms r true true olds ctx loc st = (true, vs, None, st).
Proof.
  intros exc l ms F. induction ms as [|m ms IH]; intros Pm Rm olds vs D r ctx loc st; inversion D as [|m' ms' olds' v vs' Dm Ds]; subst.
  - reflexivity.
  - cbn in Pm, Rm. apply andb_true_iff in Pm, Rm. destruct Pm as [Pm Ps], Rm as [Wm Ws]. cbn [m_members].
    rewrite (member_takes exc l m _ v ctx loc st F Pm Wm Dm). destruct r; now rewrite (IH Ps Ws _ _ Ds).
Qed.

Lemma parts_take : forall exc js, Forall takes js -> forall ts, forallb plain ts = true -> forallb real_ints ts = true ->
  forall olds vs, parts_denote (denotes e) ts olds js vs -> exists fs, apply_types (map (fun f => f exc) (map (mdeser e root) js)) ts = Some fs /\
  forall k ctx loc st, read_tuple fs k olds ctx loc st = (true, vs, None, st).
Proof.
  intros exc js F. induction F as [|j js C F IH]; intros ts Pt Rt olds vs D; inversion D as [|t ts' ? ? ? v vs' Dv Ds]; subst.
  - exists []. split; reflexivity.
  - cbn in Pt, Rt. apply andb_true_iff in Pt, Rt. destruct (IH _ (proj2 Pt) (proj2 Rt) _ _ Ds) as (fs & E & Rd).
    exists (mdeser e root j exc t :: fs). cbn. rewrite E. split; [reflexivity|]. intros k ctx loc st.
    rewrite (C t (proj1 Pt) (proj1 Rt) exc _ _ _ _ _ Dv), Rd. reflexivity.
Qed.

Lemma items_take : forall exc js u, Forall takes js -> plain u = true -> real_ints u = true -> forall vs, Forall2 (denotes e u (dinit e u)) js vs ->
  forall add k acc ctx loc st, read_items (dinit e u) add (map (fun f => moving e u (f exc u)) (map (mdeser e root) js)) k acc ctx loc st = DRet true st (VList (fold_left add vs acc)).
Proof.
  intros exc js u F Pu Ru vs V add k acc ctx loc st. apply items_complete with (Rs := map (fun j old v => old = dinit e u /\ denotes e u old j v) js).
  - clear V. induction F as [|j js C F IH]; constructor; auto. apply moving_takes. now apply C.
  - apply Forall2_map_l. clear F. induction V; constructor; auto.
Qed.

Lemma all_take : forall j, takes j.
Proof.
  destruct O as (Pc & Rc & Ck).
  assert (S : forall j t, (match t with TNull | TBool | TInt _ | TFloat | TDouble | TString | TBytes | TTime | TDate | TEnumInt _ | TEnumStr _ => True | _ => False end) ->
     real_ints t = true -> forall exc, rcomplete (fun old v => denotes e t old j v) (mdeser e root j exc t)).
  { intros j t H Rt exc old ctx loc st v D. destruct t; try contradiction.
    all: match goal with H : denotes e ?t ?old ?j ?v, R : real_ints ?t = true |- mdeser _ _ _ ?exc _ _ ?ctx ?loc ?st = _ => rewrite <- (proj1 (all_fine e root Rc Ck Pc j t eq_refl R) exc old ctx loc st v H) end; rewrite mdeser_unfold, deser_unfold; reflexivity. }
  induction j as [|b|z|f|s|l IH|l IH] using json_ind'; intros t; induction t as [| | | | | | | | | | |u IHt|n u IHt|u IHt|o u IHt|a b' IHa IHb|ts IHts|ts IHts|c|u IHt|u IHt|u IHt] using ty_ind';
    intros Pt Rt exc; try discriminate Pt; try (apply S; [exact I|exact Rt]); intros old ctx loc st v D; rewrite mdeser_unfold; cbn [mdeser_step];
    try (inversion D; fail); try (inversion D as [ | | | | | | | | | | | | | | | | | | | |u' ? ? x Dx]; subst; rewrite (IHt Pt Rt exc _ _ _ _ _ Dx); reflexivity).
  - inversion D as [ | | | | | | | | | | | | |u' ? js vs F|u' ? js vs F|u' ? js vs F| |a' b'' ? js vs F|ts' ? js vs F| |]; subst.
    rewrite (items_take exc l u IH Pt Rt vs F), fold_push_back. reflexivity.
  - inversion D as [ | | | | | | | | | | | | |u' ? js vs F|u' ? js vs F|u' ? js vs F| |a' b'' ? js vs F|ts' ? js vs F| |]; subst.
    rewrite Nat.eqb_refl. cbn [negb]. unfold read_array. rewrite (items_take exc l u IH Pt Rt vs F), fold_push_back. reflexivity.
  - inversion D as [ | | | | | | | | | | | | |u' ? js vs F|u' ? js vs F|u' ? js vs F| |a' b'' ? js vs F|ts' ? js vs F| |]; subst.
    now rewrite (items_take exc l u IH Pt Rt vs F).
  - inversion D as [ | | | | | | | | | | | | |u' ? js vs F|u' ? js vs F|u' ? js vs F| |a' b'' ? js vs F|ts' ? js vs F| |]; subst.
    destruct (parts_take exc l IH [a; b']) with (3 := F) as (fs & -> & Rd); [cbn in *; now rewrite andb_true_r|cbn in *; now rewrite andb_true_r|].
    change (parts_of old) with (components old). now rewrite Rd.
  - inversion D as [ | | | | | | | | | | | | |u' ? js vs F|u' ? js vs F|u' ? js vs F| |a' b'' ? js vs F|ts' ? js vs F| |]; subst.
    destruct (parts_take exc l IH ts Pt Rt _ _ F) as (fs & -> & Rd). change (parts_of old) with (components old). now rewrite Rd.
  - inversion D as [ | | | | | | | | | | | | | | | |o' u' ? l' vs F| | | |]; subst.
    rewrite entries_complete with (Rs := map (fun p old v => old = dinit e u /\ denotes e u old (snd p) v) l) (vs := vs).
    + rewrite !map_map. cbn [fst]. erewrite map_ext; [reflexivity|]. intros p. apply c_string_spec.
    + clear - IH P Pt Rt. induction IH as [|p l C F IH]; constructor; auto. cbn [snd]. apply moving_takes. now apply C.
    + apply Forall2_map_l. clear - F. induction F; constructor; auto.
  - inversion D as [ | | | | | | | | | | | | | | | | | | |c' ? l' vs F|]; subst. rewrite (members_take exc l _ IH (Pc c) (Rc c) _ _ F). reflexivity.
Qed.
End Accepted.

(** * An optional member that is not accepted *)

Lemma m_members_all : forall e exc fs ms m r seen flag olds ctx loc st ok l st', In m ms -> m_members e exc fs ms r seen flag olds ctx loc st = (ok, l, None, st') ->
  exists flag old st1 ok2 st2 x, m_member e exc fs m flag old ctx loc st1 = DRet ok2 st2 x.
Proof.
  intros e exc fs ms m. induction ms as [|m' ms IH]; intros r seen flag olds ctx loc st ok l st' I R; [destruct I|]. cbn [m_members] in R.
  destruct (m_member e exc fs m' flag (hd VIndet olds) ctx loc st) as [ok1 st1 x| | |] eqn:E; try discriminate. destruct I as [->|I]; [repeat eexists; exact E|].
  destruct r as [|r]; [destruct (m_members _ _ _ _ 0 _ _ _ _ _ _) as [[[? l2] stop2] ?] eqn:R2|destruct (m_members _ _ _ _ r _ _ _ _ _ _) as [[[? l2] stop2] ?] eqn:R2];
    injection R as <- <- -> <-; eapply IH; eauto.
Qed.

Lemma m_members_stop : forall e exc fs ms c seen flag olds ctx loc st ok l r st', m_members e exc fs ms c seen flag olds ctx loc st = (ok, l, Some r, st') -> forall b s x, r <> DRet b s x.
Proof.
  intros e exc fs ms. induction ms as [|m ms IH]; intros c seen flag olds ctx loc st ok l r st' R; cbn [m_members] in R; [discriminate|].
  destruct (m_member _ _ _ _ _ _ _ _ _) as [ok1 st1 x| | |]; try (injection R as <- <- <- <-; discriminate).
  destruct c as [|c]; [destruct (m_members _ _ _ _ 0 _ _ _ _ _ _) as [[[? l2] stop2] ?] eqn:R2|destruct (m_members _ _ _ _ c _ _ _ _ _ _) as [[[? l2] stop2] ?] eqn:R2];
    injection R as <- <- -> <-; eapply IH; exact R2.
Qed.
