(** Reading does not depend on unread members, nor on the place in the document. *)
From Coq Require Import List Arith ZArith NArith Ascii String Bool Lia.
From Verif Require Import Base Float NumericModel Base64Model DatetimeModel EnumModel RefsModel Json PathModel Types SerializeModel
  DeserializeModel DenoteSpec DenoteProof SameSpec.
Import ListNotations.

Definition set_state (st : dstate) (r : dres) : dres :=
  match r with DRet ok _ v => DRet ok st v | r => r end.

(** The second reader does the same, whatever place and state, and without exceptions also
    whatever the context. *)
Definition alike (exc : bool) (f g : reader) : Prop :=
  forall old ctx ctx' loc loc' st st', (exc = true -> ctx = ctx') ->
  f old ctx loc st = set_state st (g old ctx' loc' st').

Ltac same_ctx := let H := fresh in intros H; first [discriminate H|f_equal; auto].

Lemma items_alike : forall exc init add fs gs, Forall2 (alike exc) fs gs -> forall k acc ctx ctx' loc loc' st st',
  (exc = true -> ctx = ctx') ->
  read_items init add fs k acc ctx loc st = set_state st (read_items init add gs k acc ctx' loc' st').
Proof.
  intros exc init add fs gs F. induction F as [|f g fs gs A F IH]; intros k acc ctx ctx' loc loc' st st' C; cbn; [reflexivity|].
  rewrite (A _ _ (at_index ctx' (N.of_nat k)) _ (loc' ++ [k]) st st') by same_ctx.
  destruct (g init (at_index ctx' (N.of_nat k)) (loc' ++ [k]) st') as [[|] s x|why p| |]; cbn; try reflexivity. apply IH. exact C.
Qed.

Lemma entries_alike : forall exc init fs gs,
  Forall2 (fun (p q : string * reader) => fst p = fst q /\ alike exc (snd p) (snd q)) fs gs ->
  forall k acc ctx ctx' loc loc' st st', (exc = true -> ctx = ctx') ->
  read_entries init fs k acc ctx loc st = set_state st (read_entries init gs k acc ctx' loc' st').
Proof.
  intros exc init fs gs F. induction F as [|[n f] [n' g] fs gs [E A] F IH]; intros k acc ctx ctx' loc loc' st st' C; cbn in *; [reflexivity|].
  subst n'. rewrite (A _ _ (at_name ctx' n) _ (loc' ++ [k]) st st') by same_ctx.
  destruct (g init (at_name ctx' n) (loc' ++ [k]) st') as [[|] s x|why p| |]; cbn; try reflexivity. apply IH. exact C.
Qed.

Definition same_result (st : dstate) (x y : bool * list val * option dres * dstate) : Prop :=
  match x, y with
  | (b, l, None, s), (b', l', None, _) => b = b' /\ l = l' /\ s = st
  | (_, _, Some r, _), (_, _, Some r', _) => r = r' /\ (forall ok s v, r <> DRet ok s v)
  | _, _ => False
  end.

Lemma tuple_alike : forall exc fs gs, Forall2 (alike exc) fs gs -> forall k olds ctx ctx' loc loc' st st', (exc = true -> ctx = ctx') ->
  same_result st (read_tuple fs k olds ctx loc st) (read_tuple gs k olds ctx' loc' st').
Proof.
  intros exc fs gs F. induction F as [|f g fs gs A F IH]; intros k olds ctx ctx' loc loc' st st' C; [cbn; auto|].
  cbn [read_tuple]. rewrite (A _ _ (at_index ctx' (N.of_nat k)) _ (loc' ++ [k]) st st') by same_ctx.
  destruct (g (hd VIndet olds) (at_index ctx' (N.of_nat k)) (loc' ++ [k]) st') as [[|] s x|why p| |]; cbn [set_state].
  - specialize (IH (S k) (tl olds) ctx ctx' loc loc' st s C).
    destruct (read_tuple fs (S k) (tl olds) ctx loc st) as [[[b l] [r|]] s1],
      (read_tuple gs (S k) (tl olds) ctx' loc' s) as [[[b' l'] [r'|]] s2]; cbn in *; try contradiction; auto.
    destruct IH as (-> & -> & ->). auto.
  - cbn. auto.
  - cbn. split; [reflexivity|discriminate].
  - cbn. split; [reflexivity|discriminate].
  - cbn. split; [reflexivity|discriminate].
Qed.

Lemma finish_alike : forall st x y, same_result st x y -> finish_tuple x = set_state st (finish_tuple y).
Proof.
  intros st [[[b l] [r|]] s] [[[b' l'] [r'|]] s'] H; cbn in *; try contradiction.
  - destruct H as [-> N]. destruct r'; try reflexivity. now elim (N ok st0 v).
  - destruct H as (-> & -> & ->). reflexivity.
Qed.

Lemma finish_object_alike : forall st x y, same_result st x y -> finish_object x = set_state st (finish_object y).
Proof.
  intros st [[[b l] [r|]] s] [[[b' l'] [r'|]] s'] H; cbn in *; try contradiction.
  - destruct H as [-> N]. destruct r'; try reflexivity. now elim (N ok st0 v).
  - destruct H as (-> & -> & ->). reflexivity.
Qed.

(** Members. *)
Definition lookup_alike (exc : bool) (fs gs : list (string * (bool -> ty -> reader))) (m : member) : Prop :=
  match find_fun fs 0 (m_name m), find_fun gs 0 (m_name m) with
  | Some (_, f), Some (_, g) => alike exc (f exc (m_ty m)) (g exc (m_ty m))
  | None, None => True
  | _, _ => False
  end.

Lemma member_alike : forall e exc fs gs m, lookup_alike exc fs gs m -> forall flag,
  alike exc (read_member e exc fs m flag) (read_member e exc gs m flag).
Proof.
  intros e exc fs gs m H flag old ctx ctx' loc loc' st st' C. unfold lookup_alike in H. unfold read_member.
  destruct (find_fun fs 0 (m_name m)) as [[k f]|], (find_fun gs 0 (m_name m)) as [[k' g]|]; try contradiction.
  - destruct (m_kind m); try (apply H; same_ctx).
    rewrite (H _ _ (at_name ctx' (m_name m)) _ (loc' ++ [k']) st st') by same_ctx.
    destruct (g exc (m_ty m) _ _ (loc' ++ [k']) st'); reflexivity.
  - destruct (m_kind m); try reflexivity. destruct exc; [now rewrite C|reflexivity].
Qed.

Lemma members_alike : forall e exc fs gs ms, Forall (lookup_alike exc fs gs) ms -> forall r seen flag olds ctx ctx' loc loc' st st',
  (exc = true -> ctx = ctx') ->
  same_result st (read_members e exc fs ms r seen flag olds ctx loc st) (read_members e exc gs ms r seen flag olds ctx' loc' st').
Proof.
  intros e exc fs gs ms F. induction F as [|m ms A F IH]; intros r seen flag olds ctx ctx' loc loc' st st' C; [cbn; auto|].
  cbn [read_members]. rewrite (member_alike e exc fs gs m A flag _ ctx ctx' _ loc' st st' C).
  destruct (read_member e exc gs m flag (hd VIndet olds) ctx' loc' st') as [b s x|why p| |]; cbn [set_state];
    try (cbn; split; [reflexivity|discriminate]).
  assert (X : same_result st
     match r with
     | 0 => read_members e exc fs ms 0 seen b (tl olds) ctx loc st
     | S r0 => read_members e exc fs ms r0 b b (tl olds) ctx loc st
     end
     match r with
     | 0 => read_members e exc gs ms 0 seen b (tl olds) ctx' loc' s
     | S r0 => read_members e exc gs ms r0 b b (tl olds) ctx' loc' s
     end) by (destruct r; apply IH; exact C).
  revert X. destruct (match r with 0 => read_members e exc fs ms 0 seen b (tl olds) ctx loc st | S r0 => _ end) as [[[b1 l1] [r1|]] s1],
    (match r with 0 => read_members e exc gs ms 0 seen b (tl olds) ctx' loc' s | S r0 => _ end) as [[[b2 l2] [r2|]] s2];
    cbn; intros X; try contradiction; auto. destruct X as (-> & -> & ->). auto.
Qed.

Lemma variant_alike : forall fs gs, Forall2 (fun (p q : val * reader) => fst p = fst q /\ alike false (snd p) (snd q)) fs gs ->
  forall i ctx ctx' loc loc' st st',
  match read_variant fs i ctx loc st, read_variant gs i ctx' loc' st' with
  | (x, None, s), (x', None, _) => x = x' /\ s = st
  | (None, Some r, _), (None, Some r', _) => r = r' /\ (forall ok s v, r <> DRet ok s v)
  | _, _ => False
  end.
Proof.
  intros fs gs F. induction F as [|[i0 f] [i1 g] fs gs [E A] F IH]; intros i ctx ctx' loc loc' st st'; [cbn; auto|].
  cbn in E, A. subst i1. cbn [read_variant]. rewrite (A _ _ ctx' _ loc' st st') by same_ctx.
  destruct (g i0 ctx' loc' st') as [[|] s x|why p| |]; cbn [set_state]; try (split; [reflexivity|discriminate]).
  - auto.
  - apply IH.
Qed.

Lemma reject_alike : forall exc why old ctx ctx' st st', (exc = true -> ctx = ctx') ->
  reject exc why old ctx st = set_state st (reject exc why old ctx' st').
Proof. intros [|] why old ctx ctx' st st' C; [now rewrite C|reflexivity]. Qed.

Lemma scalar_alike : forall e exc t j, alike exc (read_scalar e exc t j) (read_scalar e exc t j).
Proof.
  intros e exc t j old ctx ctx' loc loc' st st' C.
  assert (R : forall why v, reject exc why v ctx st = set_state st (reject exc why v ctx' st')) by (intros; now apply reject_alike).
  unfold read_scalar, read_int, read_float.
  destruct t; try reflexivity; destruct j; cbn [number]; try reflexivity; try apply R.
  - destruct (is_kind (wide k) z), (check_range k (wide k) z); try reflexivity; apply R.
  - destruct (base64_decode _) as [[[|] b]|]; try reflexivity; apply R.
  - destruct (parse_datetime _ _) as [[z|]|]; try reflexivity; apply R.
  - destruct (parse_date _ _) as [[z|]|]; try reflexivity; apply R.
  - unfold reject. destruct exc; [rewrite C by reflexivity|]; reflexivity.
  - unfold reject. destruct exc; [rewrite C by reflexivity|]; reflexivity.
  - unfold reject. destruct (is_kind (wide k) z), (check_range k (wide k) z), exc; try reflexivity; now rewrite C.
  - unfold reject. destruct exc; [rewrite C by reflexivity|]; reflexivity.
  - unfold reject. destruct exc; [rewrite C by reflexivity|]; reflexivity.
  - unfold reject. destruct exc; [rewrite C by reflexivity|]; reflexivity.
  - unfold reject. destruct exc; [rewrite C by reflexivity|]; reflexivity.
  - destruct (enum_from_string _ _); try reflexivity; apply R.
Qed.

(** The relation, component by component. *)
Definition related_items (e : env) (u : ty) (j j' : json) : Prop :=
  match j, j' with JArr js, JArr js' => Forall2 (superfluous e u) js js' | _, _ => j = j' end.

Lemma Forall2_len : forall A B (R : A -> B -> Prop) l m, Forall2 R l m -> List.length l = List.length m.
Proof. intros A B R l m F. induction F; cbn; congruence. Qed.

Lemma same_list : forall A (R : A -> A -> Prop), (forall x, R x x) -> forall l, Forall2 R l l.
Proof. intros A R H l. induction l; constructor; auto. Qed.

Lemma items_arrays : forall e t u j j', (t = TVector u \/ (exists n, t = TArray n u) \/ t = TSet u) ->
  superfluous e t j j' -> related_items e u j j'.
Proof.
  intros e t u j j' T S. unfold related_items.
  destruct S; (destruct T as [T|[[n' T]|T]]; try discriminate T; try (injection T as <-); try assumption);
    try (destruct j; try reflexivity; apply same_list; constructor).
  subst. assumption.
Qed.

Lemma parts_same : forall e ts js, List.length ts = List.length js -> parts_related (superfluous e) ts js js.
Proof.
  intros e ts. induction ts as [|t ts IH]; intros [|j js] H; try discriminate; constructor; [constructor|]. apply IH.
  now injection H.
Qed.

Lemma more_same_members : forall e c l seen, more_members (superfluous e) e c seen l l.
Proof. intros e c l. induction l as [|[n j] l IH]; intros seen; constructor; auto. intros. constructor. Qed.

Lemma find_fun_shift : forall A (fs : list (string * A)) k name,
  find_fun fs k name = option_map (fun p => (k + fst p, snd p)) (find_fun fs 0 name).
Proof.
  intros A fs. induction fs as [|[n f] fs IH]; intros k name; cbn; [reflexivity|].
  destruct (String.eqb n name); cbn; [now rewrite Nat.add_0_r|]. rewrite (IH (S k)), (IH 1).
  destruct (find_fun fs 0 name) as [[i x]|]; cbn; [|reflexivity]. do 2 f_equal. lia.
Qed.

Lemma more_lookup : forall (R : ty -> json -> json -> Prop) e c m, In m (c_members (class_of e c)) ->
  forall seen l l', more_members R e c seen l l' -> ~ In (m_name m) seen ->
  match find_member l (m_name m), find_member l' (m_name m) with
  | Some j, Some j' => R (m_ty m) j j'
  | None, None => True
  | _, _ => False
  end.
Proof.
  intros R e c m I seen l l' M. induction M as [seen|seen n j j' l l' H M IH|seen n j l l' H M IH]; intros N; cbn.
  - exact Logic.I.
  - destruct (String.eqb_spec n (m_name m)) as [E|E]; [exact (H m I (eq_sym E))|]. apply IH. intros [K|K]; auto.
  - destruct (String.eqb_spec n (m_name m)) as [E|E]; [|apply IH; exact N]. exfalso. subst n. destruct H as [H|H]; [|auto].
    apply H. exact (in_map m_name _ _ I).
Qed.

Lemma find_fun_map : forall A (F : json -> A) l name,
  find_fun (map (fun p => (fst p, F (snd p))) l) 0 name =
  match find_member l name with
  | Some j => match find_index l name with Some k => Some (k, F j) | None => None end
  | None => None
  end.
Proof.
  intros A F l name. induction l as [|[n j] l IH]; [reflexivity|]. cbn. destruct (String.eqb n name) eqn:E; cbn; [reflexivity|].
  rewrite find_fun_shift, IH. destruct (find_member l name); [|reflexivity].
  destruct (find_index l name); reflexivity.
Qed.

Lemma find_both : forall l name, find_member l name = None <-> find_index l name = None.
Proof.
  intros l name. induction l as [|[n j] l IH]; cbn; [tauto|]. destruct (String.eqb n name); [split; discriminate|].
  rewrite IH. destruct (find_index l name); cbn; split; congruence.
Qed.

Section Alike.
Variable e : env.
Hypothesis pure : unshared_classes e.

Definition indifferent (j : json) : Prop := forall t j', unshared t = true -> superfluous e t j j' ->
  forall exc root root', alike exc (deser e root j exc t) (deser e root' j' exc t).

Lemma items_indifferent : forall u js js', unshared u = true -> Forall indifferent js -> Forall2 (superfluous e u) js js' ->
  forall exc root root',
  Forall2 (alike exc) (map (fun f => f exc u) (map (deser e root) js)) (map (fun f => f exc u) (map (deser e root') js')).
Proof.
  intros u js js' U F S exc root root'. induction S as [|j j' js js' A S IH]; cbn; [constructor|].
  inversion F as [|? ? Fj Fs]; subst. constructor; [now apply Fj|auto].
Qed.

Lemma parts_indifferent : forall ts js js', forallb unshared ts = true -> Forall indifferent js ->
  parts_related (superfluous e) ts js js' -> forall exc root root', exists fs gs,
  apply_types (map (fun f => f exc) (map (deser e root) js)) ts = Some fs /\
  apply_types (map (fun f => f exc) (map (deser e root') js')) ts = Some gs /\ Forall2 (alike exc) fs gs.
Proof.
  intros ts js js' U F S exc root root'. induction S as [|t ts j js j' js' A S IH]; cbn.
  - exists [], []. repeat split; constructor.
  - cbn in U. apply andb_true_iff in U. destruct U as [Ut Us]. inversion F as [|? ? Fj Fs]; subst.
    destruct (IH Us Fs) as (fs & gs & E1 & E2 & A'). rewrite E1, E2. do 2 eexists. repeat split.
    constructor; [now apply Fj|assumption].
Qed.

Lemma parts_indifferent_any : forall ts js, forallb unshared ts = true -> Forall indifferent js -> forall exc root root',
  match apply_types (map (fun f => f exc) (map (deser e root) js)) ts,
        apply_types (map (fun f => f exc) (map (deser e root') js)) ts with
  | Some fs, Some gs => Forall2 (alike exc) fs gs
  | None, None => True
  | _, _ => False
  end.
Proof.
  intros ts js U F exc root root'. destruct (Nat.eq_dec (List.length ts) (List.length js)) as [E|N].
  - destruct (parts_indifferent ts js js U F (parts_same e ts js E) exc root root') as (fs & gs & -> & -> & A). exact A.
  - assert (L : forall root, apply_types (map (fun f => f exc) (map (deser e root) js)) ts = None).
    { intros r. apply apply_types_None. rewrite !map_length. congruence. }
    now rewrite !L.
Qed.

Lemma members_indifferent : forall c l l', Forall (fun p => indifferent (snd p)) l -> more_members (superfluous e) e c [] l l' ->
  forall exc root root',
  Forall (lookup_alike exc (map (fun p => (fst p, deser e root (snd p))) l) (map (fun p => (fst p, deser e root' (snd p))) l'))
    (c_members (class_of e c)).
Proof.
  intros c l l' F M exc root root'. apply Forall_forall. intros m I. unfold lookup_alike. rewrite !find_fun_map.
  pose proof (more_lookup _ e c m I [] l l' M (fun x => x)) as X.
  destruct (find_member l (m_name m)) as [j|] eqn:E.
  - destruct (find_index l (m_name m)) as [k|] eqn:K; [|apply find_both in K; congruence].
    destruct (find_member l' (m_name m)) as [j'|] eqn:E'; [|contradiction].
    destruct (find_index l' (m_name m)) as [k'|] eqn:K'; [|apply find_both in K'; congruence].
    apply find_member_In in E. rewrite Forall_forall in F. apply (F _ E); [|exact X].
    pose proof (pure c) as P. rewrite forallb_forall in P. now apply P.
  - destruct (find_member l' (m_name m)); [contradiction|exact Logic.I].
Qed.

Lemma superfluous_object : forall t l j', (exists o u, t = TMap o u) \/ (exists c, t = TClass c) -> superfluous e t (JObj l) j' ->
  exists l', j' = JObj l'.
Proof.
  intros t l j' T S. inversion S; subst; eauto; destruct T as [(o' & u & T)|(c' & T)]; discriminate T.
Qed.

Lemma superfluous_other : forall t j j', superfluous e t j j' ->
  match t with TVariant _ | TUnique _ => True | _ =>
  match j with JArr _ => exists l, j' = JArr l | JObj _ => exists l, j' = JObj l | _ => j' = j end end.
Proof. intros t j j' S. destruct S; try exact Logic.I; eauto. destruct t, j; eauto. Qed.

Lemma indifferent_variant : forall ts j j', Forall (fun t => superfluous e t j j' -> forall exc root root',
    alike exc (deser e root j exc t) (deser e root' j' exc t)) ts ->
  superfluous e (TVariant ts) j j' -> forall exc root root', alike exc (deser e root j exc (TVariant ts)) (deser e root' j' exc (TVariant ts)).
Proof.
  intros ts j j' F S exc root root' old ctx ctx' loc loc' st st' C. rewrite !deser_unfold. cbn [deser_step].
  assert (S' : Forall (fun t => superfluous e t j j') ts).
  { inversion S; subst; [|assumption]. apply Forall_forall. intros. constructor. }
  pose proof (variant_alike (map (fun u => (dinit e u, deser e root j false u)) ts)
    (map (fun u => (dinit e u, deser e root' j' false u)) ts)) as V.
  assert (A : Forall2 (fun p q : val * reader => fst p = fst q /\ alike false (snd p) (snd q))
    (map (fun u => (dinit e u, deser e root j false u)) ts) (map (fun u => (dinit e u, deser e root' j' false u)) ts)).
  { clear V S. induction F as [|t ts Ft Fs IH]; cbn; [constructor|]. inversion S'; subst.
    constructor; [|auto]. cbn. split; [reflexivity|]. apply Ft. assumption. }
  specialize (V A 0 ctx ctx' loc loc' st st').
  destruct (read_variant _ 0 ctx loc st) as [[[[i x]|] [r|]] s], (read_variant _ 0 ctx' loc' st') as [[[[i' x']|] [r'|]] s']; cbn in V; try contradiction.
  - destruct V as [V ->]. injection V as -> ->. reflexivity.
  - destruct V. discriminate.
  - destruct V as [-> V]. destruct r'; try reflexivity. now elim (V ok st0 v).
  - destruct V. discriminate.
  - destruct V as [_ ->]. now apply reject_alike.
Qed.

Lemma indifferent_unique : forall t j j', (superfluous e t j j' -> forall exc root root', alike exc (deser e root j exc t) (deser e root' j' exc t)) ->
  superfluous e (TUnique t) j j' -> forall exc root root', alike exc (deser e root j exc (TUnique t)) (deser e root' j' exc (TUnique t)).
Proof.
  intros t j j' F S exc root root' old ctx ctx' loc loc' st st' C. rewrite !deser_unfold. cbn [deser_step].
  assert (S' : superfluous e t j j') by (inversion S; subst; [constructor|assumption]).
  rewrite (F S' exc root root' _ ctx ctx' _ loc' st st' C).
  destruct (deser e root' j' exc t _ _ _ st') as [[|] s x|why p| |]; reflexivity.
Qed.

Lemma all_indifferent : forall j, indifferent j.
Proof.
  induction j as [|b|z|f|s|l IH|l IH] using json_ind'; intros t; induction t using ty_ind'; intros j' U S exc root root';
    try discriminate U;
    try (apply indifferent_variant; [|exact S]; cbn in U; rewrite forallb_forall in U;
         match goal with H : Forall _ _ |- Forall _ ?us => match type of H with Forall _ us => rewrite Forall_forall in H |- *; intros t I S' exc' r r'; apply H; auto end end);
    try (apply indifferent_unique; [intros S' exc' r r'; apply IHt; auto|exact S]);
    intros old ctx ctx' loc loc' st st' C; pose proof (superfluous_other _ _ _ S) as J; cbn in J; try subst j'; try (destruct J as [l' ->]);
    rewrite !deser_unfold; cbn [deser_step]; try (apply reject_alike; exact C); try (apply scalar_alike; exact C);
    try (inversion S; subst; apply scalar_alike; exact C).
  - apply (items_alike exc); [|exact C]. apply items_indifferent; auto. exact (items_arrays e _ t _ _ (or_introl eq_refl) S).
  - pose proof (items_arrays e _ t _ _ (or_intror (or_introl (ex_intro _ n eq_refl))) S) as F. cbn in F.
    rewrite (Forall2_len _ _ _ _ _ F). destruct (negb _); [apply reject_alike; exact C|]. unfold read_array.
    rewrite (items_alike exc _ _ _ _ (items_indifferent t l l' U IH F exc root root') _ _ _ ctx' loc loc' st st' C).
    destruct (read_items _ _ _ _ _ _ loc' st') as [[|] s x|why p| |]; reflexivity.
  - apply (items_alike exc); [|exact C]. apply items_indifferent; auto. exact (items_arrays e _ t _ _ (or_intror (or_intror eq_refl)) S).
  - assert (Up : forallb unshared [t1; t2] = true) by (cbn in U |- *; rewrite andb_true_r; exact U).
    inversion S; subst.
    + pose proof (parts_indifferent_any [t1; t2] l' Up IH exc root root') as X.
      destruct (apply_types (map (fun f => f exc) (map (deser e root) l')) [t1; t2]), (apply_types (map (fun f => f exc) (map (deser e root') l')) [t1; t2]);
        try contradiction; [|apply reject_alike; exact C]. apply finish_alike. now apply (tuple_alike exc).
    + destruct (parts_indifferent [t1; t2] l l' Up IH ltac:(assumption) exc root root') as (fs & gs & -> & -> & A).
      apply finish_alike. now apply (tuple_alike exc).
  - inversion S; subst.
    + pose proof (parts_indifferent_any ts l' U IH exc root root') as X.
      destruct (apply_types (map (fun f => f exc) (map (deser e root) l')) ts), (apply_types (map (fun f => f exc) (map (deser e root') l')) ts);
        try contradiction; [|apply reject_alike; exact C]. apply finish_alike. now apply (tuple_alike exc).
    + destruct (parts_indifferent ts l l' U IH ltac:(assumption) exc root root') as (fs & gs & -> & -> & A).
      apply finish_alike. now apply (tuple_alike exc).
  - apply (entries_alike exc); [|exact C].
    assert (F : Forall2 (fun p p' => fst p = fst p' /\ superfluous e t (snd p) (snd p')) l l').
    { inversion S; subst; [|assumption]. apply same_list. intros. split; [reflexivity|constructor]. }
    clear S IHt. revert IH. induction F as [|[n j] [n' j'] l l' [E A] F IHF]; intros IH; cbn; [constructor|].
    inversion IH; subst. constructor; [cbn|auto]. cbn in E. split; [exact E|]. cbn in *. auto.
  - apply finish_object_alike. apply members_alike; [|exact C]. apply members_indifferent; [exact IH|].
    inversion S; subst; [apply more_same_members|assumption].
Qed.
End Alike.
