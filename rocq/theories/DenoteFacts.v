(** Consequences of the meaning of documents. *)
From Coq Require Import List Arith ZArith NArith Ascii String Bool Lia Permutation.
From Verif Require Import Base Float NumericModel NumericSpec Base64Model DatetimeModel EnumModel RefsModel Json PathModel Types SerializeModel
  DeserializeModel DenoteSpec DenoteProof SameSpec SameProof.
Import ListNotations.

Lemma plain_unshared : forall t, plain t = true -> unshared t = true.
Proof.
  induction t using ty_ind'; intros P; cbn in *; try reflexivity; try discriminate; auto.
  - apply andb_true_iff in P. rewrite IHt1, IHt2; tauto.
  - rewrite forallb_forall in *. rewrite Forall_forall in H. auto.
Qed.

Lemma plain_unshared_classes : forall e, plain_classes e -> unshared_classes e.
Proof.
  intros e P c. specialize (P c). rewrite forallb_forall in *. intros m I. apply plain_unshared. auto.
Qed.

Lemma complete : forall e t, ordinary e -> ordinary_type t -> forall j old v, denotes e t old j v ->
  forall root exc ctx loc st, deser e root j exc t old ctx loc st = DRet true st v.
Proof.
  intros e t (P & R & T) (Pt & Rt) j old v D root exc ctx loc st. destruct (all_fine e root R T P j t Pt Rt) as [C _]. now apply C.
Qed.

Lemma sound : forall e t, ordinary e -> ordinary_type t -> forall root j exc, exc = true \/ classless t = true ->
  forall old ctx loc st, rgood exc st (fun v => denotes e t old j v) (deser e root j exc t old ctx loc st).
Proof.
  intros e t (P & R & T) (Pt & Rt) root j exc K. destruct (all_fine e root R T P j t Pt Rt) as [_ S]. now apply S.
Qed.

(** C21 *)
Lemma accepts_exactly : forall e t, ordinary e -> ordinary_type t -> forall j v,
  deserialize_throw e t j = Returned v <-> denotes e t (dinit e t) j v.
Proof.
  intros e t O Ot j v. unfold deserialize_throw. split; intros H.
  - pose proof (sound e t O Ot j j true (or_introl eq_refl) (dinit e t) [] [] start) as S.
    destruct (deser e j j true t (dinit e t) [] [] start) as [[|] st w|why p| |]; try discriminate; injection H as <-; cbn in S.
    + tauto.
    + destruct S. discriminate.
  - now rewrite (complete e t O Ot j _ v H).
Qed.

Lemma denotes_unique_value : forall e t, ordinary e -> ordinary_type t -> forall j old v w,
  denotes e t old j v -> denotes e t old j w -> v = w.
Proof.
  intros e t O Ot j old v w A B. pose proof (complete e t O Ot j _ _ A j true [] [] start) as E.
  rewrite (complete e t O Ot j _ _ B j true [] [] start) in E. now injection E.
Qed.

(** Exceptions only where allowed, undefined behaviour only from byte strings, the clock and
    references; [u] and [c] say whether there are none of the latter. *)
Section Tame.
Variables u c : bool.

Definition tame (exc : bool) (r : dres) : Prop :=
  match r with
  | DRet _ _ _ => True
  | DThrow _ _ => exc = true
  | DUndef => c = false \/ u = false
  | DOutside => u = false
  end.

Definition tamer (exc : bool) (f : reader) : Prop := forall old ctx loc st, tame exc (f old ctx loc st).

Lemma tame_reject : forall exc why old ctx st, tame exc (reject exc why old ctx st).
Proof. intros [|] why old ctx st; cbn; auto. Qed.

Lemma items_tame : forall exc init add fs, Forall (tamer exc) fs -> forall k acc ctx loc st, tame exc (read_items init add fs k acc ctx loc st).
Proof.
  intros exc init add fs F. induction F as [|f fs A F IH]; intros k acc ctx loc st; cbn; [exact Logic.I|].
  specialize (A init (at_index ctx (N.of_nat k)) (loc ++ [k]) st).
  destruct (f init _ _ st) as [[|] s x|why p| |]; cbn in *; auto.
Qed.

Lemma entries_tame : forall exc init fs, Forall (fun p : string * reader => tamer exc (snd p)) fs -> forall k acc ctx loc st,
  tame exc (read_entries init fs k acc ctx loc st).
Proof.
  intros exc init fs F. induction F as [|[n f] fs A F IH]; intros k acc ctx loc st; cbn; [exact Logic.I|].
  specialize (A init (at_name ctx n) (loc ++ [k]) st). cbn in A.
  destruct (f init _ _ st) as [[|] s x|why p| |]; cbn in *; auto.
Qed.

Definition tame_parts (exc : bool) (x : bool * list val * option dres * dstate) : Prop :=
  match x with (_, _, Some r, _) => tame exc r | _ => True end.

Lemma tuple_tame : forall exc fs, Forall (tamer exc) fs -> forall k olds ctx loc st, tame_parts exc (read_tuple fs k olds ctx loc st).
Proof.
  intros exc fs F. induction F as [|f fs A F IH]; intros k olds ctx loc st; [exact Logic.I|]. cbn [read_tuple].
  specialize (A (hd VIndet olds) (at_index ctx (N.of_nat k)) (loc ++ [k]) st).
  destruct (f _ _ _ st) as [[|] s x|why p| |]; cbn in *; auto.
  specialize (IH (S k) (tl olds) ctx loc s). destruct (read_tuple fs (S k) (tl olds) ctx loc s) as [[[b l] [r|]] s']; auto.
Qed.

Lemma finish_tuple_tame : forall exc x, tame_parts exc x -> tame exc (finish_tuple x).
Proof. intros exc [[[b l] [r|]] s] H; cbn in *; auto. Qed.

Lemma finish_object_tame : forall exc x, tame_parts exc x -> tame exc (finish_object x).
Proof. intros exc [[[b l] [r|]] s] H; cbn in *; auto. Qed.

Lemma members_tame : forall e exc fs ms,
  (forall m k f, In m ms -> find_fun fs 0 (m_name m) = Some (k, f) -> tamer exc (f exc (m_ty m))) ->
  forall r seen flag olds ctx loc st, tame_parts exc (read_members e exc fs ms r seen flag olds ctx loc st).
Proof.
  intros e exc fs ms. induction ms as [|m ms IH]; intros F r seen flag olds ctx loc st; [exact Logic.I|]. cbn [read_members].
  assert (A : tame exc (read_member e exc fs m flag (hd VIndet olds) ctx loc st)).
  { unfold read_member. pose proof (F m) as Fm. destruct (find_fun fs 0 (m_name m)) as [[k f]|].
    - specialize (Fm k f (or_introl eq_refl) eq_refl).
      destruct (m_kind m); [apply Fm|apply Fm|]. specialize (Fm (dinit e (m_ty m)) (at_name ctx (m_name m)) (loc ++ [k]) st).
      destruct (f exc (m_ty m) _ _ _ st); auto.
    - destruct (m_kind m); try exact Logic.I. destruct exc; cbn; auto. }
  destruct (read_member e exc fs m flag (hd VIndet olds) ctx loc st) as [ok s x|why p| |]; auto.
  assert (B : tame_parts exc match r with
     | 0 => read_members e exc fs ms 0 seen ok (tl olds) ctx loc s
     | S r0 => read_members e exc fs ms r0 ok ok (tl olds) ctx loc s
     end) by (destruct r; apply IH; intros; eapply F; eauto; now right).
  revert B. destruct (match r with 0 => _ | S r0 => _ end) as [[[b l] [r1|]] s']; auto.
Qed.

Lemma apply_types_in : forall A (P : A -> Prop) (fs : list (ty -> A)) ts gs, apply_types fs ts = Some gs ->
  (forall f t, In f fs -> In t ts -> P (f t)) -> Forall P gs.
Proof.
  intros A P fs. induction fs as [|f fs IH]; intros [|t ts] gs E H; try discriminate; cbn in E.
  - injection E as <-. constructor.
  - destruct (apply_types fs ts) as [r|] eqn:E'; [|discriminate]. injection E as <-. constructor.
    + apply H; now left.
    + apply (IH ts r E'). intros. apply H; now right.
Qed.

Lemma tame_false : forall exc r, tame false r -> tame exc r.
Proof. intros exc [ok s v|why p| |] H; cbn in *; auto. discriminate. Qed.

Variable e : env.
Variable root : json.
Hypothesis PU : u = true -> unshared_classes e.
Hypothesis PC : c = true -> codec_free_classes e.

Definition allowed (t : ty) : Prop := (u = true -> unshared t = true) /\ (c = true -> codec_free t = true).

Lemma allowed_one : forall (k : ty -> ty) t, (forall x, unshared (k x) = true -> unshared x = true) ->
  (forall x, codec_free (k x) = codec_free x) -> allowed (k t) -> allowed t.
Proof. intros k t A B [C D]. split; intros H; [auto|rewrite <- B; auto]. Qed.

Lemma allowed_all : forall ts, (u = true -> forallb unshared ts = true) -> (c = true -> forallb codec_free ts = true) -> Forall allowed ts.
Proof.
  intros ts U C. apply Forall_forall. intros t I. split; intros H; [specialize (U H)|specialize (C H)]; rewrite forallb_forall in *; auto.
Qed.

Lemma always_tame : forall j t, allowed t -> forall exc, tamer exc (deser e root j exc t).
Proof.
  assert (V : forall j ts, Forall (fun t => forall exc, tamer exc (deser e root j exc t)) ts -> forall exc, tamer exc (deser e root j exc (TVariant ts))).
  { intros j ts F exc old ctx loc st. rewrite deser_unfold. cbn [deser_step].
    assert (X : forall i st, match read_variant (map (fun u => (dinit e u, deser e root j false u)) ts) i ctx loc st with
      | (None, Some r, _) => tame false r | _ => True end).
    { induction F as [|t ts A F IH]; intros i s; [exact Logic.I|]. cbn. specialize (A false (dinit e t) ctx loc s).
      destruct (deser e root j false t (dinit e t) ctx loc s) as [[|] s' x|why p| |]; try exact A. apply IH. }
    specialize (X 0 st). destruct (read_variant _ 0 ctx loc st) as [[[[i x]|] [r|]] s]; try exact Logic.I; [now apply tame_false|apply tame_reject]. }
  assert (Q : forall j t, (forall exc, tamer exc (deser e root j exc t)) -> forall exc, tamer exc (deser e root j exc (TUnique t))).
  { intros j t F exc old ctx loc st. rewrite deser_unfold. cbn [deser_step]. specialize (F exc (vinit e t) ctx loc st).
    destruct (deser e root j exc t _ ctx loc st) as [[|] s' x|why p| |]; cbn in *; auto. }
  assert (Sh : forall j t, u = false -> (forall exc, tamer exc (deser e root j exc t)) -> forall exc, tamer exc (deser e root j exc (TShared t))).
  { intros j t U F exc old ctx loc st. rewrite deser_unfold. cbn [deser_step].
    destruct (match j with JObj l => find_member l "$ref" | _ => None end) as [target|].
    - unfold read_ref. assert (N : forall r, (forall why p, r <> DThrow why p) -> tame exc r).
      { intros [ok s v|why p| |] H; cbn; auto. now elim (H why p). }
      apply N. intros why p. destruct target; try discriminate. destruct (parse_reference _); [|discriminate].
      destruct (pointer_get root _) as [[place ?]|]; [|discriminate]. destruct (ref_get _ _ _); [|discriminate]. destruct (ty_eqb _ _); discriminate.
    - specialize (F exc (vinit e t) ctx loc (new_address st)). unfold register_shared.
      destruct (deser e root j exc t _ ctx loc _) as [[|] s' x|why p| |]; cbn in *; auto. }
  assert (NU : forall t, unshared t = false -> allowed t -> u = false).
  { intros t N [A _]. destruct u; [|reflexivity]. rewrite A in N by reflexivity. discriminate. }
  assert (NC : forall t, codec_free t = false -> allowed t -> c = false).
  { intros t N [_ A]. destruct c; [|reflexivity]. rewrite A in N by reflexivity. discriminate. }
  induction j as [|b|z|f|s|l IH|l IH] using json_ind'; intros t; induction t using ty_ind'; intros U exc;
    try (apply V; destruct U as [U C]; pose proof (allowed_all _ U C) as A;
         match goal with H : Forall _ _ |- Forall _ ?us => match type of H with Forall _ us =>
           rewrite Forall_forall in H, A |- *; intros t I exc'; apply H; auto end end);
    try (apply Q; intros exc'; apply IHt; exact U);
    try (pose proof (NU (TShared t) eq_refl U) as K; apply Sh; [exact K|]; intros exc'; apply IHt; split; [congruence|exact (proj2 U)]);
    intros old ctx loc st; rewrite deser_unfold; cbn [deser_step]; try apply tame_reject;
    try (exact (NU (TPtr t) eq_refl U));
    try (cbn [read_scalar]; unfold read_int, read_float; cbn [number]; try apply tame_reject; try exact Logic.I; destruct exc; cbn; auto; fail);
    try (cbn [read_scalar]; unfold read_int, reject; destruct (is_kind (wide k) z), (check_range k (wide k) z), exc; cbn; auto; fail);
    try (cbn [read_scalar]; destruct (enum_from_string n s); [exact Logic.I|apply tame_reject]);
    try (cbn [read_scalar]; pose proof (NC TBytes eq_refl U); destruct (base64_decode _) as [[[|] b]|]; [exact Logic.I|apply tame_reject|cbn; auto]);
    try (cbn [read_scalar]; pose proof (NC TTime eq_refl U); destruct (parse_datetime _ _) as [[z|]|]; [exact Logic.I|apply tame_reject|cbn; auto]);
    try (cbn [read_scalar]; pose proof (NC TDate eq_refl U); destruct (parse_date _ _) as [[z|]|]; [exact Logic.I|apply tame_reject|cbn; auto]).
  - apply items_tame. apply Forall_forall. intros f I. rewrite map_map in I. apply in_map_iff in I. destruct I as (j & <- & I).
    rewrite Forall_forall in IH. now apply IH.
  - destruct (negb _); [apply tame_reject|]. unfold read_array.
    assert (X : tame exc (read_items (dinit e t) push_back (map (fun f => f exc t) (map (deser e root) l)) 0 [] ctx loc st)).
    { apply items_tame. apply Forall_forall. intros f I. rewrite map_map in I. apply in_map_iff in I. destruct I as (j & <- & I).
      rewrite Forall_forall in IH. now apply IH. }
    destruct (read_items _ _ _ _ _ _ _ _) as [[|] s x|why p| |]; auto.
  - apply items_tame. apply Forall_forall. intros f I. rewrite map_map in I. apply in_map_iff in I. destruct I as (j & <- & I).
    rewrite Forall_forall in IH. now apply IH.
  - destruct (apply_types _ [t1; t2]) as [fs|] eqn:E; [|apply tame_reject]. apply finish_tuple_tame, tuple_tame.
    apply (apply_types_in _ _ _ _ _ E). intros f t I J. rewrite map_map in I. apply in_map_iff in I. destruct I as (j & <- & I).
    rewrite Forall_forall in IH. apply IH; [exact I|]. assert (A : Forall allowed [t1; t2]).
    { apply allowed_all; intros K; destruct U as [U C]; [specialize (U K)|specialize (C K)]; cbn in *; rewrite andb_true_r; assumption. }
    rewrite Forall_forall in A. auto.
  - destruct (apply_types _ ts) as [fs|] eqn:E; [|apply tame_reject]. apply finish_tuple_tame, tuple_tame.
    apply (apply_types_in _ _ _ _ _ E). intros f t I J. rewrite map_map in I. apply in_map_iff in I. destruct I as (j & <- & I).
    destruct U as [U C]. pose proof (allowed_all _ U C) as A. rewrite Forall_forall in IH, A. apply IH; auto.
  - apply entries_tame. apply Forall_forall. intros f I. rewrite map_map in I. apply in_map_iff in I. destruct I as (j & <- & I). cbn.
    rewrite Forall_forall in IH. now apply IH.
  - apply finish_object_tame, members_tame. intros m k f I E. rewrite find_fun_map in E.
    destruct (find_member l (m_name m)) as [j|] eqn:J; [|discriminate]. destruct (find_index l (m_name m)); [|discriminate].
    injection E as <- <-. apply find_member_In in J. rewrite Forall_forall in IH. apply (IH _ J). split; intros K.
    + specialize (PU K c0). rewrite forallb_forall in PU. now apply PU.
    + specialize (PC K c0). rewrite forallb_forall in PC. now apply PC.
Qed.
End Tame.

(** Without exceptions nothing is thrown. *)
Lemma no_throw : forall e root j t old ctx loc st why p, deser e root j false t old ctx loc st <> DThrow why p.
Proof.
  intros e root j t old ctx loc st why p E.
  assert (A : allowed false false t) by (split; discriminate).
  pose proof (always_tame false false e root ltac:(discriminate) ltac:(discriminate) j t A false old ctx loc st) as T.
  rewrite E in T. discriminate T.
Qed.

Lemma never_outside : forall e root j exc t old ctx loc st, unshared_classes e -> unshared t = true ->
  deser e root j exc t old ctx loc st <> DOutside.
Proof.
  intros e root j exc t old ctx loc st P U E.
  assert (A : allowed true false t) by (split; [auto|discriminate]).
  pose proof (always_tame true false e root (fun _ => P) ltac:(discriminate) j t A exc old ctx loc st) as T.
  rewrite E in T. discriminate T.
Qed.

Lemma throws_otherwise : forall e t, ordinary e -> ordinary_type t -> codec_free_classes e -> codec_free t = true -> forall j,
  (forall v, ~ denotes e t (dinit e t) j v) -> exists why p, deserialize_throw e t j = Threw why p.
Proof.
  intros e t O Ot CC C j N.
  pose proof (always_tame true true e j (fun _ => plain_unshared_classes e (proj1 O)) (fun _ => CC) j t
    (conj (fun _ => plain_unshared t (proj1 Ot)) (fun _ => C)) true (dinit e t) [] [] start) as T.
  unfold deserialize_throw. destruct (deser e j j true t (dinit e t) [] [] start) as [ok st v|why p| |] eqn:E;
    try (cbn in T; destruct T; discriminate); try discriminate T.
  - exfalso. apply (N v). apply accepts_exactly; auto. unfold deserialize_throw. now rewrite E.
  - eauto.
Qed.

(** C22 *)
Lemma all_read : forall e t, ordinary e -> ordinary_type t -> forall j obj v, denotes e t obj j v ->
  deserialize e t j obj = DRet true start v.
Proof. intros e t O Ot j obj v D. unfold deserialize. now apply complete. Qed.

Lemma false_justified : forall e t, ordinary e -> ordinary_type t -> forall j obj st v,
  deserialize e t j obj = DRet false st v -> forall w, ~ denotes e t obj j w.
Proof.
  intros e t O Ot j obj st v E w D. rewrite (all_read e t O Ot j obj w D) in E. discriminate.
Qed.

Lemma classless_exact : forall e t, ordinary e -> ordinary_type t -> classless t = true -> forall j obj st v,
  deserialize e t j obj = DRet true st v -> denotes e t obj j v.
Proof.
  intros e t O Ot C j obj st v E. pose proof (sound e t O Ot j j false (or_intror C) obj [] [] start) as S.
  unfold deserialize in E. rewrite E in S. cbn in S. tauto.
Qed.
