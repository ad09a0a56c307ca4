(** Where the strings of a document are. *)
From Coq Require Import List Arith ZArith NArith Ascii String Bool Lia.
From Verif Require Import Base Float Base64Model DatetimeModel EnumModel RefsModel Json PathModel Types SerializeModel StorageModel StorageSpec.
Import ListNotations.

Section StoredInd.
Variable P : stored -> Prop.
Hypotheses (Hn : P SNull) (Hb : forall b, P (SBool b)) (Hz : forall z, P (SInt z)) (Hf : forall f, P (SDbl f)) (Hs : forall a s, P (SStr a s))
  (Ha : forall l, Forall P l -> P (SArr l)) (Ho : forall l, Forall (fun p => P (snd p)) l -> P (SObj l)).
Fixpoint stored_ind' (d : stored) : P d :=
  match d with
  | SNull => Hn | SBool b => Hb b | SInt z => Hz z | SDbl f => Hf f | SStr a s => Hs a s
  | SArr l => Ha l ((fix all (l : list stored) : Forall P l := match l with [] => Forall_nil _ | x :: l' => Forall_cons x (stored_ind' x) (all l') end) l)
  | SObj l => Ho l ((fix all (l : list ((storage * string) * stored)) : Forall (fun p => P (snd p)) l :=
      match l with [] => Forall_nil _ | x :: l' => Forall_cons x (stored_ind' (snd x)) (all l') end) l)
  end.
End StoredInd.

(** [keeps there ctx d j]: [d] holds [j], with nothing in local variables, and only string values
    at the given places outside. *)
Definition safe (at_ : storage) : Prop := at_ = Pool \/ at_ = Constant.

Inductive keeps (there : list segment -> Prop) : list segment -> stored -> json -> Prop :=
| keeps_null : forall ctx, keeps there ctx SNull JNull
| keeps_bool : forall ctx x, keeps there ctx (SBool x) (JBool x)
| keeps_int : forall ctx z, keeps there ctx (SInt z) (JInt z)
| keeps_dbl : forall ctx f, keeps there ctx (SDbl f) (JDbl f)
| keeps_str : forall ctx at_ s, safe at_ \/ (there ctx /\ at_ = Outside) -> keeps there ctx (SStr at_ s) (JStr s)
| keeps_arr : forall ctx l l', keeps_elements there ctx 0 l l' -> keeps there ctx (SArr l) (JArr l')
| keeps_set : forall ctx l l', keeps_members there ctx l l' -> keeps there ctx (SArr l) (JArr l')
| keeps_obj : forall ctx l l', keeps_entries there ctx l l' -> keeps there ctx (SObj l) (JObj l')
with keeps_elements (there : list segment -> Prop) : list segment -> N -> list stored -> list json -> Prop :=
| keeps_no_elements : forall ctx k, keeps_elements there ctx k [] []
| keeps_element : forall ctx k d j l l', keeps there (index_segment k :: ctx) d j -> keeps_elements there ctx (k + 1) l l' ->
    keeps_elements there ctx k (d :: l) (j :: l')
with keeps_members (there : list segment -> Prop) : list segment -> list stored -> list json -> Prop :=
| keeps_no_members : forall ctx, keeps_members there ctx [] []
| keeps_member : forall ctx d j l l', keeps there ctx d j -> keeps_members there ctx l l' -> keeps_members there ctx (d :: l) (j :: l')
with keeps_entries (there : list segment -> Prop) : list segment -> list ((storage * string) * stored) -> list (string * json) -> Prop :=
| keeps_no_entries : forall ctx, keeps_entries there ctx [] []
| keeps_entry : forall ctx at_ n d j l l', safe at_ -> keeps there (name_segment (list_ascii_of_string n) :: ctx) d j -> keeps_entries there ctx l l' ->
    keeps_entries there ctx (((at_, n), d) :: l) ((n, j) :: l').

Lemma safe_reads : forall now at_ s, safe at_ -> reads_text now (at_, s) s.
Proof. intros now at_ s [-> | ->]; constructor. Qed.

Lemma keeps_later : forall there now d ctx j, keeps there ctx d j -> exists j', reads now d j' /\ but_texts there ctx j j'.
Proof.
  intros there now d. induction d as [|x|z|f|a s|l IH|l IH] using stored_ind'; intros ctx j K; inversion K; subst; try (eexists; split; constructor; fail).
  - match goal with Q : safe _ \/ _ |- _ => destruct Q as [Q|[Q ->]] end; eexists; (split; [constructor; (now apply safe_reads) || constructor|constructor; auto]).
  - assert (X : exists r, Forall2 (reads now) l r /\ but_elements there ctx 0 l' r).
    { match goal with Q : keeps_elements _ _ _ _ _ |- _ => revert Q end. clear K. generalize 0%N. revert l'. induction IH as [|x l Fx Fl IHl]; intros l' k Q; inversion Q; subst; [exists []; split; constructor|].
      match goal with A : keeps _ _ x _, B : keeps_elements _ _ _ _ _ |- _ => destruct (Fx _ _ A) as (j' & A1 & A2); destruct (IHl _ _ B) as (r & B1 & B2) end.
      exists (j' :: r). split; constructor; auto. }
    destruct X as (r & A & B). exists (JArr r). split; [|apply but_arr]; [constructor|]; assumption.
  - assert (X : exists r, Forall2 (reads now) l r /\ but_members there ctx l' r).
    { match goal with Q : keeps_members _ _ _ _ |- _ => revert Q end. clear K. revert l'. induction IH as [|x l Fx Fl IHl]; intros l' Q; inversion Q; subst; [exists []; split; constructor|].
      match goal with A : keeps _ _ x _, B : keeps_members _ _ _ _ |- _ => destruct (Fx _ _ A) as (j' & A1 & A2); destruct (IHl _ B) as (r & B1 & B2) end.
      exists (j' :: r). split; constructor; auto. }
    destruct X as (r & A & B). exists (JArr r). split; [|apply but_set]; [constructor|]; assumption.
  - assert (X : exists r, Forall2 (fun p q => reads_text now (fst p) (fst q) /\ reads now (snd p) (snd q)) l r /\ but_entries there ctx l' r).
    { match goal with Q : keeps_entries _ _ _ _ |- _ => revert Q end. clear K. revert l'. induction IH as [|x l Fx Fl IHl]; intros l' Q; inversion Q; subst; [exists []; split; constructor|].
      match goal with A : keeps _ _ _ _, B : keeps_entries _ _ _ _ |- _ => destruct (Fx _ _ A) as (j' & A1 & A2); destruct (IHl _ B) as (r & B1 & B2) end.
      exists ((n, j') :: r). split; constructor; auto. split; [now apply safe_reads|exact A1]. }
    destruct X as (r & A & B). exists (JObj r). split; constructor; assumption.
Qed.

Lemma keeps_reads : forall (there : list segment -> Prop) now d ctx j, (forall c, there c -> forall s, now s = s) -> keeps there ctx d j -> reads now d j.
Proof.
  intros there now d ctx j Hn. revert ctx j. induction d as [|x|z|f|a s|l IH|l IH] using stored_ind'; intros ctx j K; inversion K; subst; try (constructor; fail).
  - constructor. match goal with Q : safe _ \/ _ |- _ => destruct Q as [Q|[Q ->]]; [now apply safe_reads|]; rewrite <- (Hn _ Q s) at 2; constructor end.
  - constructor. match goal with Q : keeps_elements _ _ _ _ _ |- _ => revert Q end. clear K. generalize 0%N. revert l'.
    induction IH as [|x l Fx Fl IHl]; intros l' k Q; inversion Q; subst; constructor; eauto.
  - constructor. match goal with Q : keeps_members _ _ _ _ |- _ => revert Q end. clear K. revert l'.
    induction IH as [|x l Fx Fl IHl]; intros l' Q; inversion Q; subst; constructor; eauto.
  - constructor. match goal with Q : keeps_entries _ _ _ _ |- _ => revert Q end. clear K. revert l'.
    induction IH as [|x l Fx Fl IHl]; intros l' Q; inversion Q; subst; constructor; eauto. split; [now apply safe_reads|]. eapply Fx. eassumption.
Qed.

(** * The serializers *)

Section Same.
Variable e : env.
Variable view : list segment -> bool.
Notation there := (fun ctx => view ctx = true).

Definition same {A B} (R : A -> B -> Prop) (x : sres A) (y : sres B) : Prop :=
  match x, y with
  | SOk tab a, SOk tab' c => tab = tab' /\ R a c
  | SFail tab, SFail tab' => tab = tab'
  | SUndef, SUndef => True
  | _, _ => False
  end.

Definition same_fun {A B} (R : list segment -> A -> B -> Prop) (f : sfun A) (g : sfun B) : Prop := forall ctx tab, same (R ctx) (f ctx tab) (g ctx tab).

Lemma same_map : forall A B A' B' (R : A -> B -> Prop) (R' : A' -> B' -> Prop) f g x y, (forall a c, R a c -> R' (f a) (g c)) -> same R x y -> same R' (smap f x) (smap g y).
Proof. intros A B A' B' R R' f g [tab a|tab|] [tab' c|tab'|] I S; cbn in *; auto. destruct S. auto. Qed.

Lemma elements_same : forall ctx fs gs, Forall2 (same_fun (keeps there)) fs gs -> forall k tab,
  same (keeps_elements there ctx k) (ser_seq (at_index ctx) k fs tab) (ser_seq (at_index ctx) k gs tab).
Proof.
  intros ctx fs gs F. induction F as [|f g fs gs Fg Fs IH]; intros k tab; cbn [ser_seq]; [split; [reflexivity|constructor]|].
  specialize (Fg (at_index ctx k) tab). destruct (f (at_index ctx k) tab) as [tab1 a|tab1|], (g (at_index ctx k) tab) as [tab2 c|tab2|]; cbn in *; try contradiction; auto.
  destruct Fg as [<- Ra]. eapply same_map; [|apply IH]. intros l l' L. now constructor.
Qed.

Lemma set_same : forall ctx fs gs, Forall2 (same_fun (keeps there)) fs gs -> forall k tab,
  same (keeps_members there ctx) (ser_seq (fun _ => ctx) k fs tab) (ser_seq (fun _ => ctx) k gs tab).
Proof.
  intros ctx fs gs F. induction F as [|f g fs gs Fg Fs IH]; intros k tab; cbn [ser_seq]; [split; [reflexivity|constructor]|].
  specialize (Fg ctx tab). destruct (f ctx tab) as [tab1 a|tab1|], (g ctx tab) as [tab2 c|tab2|]; cbn in *; try contradiction; auto.
  destruct Fg as [<- Ra]. eapply same_map; [|apply IH]. intros l l' L. now constructor.
Qed.

Definition pair_rel {A B} (R : A -> B -> Prop) (p : string * A) (q : string * B) : Prop := fst p = fst q /\ R (snd p) (snd q).

Definition listed (ctx : list segment) (p : string * stored) (q : string * json) : Prop :=
  fst p = fst q /\ keeps there (name_segment (list_ascii_of_string (fst p)) :: ctx) (snd p) (snd q).

Lemma entries_same : forall ctx fs gs, Forall2 (pair_rel (same_fun (keeps there))) fs gs ->
  forall tab, same (Forall2 (listed ctx)) (ser_entries ctx fs tab) (ser_entries ctx gs tab).
Proof.
  intros ctx fs gs F. induction F as [|[n f] [n' g] fs gs [E Fg] Fs IH]; intros tab; cbn [ser_entries]; [split; [reflexivity|constructor]|].
  cbn in E, Fg. subst n'. specialize (Fg (name_segment (list_ascii_of_string n) :: ctx) tab).
  destruct (f _ tab) as [tab1 a|tab1|], (g _ tab) as [tab2 c|tab2|]; cbn in *; try contradiction; auto.
  destruct Fg as [<- Ra]. eapply same_map; [|apply IH]. intros l l' L. now repeat constructor.
Qed.

Definition mfun_rel (f : mfun stored) (g : mfun json) : Prop :=
  match f, g with
  | MPlain f, MPlain g | MPresent f, MPresent g => forall t, same_fun (keeps there) (f t) (g t)
  | MAbsent, MAbsent => True
  | _, _ => False
  end.

Lemma members_same : forall ctx ms fs gs, Forall2 mfun_rel fs gs ->
  forall tab, same (Forall2 (listed ctx)) (ser_members ctx ms fs tab) (ser_members ctx ms gs tab).
Proof.
  intros ctx ms. induction ms as [|m ms IH]; intros fs gs F tab; destruct F as [|f g fs gs Fg Fs]; cbn [ser_members]; try exact I; [split; [reflexivity|constructor]|].
  assert (K : match to_write m f, to_write m g with
    | None, None => True | Some None, Some None => True | Some (Some f), Some (Some g) => same_fun (keeps there) f g | _, _ => False end).
  { unfold to_write. destruct (m_kind m), f, g; cbn in Fg; try contradiction; try exact I; apply Fg. }
  destruct (to_write m f) as [[f'|]|], (to_write m g) as [[g'|]|]; try contradiction; try exact I; [|apply IH, Fs].
  specialize (K (name_segment (list_ascii_of_string (m_name m)) :: ctx) tab).
  destruct (f' _ tab) as [tab1 a|tab1|], (g' _ tab) as [tab2 c|tab2|]; cbn in K; try contradiction; try exact I.
  - destruct K as [<- Ra]. eapply same_map; [|apply IH, Fs]. intros l l' L. now repeat constructor.
  - subst tab2. apply IH, Fs.
Qed.

Lemma apply_types_rel : forall A B (R : A -> B -> Prop) (fs : list (ty -> A)) (gs : list (ty -> B)), Forall2 (fun f g => forall t, R (f t) (g t)) fs gs -> forall ts,
  match apply_types fs ts, apply_types gs ts with Some x, Some y => Forall2 R x y | None, None => True | _, _ => False end.
Proof.
  intros A B R fs gs F. induction F as [|f g fs gs Fg Fs IH]; intros [|t ts]; cbn; auto. specialize (IH ts).
  destruct (apply_types fs ts), (apply_types gs ts); try contradiction; auto.
Qed.

Lemma all_some_rel : forall A B (R : A -> B -> Prop) (l : list (option A)) (l' : list (option B)),
  Forall2 (fun x y => match x, y with Some a, Some c => R a c | None, None => True | _, _ => False end) l l' ->
  match all_some l, all_some l' with Some x, Some y => Forall2 R x y | None, None => True | _, _ => False end.
Proof.
  intros A B R l l' F. induction F as [|x y l l' X Xs IH]; cbn; auto. destruct x, y; try contradiction; auto.
  destruct (all_some l), (all_some l'); try contradiction; auto.
Qed.

Lemma Forall2_map_both : forall X A B (R : A -> B -> Prop) (f : X -> A) (g : X -> B) l, Forall (fun x => R (f x) (g x)) l -> Forall2 R (map f l) (map g l).
Proof. intros X A B R f g l F. induction F; cbn; constructor; assumption. Qed.

Lemma visited_rel : forall A B (R : A -> B -> Prop) ordered fs gs, Forall2 (pair_rel R) fs gs ->
  match visited e ordered fs, visited e ordered gs with Some x, Some y => Forall2 (pair_rel R) x y | None, None => True | _, _ => False end.
Proof.
  intros A B R ordered fs gs F. unfold visited. destruct ordered; [exact F|].
  assert (E : map fst fs = map fst gs) by (induction F as [|? ? ? ? [X _]]; cbn; congruence). rewrite E. apply all_some_rel.
  apply Forall2_map_both, Forall_forall. intros k _. clear E. revert k. induction F as [|p q fs gs P Ps IH]; intros [|k]; cbn; auto. apply IH.
Qed.

Lemma text_same : forall ctx tab o, same (keeps there ctx) (text_value tab o) (of_text tab o).
Proof. intros ctx tab [s|]; cbn; auto. split; [reflexivity|]. constructor. left. now left. Qed.

Lemma scalar_same : forall t v ctx tab, same (keeps there ctx) (store_scalar e view t v ctx tab) (ser_scalar e t v tab).
Proof.
  intros t v ctx tab. destruct t, v; cbn [store_scalar ser_scalar]; try exact I; try apply text_same; try (split; [reflexivity|constructor]; fail).
  - destruct (is_finite f); [split; [reflexivity|constructor]|reflexivity].
  - destruct (is_finite f); [split; [reflexivity|constructor]|reflexivity].
  - destruct (view ctx) eqn:V; (split; [reflexivity|]); constructor; cbn.
    + destruct (String.eqb s ""); [left; now right|right]. auto.
    + left. now left.
  - destruct (in_int64 _); [apply text_same|exact I].
  - split; [reflexivity|]. constructor. left. now right.
Qed.

Lemma entries_keep : forall ctx l l', Forall2 (listed ctx) l l' -> keeps there ctx (SObj (map entry_of l)) (JObj l').
Proof.
  intros ctx l l' F. constructor. induction F as [|[n d] [n' j] l l' [E K] F IH]; cbn in *; [constructor|]. subst n'. constructor; auto. now left.
Qed.

Lemma members_keep : forall ctx l l', Forall2 (listed ctx) l l' -> keeps there ctx (SObj (map member_of l)) (JObj l').
Proof.
  intros ctx l l' F. constructor. induction F as [|[n d] [n' j] l l' [E K] F IH]; cbn in *; [constructor|]. subst n'. constructor; auto. now right.
Qed.

Definition both (v : val) : Prop := forall t, same_fun (keeps there) (store e view v t) (ser e v t).
Definition all_parts (v : val) : Prop := both v /\ match v with VList l => Forall both l | VSome x => both x | _ => True end.

Lemma store_same_parts : forall v, all_parts v.
Proof.
  assert (S : forall v t ctx tab, store e view v t ctx tab = store_scalar e view t v ctx tab -> ser e v t ctx tab = ser_scalar e t v tab ->
    same (keeps there ctx) (store e view v t ctx tab) (ser e v t ctx tab)).
  { intros v t ctx tab -> ->. apply scalar_same. }
  induction v as [| |x|z|f|x|x|z|z|l IH|l IH|i v IH|l IH| |v IH| |v IH|a v IH] using val_ind';
    (split; [intros t ctx tab|]); try exact I; try (destruct t; apply S; reflexivity).
  - (* VList *)
    assert (F : Forall both l) by (eapply Forall_impl; [|exact IH]; intros x [X _]; exact X).
    assert (FU : forall u, Forall2 (same_fun (keeps there)) (map (fun f => f u) (map (store e view) l)) (map (fun f => f u) (map (ser e) l))).
    { intros u. rewrite !map_map. apply Forall2_map_both. eapply Forall_impl; [|exact F]. intros x X. apply X. }
    assert (FT : Forall2 (fun f g => forall t, same_fun (keeps there) (f t) (g t)) (map (store e view) l) (map (ser e) l)) by (apply Forall2_map_both; exact F).
    assert (L : forall fs gs, Forall2 (same_fun (keeps there)) fs gs -> same (keeps there ctx) (smap SArr (ser_seq (at_index ctx) 0 fs tab)) (smap JArr (ser_seq (at_index ctx) 0 gs tab))).
    { intros fs gs X. eapply same_map; [|apply elements_same; exact X]. intros d j K. now apply keeps_arr. }
    destruct t; try (apply S; reflexivity); cbn [store ser].
    + destruct (dict_type t) as [w|]; [|apply L, FU].
      assert (K : Forall2 (fun x y => match x, y with Some a, Some c => pair_rel (fun f g => forall t, same_fun (keeps there) (f t) (g t)) a c | None, None => True | _, _ => False end)
        (map (keyed (store e view)) l) (map (keyed (ser e)) l)).
      { apply Forall2_map_both. eapply Forall_impl; [|exact IH]. intros x [_ X]. destruct x as [| | | | | | | | |xs| | | | | | | |]; try exact I.
        destruct xs as [|[] [|y [|]]]; try exact I. cbn. split; [reflexivity|]. inversion X as [|? ? _ Q]; subst. inversion Q; subst. assumption. }
      apply all_some_rel in K. destruct (all_some (map (keyed (store e view)) l)), (all_some (map (keyed (ser e)) l)); try contradiction; [|exact I].
      eapply same_map; [apply entries_keep|]. apply entries_same. clear -K. induction K as [|[n f] [n' g] ps qs [E Pq] Ps IH]; cbn [map]; constructor; [|exact IH].
      split; [exact E|apply Pq].
    + destruct (Nat.eqb n (List.length l)); [apply L, FU|exact I].
    + eapply same_map; [|apply set_same; apply FU]. intros d j K. now apply keeps_set.
    + pose proof (apply_types_rel _ _ _ _ _ FT [t1; t2]) as X.
      destruct (apply_types (map (store e view) l) [t1; t2]), (apply_types (map (ser e) l) [t1; t2]); try contradiction; [apply L, X|exact I].
    + pose proof (apply_types_rel _ _ _ _ _ FT ts) as X.
      destruct (apply_types (map (store e view) l) ts), (apply_types (map (ser e) l) ts); try contradiction; [apply L, X|exact I].
  - eapply Forall_impl; [|exact IH]. intros x [X _]. exact X.
  - (* VMap *)
    destruct t; try (apply S; reflexivity); cbn [store ser].
    assert (K : Forall2 (pair_rel (fun f g => forall t, same_fun (keeps there) (f t) (g t))) (map (fun p => (fst p, store e view (snd p))) l) (map (fun p => (fst p, ser e (snd p))) l)).
    { apply Forall2_map_both. eapply Forall_impl; [|exact IH]. intros p [X _]. split; [reflexivity|exact X]. }
    apply (visited_rel _ _ _ ordered) in K. destruct (visited e ordered (map (fun p => (fst p, store e view (snd p))) l)), (visited e ordered (map (fun p => (fst p, ser e (snd p))) l)); try contradiction; [|exact I].
    eapply same_map; [apply entries_keep|]. apply entries_same. clear -K. induction K as [|[n f] [n' g] ps qs [E Pq] Ps IH]; cbn [map]; constructor; [|exact IH].
    split; [exact E|apply Pq].
  - (* VVariant *)
    destruct t; try (apply S; reflexivity); cbn [store ser]. destruct (nth_error ts i); [apply IH|exact I].
  - (* VObj *)
    destruct t; try (apply S; reflexivity); cbn [store ser]. eapply same_map; [apply members_keep|]. apply members_same, Forall2_map_both.
    eapply Forall_impl; [|exact IH]. intros x [X Y]. destruct x; cbn [mpart mfun_rel]; try exact X; try exact I. exact Y.
  - exact (proj1 IH).
  - destruct t; try (apply S; reflexivity); cbn [store ser]; apply IH.
  - (* VShared *)
    destruct t; try (apply S; reflexivity); cbn [store ser]. destruct (ref_get Nat.eqb tab a) as [s|].
    + split; [reflexivity|]. constructor. constructor; [now right| |constructor]. constructor. left. now left.
    + pose proof (proj1 IH t ctx tab) as X. destruct (store e view v t ctx tab), (ser e v t ctx tab); cbn in *; try contradiction; auto.
      destruct X as [-> X]. auto.
Qed.
End Same.

Lemma store_same : forall e view v t, same (keeps (fun ctx => view ctx = true) []) (stored_document e view t v) (serialize_to_document e t v).
Proof. intros e view v t. apply (store_same_parts e view v). Qed.

(** * Reading gives one document *)

Lemma reads_text_one : forall now x s s', reads_text now x s -> reads_text now x s' -> s = s'.
Proof. intros now x s s' A B. inversion A; subst; inversion B; subst; reflexivity. Qed.

Lemma reads_one : forall now d j j', reads now d j -> reads now d j' -> j = j'.
Proof.
  intros now d. induction d as [|b|z|f|a s|l IH|l IH] using stored_ind'; intros j j' A B; inversion A; subst; inversion B; subst; try reflexivity.
  - f_equal. eapply reads_text_one; eassumption.
  - f_equal. clear A B. revert l'0 H1. induction H0 as [|x y l l' R Rs IHl]; intros r Q; inversion Q; subst; [reflexivity|]. inversion IH; subst. f_equal; auto.
  - f_equal. clear A B. revert l'0 H1. induction H0 as [|[x1 x] [n y] l l' [T R] Rs IHl]; intros r Q; inversion Q as [|? [n' y'] ? ? [T' R']]; subst; [reflexivity|].
    inversion IH; subst. cbn in *. f_equal; [|auto]. f_equal; [eapply reads_text_one; eassumption|auto].
Qed.
