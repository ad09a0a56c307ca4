(** Reading the document of a value of another program. *)
From Coq Require Import List Arith ZArith NArith Ascii String Bool Permutation Sorted Lia.
From Verif Require Import Base Float NumericModel NumericSpec Base64Spec DatetimeSpec DatetimeProof EnumModel EnumProof Json Types SerializeModel DeserializeModel ParseModel
  DenoteSpec DenoteProof DenoteFacts MapFacts FloatFacts RoundSpec DocSpec MergeSpec MergeFacts ParseSpec ParseLimit AgreeSpec AgreeProof AcceptFacts RoundProof RoundParse EvolveSpec.
Import ListNotations.
Local Open Scope Z_scope.

(** * Sequences and fields in documents *)

Lemma parts_repeat : forall D u l js, Forall2 (D u) l js -> parts_doc D (repeat u (List.length l)) l js.
Proof. intros D u l js F. induction F; cbn; constructor; auto. Qed.

Lemma forall2_repeat : forall (H : ty -> val -> Prop) u l, Forall (H u) l -> Forall2 H (repeat u (List.length l)) l.
Proof. intros H u l F. induction F; cbn; constructor; auto. Qed.

Lemma sequence_doc : forall e t l ts j, sequence l t ts -> doc e t (VList l) j -> exists js, j = JArr js /\ parts_doc (doc e) ts l js.
Proof.
  intros e t l ts j S D. destruct S; inversion D; subst; eexists; (split; [reflexivity|]); auto using parts_repeat.
Qed.

Lemma sequence_holds : forall e t l ts, sequence l t ts -> holds e t (VList l) -> Forall2 (holds e) ts l.
Proof.
  intros e t l ts S H. destruct S; inversion H; subst; auto using forall2_repeat.
Qed.

Definition bare (t : ty) : bool := match t with TUnique _ => false | _ => true end.

Lemma doc_sequence : forall e t v js, doc e t v (JArr js) -> bare t = true -> exists l ts, v = VList l /\ sequence l t ts.
Proof.
  intros e t v js D N. inversion D; subst; try discriminate.
  - eexists _, _. split; [reflexivity|now constructor].
  - eexists _, _. split; [reflexivity|now constructor].
  - eexists _, _. split; [reflexivity|now constructor].
  - eexists _, _. split; [reflexivity|now constructor].
  - eexists _, _. split; [reflexivity|now constructor].
Qed.

Lemma doc_fields : forall e t v ps, doc e t v (JObj ps) -> bare t = true -> exists fs, fields e t v fs.
Proof. intros e t v ps D N. inversion D; subst; try discriminate; eexists; constructor. Qed.

Lemma doc_null_inv : forall e t v, doc e t v JNull -> bare t = true -> t = TNull /\ v = VNull.
Proof. intros e t v D N. inversion D; subst; try discriminate; auto. Qed.

Lemma doc_bool_inv : forall e t v b, doc e t v (JBool b) -> bare t = true -> t = TBool /\ v = VBool b.
Proof. intros e t v b D N. inversion D; subst; try discriminate; auto. Qed.

Lemma doc_int_inv : forall e t v z, doc e t v (JInt z) -> bare t = true -> exists k, integer_type t = Some k /\ v = VInt z.
Proof. intros e t v z D N. inversion D; subst; try discriminate; eexists; (split; reflexivity). Qed.

Lemma doc_dbl_inv : forall e t v f, doc e t v (JDbl f) -> bare t = true -> exists fm, float_type t = Some fm /\ v = VFlt f.
Proof. intros e t v z D N. inversion D; subst; try discriminate; eexists; (split; reflexivity). Qed.

Lemma doc_str_inv : forall e t v s, doc e t v (JStr s) -> bare t = true -> scalar_type t = true.
Proof. intros e t v s D N. inversion D; subst; try discriminate; reflexivity. Qed.

Lemma nodup_fst_snd : forall A B (l : list (A * B)) a b c, NoDup (map fst l) -> In (a, b) l -> In (a, c) l -> b = c.
Proof.
  induction l as [|[x y] l IH]; intros a b c N I J; [destruct I|]. cbn in N. inversion N as [|? ? N1 N2]; subst.
  destruct I as [I|I], J as [J|J]; try (injection I as -> ->); try (injection J as -> ->); eauto; try congruence.
  - exfalso. apply N1. apply in_map_iff. now exists (a, c).
  - exfalso. apply N1. apply in_map_iff. now exists (a, b).
Qed.

(** A field and its part of the document. *)
Definition shown (e : env) (f : field) (p : string * json) : Prop :=
  fst f = fst p /\ doc e (fst (snd f)) (snd (snd f)) (snd p) /\ holds e (fst (snd f)) (snd (snd f)).

Lemma member_fields_names : forall ms vs, incl (map fst (member_fields ms vs)) (map m_name ms).
Proof.
  induction ms as [|m ms IH]; intros [|v vs]; cbn; try easy. pose proof (IH vs) as I.
  assert (A : forall x, incl (map fst ((m_name m, x) :: member_fields ms vs)) (m_name m :: map m_name ms)).
  { intros x n [<-|J]; [now left|right; now apply I]. }
  destruct (m_kind m); [apply A|apply A|]. destruct v; try (now apply incl_tl). apply A.
Qed.

Lemma member_fields_nodup : forall ms vs, NoDup (map m_name ms) -> NoDup (map fst (member_fields ms vs)).
Proof.
  induction ms as [|m ms IH]; intros [|v vs] N; cbn; try constructor. inversion N as [|? ? N1 N2]; subst.
  assert (A : forall x, NoDup (map fst ((m_name m, x) :: member_fields ms vs))).
  { intros x. cbn. constructor; [|auto]. intros I. apply N1. eapply member_fields_names; eauto. }
  destruct (m_kind m); [apply A|apply A|]. destruct v; try (now apply IH). apply A.
Qed.

Lemma members_shown : forall e ms vs ps, Forall2 (member_holds (holds e)) ms vs -> members_doc (doc e) ms vs ps ->
  Forall2 (shown e) (member_fields ms vs) ps.
Proof.
  intros e ms vs ps H D. induction D as [|m ms v vs j l K G F IH|m ms v vs j l K G F IH|m ms vs l K F IH]; cbn;
    [constructor| | |]; inversion H as [|? ? ? ? Hm Hs]; subst.
  - assert (X : shown e (m_name m, (m_ty m, v)) (m_name m, j)).
    { split; [reflexivity|]. split; [exact G|]. inversion Hm; subst; try congruence. assumption. }
    destruct (m_kind m); try congruence; constructor; auto.
  - rewrite K. constructor; auto. split; [reflexivity|]. split; [exact G|]. inversion Hm; subst; try congruence. assumption.
  - rewrite K. auto.
Qed.

(** The fields are in the document, in their order or, if no two of them are the same to C, in
    any order. *)
Lemma fields_doc : forall e t v fs j, named e -> holds e t v -> fields e t v fs -> doc e t v j ->
  NoDup (map fst fs) /\ exists fs' ps, j = JObj ps /\ Forall2 (shown e) fs' ps /\
    (fs' = fs \/ (Permutation fs fs' /\ Forall (fun f => until_nul (fst f) = fst f) fs)).
Proof.
  intros e t v fs j NM H F D. destruct F as [o u l|c vs].
  - inversion H as [| | | | | | | | | | | | | |o' u' l' F S| | | | | |]; subst. inversion D as [| | | | | | | | | | | | | |o' u' l0 l' ps Pm E| | | |]; subst.
    assert (P : Permutation l l') by (destruct o; subst; auto). clear Pm. split.
    { rewrite map_map. cbn. now apply ascending_nodup. }
    exists (map (fun p => (fst p, (u, snd p))) l'), ps. split; [reflexivity|]. split.
    + assert (F' : Forall (fun p => holds e u (snd p)) l').
      { eapply Permutation_Forall; [exact P|]. eapply Forall_impl; [|exact F]. cbn. tauto. }
      clear - E F'. induction E; inversion F' as [|? ? F1 F2]; subst; cbn; constructor; auto. split; [reflexivity|]. split; auto.
    + right. split; [now apply Permutation_map|]. apply Forall_map. eapply Forall_impl; [|exact F]. cbn. tauto.
  - inversion H as [| | | | | | | | | | | | | | | | |c' l' F| | |]; subst. inversion D; subst. split; [apply member_fields_nodup, NM|].
    eexists _, _. split; [reflexivity|]. split; [|left; reflexivity]. now apply members_shown.
Qed.

Lemma field_of_in : forall fs n x, field_of fs n = Some x -> In (n, x) fs.
Proof.
  induction fs as [|[k y] fs IH]; intros n x E; cbn in *; [discriminate|]. destruct (String.eqb_spec k n) as [->|N]; [|right; auto].
  injection E as ->. now left.
Qed.

Lemma field_of_nodup : forall fs n x, NoDup (map fst fs) -> In (n, x) fs -> field_of fs n = Some x.
Proof.
  induction fs as [|[k y] fs IH]; intros n x N I; [destruct I|]. cbn in *. inversion N as [|? ? N1 N2]; subst. destruct I as [E|I].
  - injection E as -> ->. now rewrite String.eqb_refl.
  - destruct (String.eqb_spec k n) as [->|M]; [|auto]. elim N1. apply in_map_iff. now exists (n, x).
Qed.

Lemma field_of_perm : forall fs fs' n, NoDup (map fst fs) -> Permutation fs fs' -> field_of fs n = field_of fs' n.
Proof.
  intros fs fs' n N P. assert (N' : NoDup (map fst fs')) by (eapply Permutation_NoDup; [apply Permutation_map; exact P|exact N]).
  destruct (field_of fs n) as [x|] eqn:E.
  - apply field_of_in in E. symmetry. apply field_of_nodup; auto. eapply Permutation_in; eauto.
  - destruct (field_of fs' n) as [x|] eqn:E'; [|reflexivity]. apply field_of_in in E'.
    rewrite (field_of_nodup fs n x) in E; [discriminate|auto|]. eapply Permutation_in; [apply Permutation_sym; exact P|exact E'].
Qed.

Lemma shown_find : forall e fs ps n, Forall2 (shown e) fs ps ->
  match field_of fs n with
  | Some (t, x) => exists j, find_member ps n = Some j /\ In (n, j) ps /\ doc e t x j /\ holds e t x
  | None => find_member ps n = None
  end.
Proof.
  intros e fs ps n F. induction F as [|[k [t x]] [k' j] fs ps (E & D & H) F IH]; cbn in *; [reflexivity|]. subst k'.
  destruct (String.eqb_spec k n) as [->|N].
  - exists j. auto.
  - destruct (field_of fs n) as [[t' x']|]; [|exact IH]. destruct IH as (j' & F1 & I & D' & H'). exists j'. auto.
Qed.

Lemma forall2_perm : forall A B (R : A -> B -> Prop) l l', Permutation l l' -> forall m, Forall2 R l m ->
  exists m', Permutation m m' /\ Forall2 R l' m'.
Proof.
  intros A B R l l' P. induction P as [|x l l' P IH|x y l|l l' l'' P1 IH1 P2 IH2]; intros m F.
  - inversion F; subst. exists []. auto.
  - inversion F as [|? z ? m0 Rx F']; subst. destruct (IH _ F') as (m' & Pm & Fm). exists (z :: m'). auto.
  - inversion F as [|? z ? m0 Rx F']; subst. inversion F' as [|? z' ? m1 Ry F'']; subst. exists (z' :: z :: m1). split; [apply perm_swap|auto].
  - destruct (IH1 _ F) as (m' & Pm & Fm). destruct (IH2 _ Fm) as (m'' & Pm' & Fm'). exists m''. split; [eapply perm_trans; eauto|auto].
Qed.

Lemma cal_unique : forall y m d y' m' d' n, cal y m d n -> cal y' m' d' n -> y = y' /\ m = m' /\ d = d'.
Proof.
  intros y m d y' m' d' n C C'. apply cal_iff in C, C'. destruct C as [C <-], C' as [C' E].
  pose proof (civil_days _ _ _ C) as X. pose proof (civil_days _ _ _ C') as X'. rewrite E in X'. rewrite X in X'. injection X' as -> -> ->. auto.
Qed.

Lemma instant_unique : forall y m d hh mi ss y' m' d' hh' mi' ss' t, instant y m d hh mi ss t -> instant y' m' d' hh' mi' ss' t ->
  y = y' /\ m = m' /\ d = d' /\ hh = hh' /\ mi = mi' /\ ss = ss'.
Proof.
  intros y m d hh mi ss y' m' d' hh' mi' ss' t [T (n & C & E)] [T' (n' & C' & E')]. unfold time_ok in *.
  assert (n = n') as -> by lia. destruct (cal_unique _ _ _ _ _ _ _ C C') as (-> & -> & ->). repeat split; lia.
Qed.

Section Evolve.
Variables e e' : env.
Hypothesis NM : named e.

Definition agrees_on (j : json) : Prop := forall t' t v old v', holds e t v -> doc e t v j ->
  (becomes e e' t v t' old v' <-> denotes e' t' old j v').

Lemma items_iff : forall js, Forall agrees_on js -> forall ts l, Forall2 (holds e) ts l -> parts_doc (doc e) ts l js ->
  forall ts' olds l', items_become (becomes e e') ts l ts' olds l' <-> parts_denote (denotes e') ts' olds js l'.
Proof.
  intros js A. induction A as [|j js Aj A IH]; intros ts l H D ts' olds l'; inversion D; subst; inversion H; subst.
  - split; intros X; inversion X; subst; constructor.
  - split; intros X; inversion X; subst; constructor; try (eapply Aj; eauto; fail); eapply IH; eauto.
Qed.

Lemma parts_repeat_iff : forall u d js l' n, n = List.length js ->
  (parts_denote (denotes e') (repeat u n) (repeat d n) js l' <-> Forall2 (denotes e' u d) js l').
Proof.
  intros u d. induction js as [|j js IH]; intros l' n ->; cbn.
  - split; intros X; inversion X; subst; constructor.
  - split; intros X; inversion X; subst; constructor; auto; now apply (IH _ (List.length js)).
Qed.

Lemma parts_length : forall D ts l js, parts_doc D ts l js -> List.length l = List.length js.
Proof. intros D ts l js P. induction P; cbn; congruence. Qed.

Lemma entries_iff : forall ps, Forall (fun p => agrees_on (snd p)) ps -> forall fs, Forall2 (shown e) fs ps -> forall u qs,
  Forall2 (fun f q => fst q = until_nul (fst f) /\ becomes e e' (fst (snd f)) (snd (snd f)) u (dinit e' u) (snd q)) fs qs <->
  exists vs, Forall2 (fun p v => denotes e' u (dinit e' u) (snd p) v) ps vs /\ qs = combine (map (fun p => until_nul (fst p)) ps) vs.
Proof.
  intros ps A. induction A as [|p ps Ap A IH]; intros fs S u qs; inversion S as [|f ? fs' ? Sf Ss]; subst.
  - split; intros X.
    + inversion X; subst. exists []. split; [constructor|reflexivity].
    + destruct X as (vs & F & ->). inversion F; subst. constructor.
  - destruct Sf as (E & D & H). split; intros X.
    + inversion X as [|? q ? qs' (Eq & B) F]; subst. apply (IH _ Ss) in F. destruct F as (vs & F & ->).
      exists (snd q :: vs). split; [constructor; auto; apply (Ap u _ _ _ _ H D); exact B|]. cbn. rewrite <- E, <- Eq. now destruct q.
    + destruct X as (vs & F & ->). inversion F as [|? v ? vs' Dv F']; subst. cbn. constructor.
      * cbn. split; [now rewrite E|]. apply (Ap u _ _ _ _ H D). exact Dv.
      * apply (IH _ Ss). exists vs'. auto.
Qed.

Lemma members_iff : forall ps, Forall (fun p => agrees_on (snd p)) ps -> forall fs, Forall2 (shown e) fs ps -> forall ms olds vs,
  members_become (becomes e e') e' fs ms olds vs <-> members_denote (denotes e') e' ps ms olds vs.
Proof.
  intros ps A fs S. assert (M : forall m old v, member_becomes (becomes e e') e' fs m old v <-> member_denotes (denotes e') e' ps m old v).
  { intros m old v. pose proof (shown_find e fs ps (m_name m) S) as X. rewrite Forall_forall in A.
    destruct (field_of fs (m_name m)) as [[t x]|] eqn:E.
    - destruct X as (j & F & I & D & H). specialize (A _ I). cbn in A. split; intros B; inversion B; subst; try congruence.
      + replace t0 with t in * by congruence. replace x0 with x in * by congruence. eapply member_plain; eauto. eapply A; eauto.
      + replace t0 with t in * by congruence. replace x0 with x in * by congruence. eapply member_some; eauto. eapply A; eauto.
      + replace j0 with j in * by congruence. eapply mb_plain; eauto. eapply A; eauto.
      + replace j0 with j in * by congruence. eapply mb_some; eauto. eapply A; eauto.
    - split; intros B; inversion B; subst; try congruence; first [now apply member_kept|now apply member_none|now apply mb_default|now apply mb_none]. }
  induction ms as [|m ms IH]; intros olds vs; split; intros X; inversion X; subst; constructor; try (now apply M); now apply IH.
Qed.

Hypothesis TK : 0 < tick e.

Lemma doc_text : forall t v s j, holds e t v -> doc e t v (JStr s) -> doc e t v j -> j = JStr s.
Proof.
  intros t v s j H D. revert H j. induction t in v, D |- *; intros H j D'; inversion D; subst; inversion D'; subst; auto.
  - assert (sec0 = sec) by nia. subst sec0. 
    match goal with A : instant _ _ _ _ _ _ sec, B : instant _ _ _ _ _ _ sec |- _ => now destruct (instant_unique _ _ _ _ _ _ _ _ _ _ _ _ _ A B) as (-> & -> & -> & -> & -> & ->) end.
  - match goal with A : cal _ _ _ n, B : cal _ _ _ n |- _ => now destruct (cal_unique _ _ _ _ _ _ _ A B) as (-> & -> & ->) end.
  - inversion H; subst. f_equal. eapply nodup_fst_snd; eauto.
  - inversion H; subst. eapply IHt; eauto.
Qed.

Lemma members_perm : forall R fs fs' ms olds vs, (forall n, field_of fs n = field_of fs' n) ->
  members_become R e' fs ms olds vs -> members_become R e' fs' ms olds vs.
Proof.
  intros R fs fs' ms olds vs E M. induction M as [|m ms olds v vs B M IH]; constructor; auto.
  destruct B; [eapply mb_plain|apply mb_default|eapply mb_some|apply mb_none]; eauto; rewrite <- E; auto.
Qed.

Definition in_order (fs fs' : list field) : Prop :=
  fs' = fs \/ (Permutation fs fs' /\ Forall (fun f => until_nul (fst f) = fst f) fs).

Lemma keys_until : forall (P : field -> string * val -> Prop) fs qs, Forall2 (fun f q => fst q = until_nul (fst f) /\ P f q) fs qs ->
  Forall (fun f => until_nul (fst f) = fst f) fs -> map fst qs = map fst fs.
Proof.
  intros P fs qs F. induction F as [|f q fs qs [E _] F IH]; intros A; cbn; [reflexivity|]. inversion A; subst. rewrite E, IH by assumption. congruence.
Qed.

Lemma map_from : forall fs fs' qs u ps o old, Forall (fun p => agrees_on (snd p)) qs -> NoDup (map fst fs) -> Forall2 (shown e) fs' qs -> in_order fs fs' ->
  Forall2 (fun f q => fst q = until_nul (fst f) /\ becomes e e' (fst (snd f)) (snd (snd f)) u (dinit e' u) (snd q)) fs ps ->
  denotes e' (TMap o u) old (JObj qs) (VMap (fold_left (fun m p => map_assign m (fst p) (snd p)) ps [])).
Proof.
  intros fs fs' qs u ps o old Q N Sh Or F. change (fold_left _ ps []) with (assign_all ps []).
  assert (X : exists ps', assign_all ps [] = assign_all ps' [] /\
    Forall2 (fun f q => fst q = until_nul (fst f) /\ becomes e e' (fst (snd f)) (snd (snd f)) u (dinit e' u) (snd q)) fs' ps').
  { destruct Or as [->|[P A]]; [now exists ps|]. destruct (forall2_perm _ _ _ _ _ P _ F) as (ps' & Pp & F'). exists ps'. split; [|exact F'].
    apply assign_all_perm; [|exact Pp|constructor]. now rewrite (keys_until _ _ _ F A). }
  destruct X as (ps' & -> & F'). apply (entries_iff qs Q fs' Sh) in F'. destruct F' as (vs & Fv & ->). now apply denotes_map.
Qed.

Lemma map_to : forall t v fs fs' qs u vs o old, Forall (fun p => agrees_on (snd p)) qs -> fields e t v fs -> NoDup (map fst fs) -> Forall2 (shown e) fs' qs ->
  in_order fs fs' -> Forall2 (fun p v => denotes e' u (dinit e' u) (snd p) v) qs vs ->
  becomes e e' t v (TMap o u) old (VMap (fold_left (fun m p => map_assign m (fst p) (snd p)) (combine (map (fun p => until_nul (fst p)) qs) vs) [])).
Proof.
  intros t v fs fs' qs u vs o old Q Fs N Sh Or F. change (fold_left _ ?ps []) with (assign_all ps []).
  set (ps := combine _ _).
  assert (F' : Forall2 (fun f q => fst q = until_nul (fst f) /\ becomes e e' (fst (snd f)) (snd (snd f)) u (dinit e' u) (snd q)) fs' ps).
  { apply (entries_iff qs Q fs' Sh). now exists vs. }
  assert (X : exists ps', assign_all ps [] = assign_all ps' [] /\
    Forall2 (fun f q => fst q = until_nul (fst f) /\ becomes e e' (fst (snd f)) (snd (snd f)) u (dinit e' u) (snd q)) fs ps').
  { destruct Or as [->|[P A]]; [now exists ps|]. apply Permutation_sym in P. destruct (forall2_perm _ _ _ _ _ P _ F') as (ps' & Pp & F2). exists ps'. split; [|exact F2].
    apply assign_all_perm; [|exact Pp|constructor]. eapply Permutation_NoDup; [apply Permutation_map, Permutation_sym; exact Pp|].
    now rewrite (keys_until _ _ _ F2 A). }
  destruct X as (ps' & -> & F2). unfold assign_all. eapply becomes_map; eauto.
Qed.

Definition parts_agree (j : json) : Prop :=
  match j with JArr js => Forall agrees_on js | JObj ps => Forall (fun p => agrees_on (snd p)) ps | _ => True end.

Lemma bare_iff : forall j, parts_agree j -> forall t' t v old v', bare t = true -> bare t' = true -> holds e t v -> doc e t v j ->
  (becomes e e' t v t' old v' <-> denotes e' t' old j v').
Proof.
  intros j Q t' t v old v' Bt Bt' H D. split.
  - intros B. destruct B as [old|old b|t k t' k' old z Ik Ik' R|t k old z Ik|t k old z Ik|t fm t' fm' old f Fm Fm'|t v t' old s v' St St' Ds Dn
      |t l ts u old l' S I|t l ts u old l' S I|t l ts u old l' S I|t l ts a b old l' S I|t l ts ts' old l' S I
      |t v fs o u old ps F I|t v fs c old vs F I|t x t' old v' B|t v t' old v' B]; try discriminate.
    + inversion D; subst. constructor.
    + inversion D; subst. constructor.
    + assert (j = JInt z) as -> by (destruct t; try discriminate; inversion D; reflexivity).
      destruct t'; try discriminate; injection Ik' as ->; now constructor.
    + assert (j = JInt z) as -> by (destruct t; try discriminate; inversion D; reflexivity). constructor.
    + assert (j = JInt z) as -> by (destruct t; try discriminate; inversion D; reflexivity). constructor.
    + assert (j = JDbl f) as -> by (destruct t; try discriminate; inversion D; reflexivity).
      destruct t'; try discriminate; injection Fm' as <-; constructor.
    + now rewrite (doc_text _ _ _ _ H Ds D).
    + destruct (sequence_doc _ _ _ _ _ S D) as (js & -> & P). pose proof (sequence_holds _ _ _ _ S H) as Hs.
      apply denotes_vector. apply (items_iff js Q _ _ Hs P) in I. eapply parts_repeat_iff; [|exact I]. eapply parts_length; eauto.
    + destruct (sequence_doc _ _ _ _ _ S D) as (js & -> & P). pose proof (sequence_holds _ _ _ _ S H) as Hs.
      pose proof (parts_length _ _ _ _ P) as L. apply (items_iff js Q _ _ Hs P) in I. rewrite L in *. apply denotes_array.
      eapply parts_repeat_iff; [|exact I]. reflexivity.
    + destruct (sequence_doc _ _ _ _ _ S D) as (js & -> & P). pose proof (sequence_holds _ _ _ _ S H) as Hs.
      apply denotes_set. apply (items_iff js Q _ _ Hs P) in I. eapply parts_repeat_iff; [|exact I]. eapply parts_length; eauto.
    + destruct (sequence_doc _ _ _ _ _ S D) as (js & -> & P). pose proof (sequence_holds _ _ _ _ S H) as Hs.
      apply denotes_pair. now apply (items_iff js Q _ _ Hs P).
    + destruct (sequence_doc _ _ _ _ _ S D) as (js & -> & P). pose proof (sequence_holds _ _ _ _ S H) as Hs.
      apply denotes_tuple. now apply (items_iff js Q _ _ Hs P).
    + destruct (fields_doc _ _ _ _ _ NM H F D) as (N & fs' & qs & -> & Sh & Or). apply (map_from fs fs' qs u ps); auto.
    + destruct (fields_doc _ _ _ _ _ NM H F D) as (N & fs' & qs & -> & Sh & Or). apply denotes_class.
      apply (members_iff qs Q fs' Sh). eapply members_perm; [|exact I]. intros n.
      destruct Or as [->|[P _]]; [reflexivity|]. now apply field_of_perm.
  - intros X. destruct X as [old|old b|k old z R|k old z R|names old s z E|old f|old f|old z|old z|old s|old s values data E
      |old s sep y m d hh mi ss sec E1 E2 E3 E4 E5|old s y m d n E1 E2 E3 E4|u old js vs F|u old js vs F|u old js vs F|o u old l vs F
      |a b old js vs F|ts old js vs F|c old l vs F|u old j v' F]; try discriminate.
    + destruct (doc_null_inv _ _ _ D Bt) as [-> ->]. constructor.
    + destruct (doc_bool_inv _ _ _ _ D Bt) as [-> ->]. constructor.
    + destruct (doc_int_inv _ _ _ _ D Bt) as (k' & I & ->). eapply becomes_int; [eassumption|reflexivity|assumption].
    + destruct (doc_int_inv _ _ _ _ D Bt) as (k' & I & ->). eapply becomes_int; [eassumption|reflexivity|assumption].
    + eapply becomes_text; eauto using doc_str_inv. now constructor.
    + destruct (doc_dbl_inv _ _ _ _ D Bt) as (fm & I & ->). eapply becomes_float; [eassumption|reflexivity].
    + destruct (doc_dbl_inv _ _ _ _ D Bt) as (fm & I & ->). eapply becomes_float; [eassumption|reflexivity].
    + destruct (doc_int_inv _ _ _ _ D Bt) as (k' & I & ->). eapply becomes_int_float; eauto.
    + destruct (doc_int_inv _ _ _ _ D Bt) as (k' & I & ->). eapply becomes_int_double; eauto.
    + eapply becomes_text; eauto using doc_str_inv. now constructor.
    + eapply becomes_text; eauto using doc_str_inv. eapply denotes_bytes; eauto.
    + eapply becomes_text; eauto using doc_str_inv. eapply denotes_time; eauto.
    + eapply becomes_text; eauto using doc_str_inv. eapply denotes_date; eauto.
    + destruct (doc_sequence _ _ _ _ D Bt) as (l & ts & -> & S). destruct (sequence_doc _ _ _ _ _ S D) as (js' & E & P). injection E as <-.
      eapply becomes_vector; [exact S|]. apply (items_iff js Q _ _ (sequence_holds _ _ _ _ S H) P).
      apply parts_repeat_iff; [eapply parts_length; eauto|exact F].
    + destruct (doc_sequence _ _ _ _ D Bt) as (l & ts & -> & S). destruct (sequence_doc _ _ _ _ _ S D) as (js' & E & P). injection E as <-.
      pose proof (parts_length _ _ _ _ P) as L. rewrite <- L. eapply becomes_array; [exact S|]. apply (items_iff js Q _ _ (sequence_holds _ _ _ _ S H) P).
      apply parts_repeat_iff; [exact L|exact F].
    + destruct (doc_sequence _ _ _ _ D Bt) as (l & ts & -> & S). destruct (sequence_doc _ _ _ _ _ S D) as (js' & E & P). injection E as <-.
      eapply becomes_set; [exact S|]. apply (items_iff js Q _ _ (sequence_holds _ _ _ _ S H) P).
      apply parts_repeat_iff; [eapply parts_length; eauto|exact F].
    + destruct (doc_fields _ _ _ _ D Bt) as (fs & Fs). destruct (fields_doc _ _ _ _ _ NM H Fs D) as (N & fs' & qs & E & Sh & Or). injection E as <-.
      eapply map_to; eauto.
    + destruct (doc_sequence _ _ _ _ D Bt) as (l & ts & -> & S). destruct (sequence_doc _ _ _ _ _ S D) as (js' & E & P). injection E as <-.
      eapply becomes_pair; [exact S|]. now apply (items_iff js Q _ _ (sequence_holds _ _ _ _ S H) P).
    + destruct (doc_sequence _ _ _ _ D Bt) as (l & ts0 & -> & S). destruct (sequence_doc _ _ _ _ _ S D) as (js' & E & P). injection E as <-.
      eapply becomes_tuple; [exact S|]. now apply (items_iff js Q _ _ (sequence_holds _ _ _ _ S H) P).
    + destruct (doc_fields _ _ _ _ D Bt) as (fs & Fs). destruct (fields_doc _ _ _ _ _ NM H Fs D) as (N & fs' & qs & E & Sh & Or). injection E as <-.
      eapply becomes_class; [exact Fs|]. apply (members_iff l Q fs' Sh) in F. eapply members_perm; [|exact F]. intros n.
      destruct Or as [->|[P _]]; [reflexivity|]. symmetry. now apply field_of_perm.
Qed.

Lemma to_unique : forall t v u old v', becomes e e' t v (TUnique u) old v' -> exists w, v' = VPtr w /\ becomes e e' t v u (vinit e' u) w.
Proof.
  induction t; intros v u old v' B; inversion B; subst; try discriminate; eauto.
  match goal with X : becomes _ _ _ _ (TUnique _) _ _ |- _ => apply IHt in X; destruct X as (w & -> & X) end. exists w. split; [reflexivity|]. now constructor.
Qed.

Lemma parts_step : forall j, parts_agree j -> agrees_on j.
Proof.
  intros j Q. assert (X : forall t', bare t' = true -> forall t v old v', holds e t v -> doc e t v j ->
    (becomes e e' t v t' old v' <-> denotes e' t' old j v')).
  { intros t' Bt'. induction t; intros v old v' H D; try (apply bare_iff; auto; reflexivity).
    inversion D; subst. inversion H; subst. rewrite <- IHt by eassumption. split; intros B; [|now constructor].
    inversion B; subst; try discriminate; try (match goal with S : sequence _ _ _ |- _ => inversion S end);
      try (match goal with S : fields _ _ _ _ |- _ => inversion S end). assumption. }
  intros t'. induction t'; try (apply X; reflexivity).
  intros t v old v' H D. split; intros B.
  - destruct (to_unique _ _ _ _ _ B) as (w & -> & B'). constructor. eapply IHt'; eauto.
  - inversion B; subst. constructor. eapply IHt'; eauto.
Qed.

Lemma all_agree : forall j, agrees_on j.
Proof. induction j using json_ind'; apply parts_step; cbn; auto. Qed.
End Evolve.

(** * Compatible changes *)

Section Compatible.
Variables e e' : env.
Hypothesis NM : named e.
Hypothesis PC : plain_classes e.
Hypothesis IT : iterates e.
Hypothesis TK : 0 < tick e.
Hypothesis CO : compatible e e'.

Lemma scalar_plain : forall t, scalar_type t = true -> plain t = true.
Proof. intros []; cbn; auto; discriminate. Qed.

(** The text of a text. *)
Lemma text_doc : forall t v, holds e t v -> In t [TString; TBytes; TTime; TDate] \/ (exists names, t = TEnumStr names) ->
  exists s, doc e t v (JStr s) /\ denotes e t VIndet (JStr s) v.
Proof.
  intros t v H T. assert (St : scalar_type t = true).
  { destruct T as [T|[names ->]]; [|reflexivity]. cbn in T. destruct T as [<-|[<-|[<-|[<-|[]]]]]; reflexivity. }
  destruct (proj1 (all_written e PC IT TK v) t (scalar_plain t St) H) as (j & D & _).
  assert (X : exists s, j = JStr s).
  { destruct T as [T|[names ->]]; [|inversion D; eauto]. cbn in T. destruct T as [<-|[<-|[<-|[<-|[]]]]]; inversion D; unfold string_of; eauto. }
  destruct X as (s & ->). exists s. split; [exact D|]. eapply all_read_back; eauto.
Qed.

Lemma same_text : forall t s v old, tick e = tick e' -> In t [TString; TBytes; TTime; TDate] -> denotes e t VIndet (JStr s) v -> denotes e' t old (JStr s) v.
Proof.
  intros t s v old E T D. cbn in T. destruct T as [<-|[<-|[<-|[<-|[]]]]]; inversion D; subst; rewrite ?E in *.
  - constructor.
  - econstructor; eauto.
  - econstructor; eauto.
  - econstructor; eauto.
Qed.

Definition readable (v : val) : Prop := forall t t', holds e t v -> wider t t' -> forall old, exists v', becomes e e' t v t' old v'.

Lemma items_readable : forall l, Forall readable l -> forall ts ts', Forall2 (holds e) ts l -> Forall2 wider ts ts' -> forall olds,
  exists l', items_become (becomes e e') ts l ts' olds l'.
Proof.
  intros l R. induction R as [|v l Rv R IH]; intros ts ts' H W olds; inversion H; subst; inversion W; subst; [exists []; constructor|].
  
  match goal with A : holds e _ _, B : wider _ _, C : Forall2 (holds e) _ _, D : Forall2 wider _ _ |- _ =>
    destruct (Rv _ _ A B (hd VIndet olds)) as (w & Bw); destruct (IH _ _ C D (tl olds)) as (ws & Bl) end. exists (w :: ws). now constructor.
Qed.

Lemma wider_repeat : forall u u' n, wider u u' -> Forall2 wider (repeat u n) (repeat u' n).
Proof. intros u u' n W. induction n; cbn; constructor; auto. Qed.

Lemma entries_readable : forall u u', wider u u' -> forall l, Forall (fun p => readable (snd p)) l -> Forall (fun p : string * val => holds e u (snd p)) l ->
  exists ps, Forall2 (fun f q => fst q = until_nul (fst f) /\ becomes e e' (fst (snd f)) (snd (snd f)) u' (dinit e' u') (snd q))
    (map (fun p => (fst p, (u, snd p))) l) ps.
Proof.
  intros u u' W l R. induction R as [|[k v] l Rv R IH]; intros H; inversion H as [|? ? H1 H2]; subst; [exists []; constructor|].
  destruct (IH H2) as (ps & F). destruct (Rv u u' H1 W (dinit e' u')) as (v' & B). exists ((until_nul k, v') :: ps). constructor; auto.
Qed.

Definition inside (v : val) : Prop := readable v /\ forall x, v = VSome x -> readable x.

Lemma member_field : forall ms vs, NoDup (map m_name ms) -> Forall inside vs -> Forall2 (member_holds (holds e)) ms vs -> forall n,
  match find (fun m => String.eqb (m_name m) n) ms with
  | Some m => match field_of (member_fields ms vs) n with
              | Some (t, x) => t = m_ty m /\ holds e t x /\ readable x
              | None => m_kind m = MOptional
              end
  | None => field_of (member_fields ms vs) n = None
  end.
Proof.
  intros ms vs N I H n. induction H as [|m v ms vs Hm H IH]; [reflexivity|]. inversion N as [|? ? N1 N2]; subst. inversion I as [|? ? I1 I2]; subst.
  specialize (IH N2 I2). cbn [find]. destruct (String.eqb_spec (m_name m) n) as [E|E].
  - assert (X : field_of (member_fields ms vs) n = None).
    { destruct (field_of (member_fields ms vs) n) as [x|] eqn:F; [|reflexivity]. elim N1. rewrite E. apply (member_fields_names ms vs).
      apply field_of_in in F. apply in_map_iff. now exists (n, x). }
    cbn [member_fields]. inversion Hm as [v0 K Hv|K|x K Hx]; subst.
    + destruct (m_kind m) eqn:K2; try congruence; cbn [field_of]; rewrite String.eqb_refl; (split; [reflexivity|]; split; [exact Hv|exact (proj1 I1)]).
    + rewrite K, X. reflexivity.
    + rewrite K. cbn [field_of]. rewrite String.eqb_refl. split; [reflexivity|]. split; [exact Hx|]. now apply I1.
  - replace (field_of (member_fields (m :: ms) (v :: vs)) n) with (field_of (member_fields ms vs) n); [exact IH|]. cbn [member_fields].
    apply String.eqb_neq in E. destruct (m_kind m); cbn [field_of]; rewrite ?E; auto. destruct v; cbn [field_of]; rewrite ?E; auto.
Qed.

Lemma members_readable : forall ms vs, NoDup (map m_name ms) -> Forall inside vs -> Forall2 (member_holds (holds e)) ms vs ->
  forall ms', Forall (compatible_member ms) ms' -> forall olds, exists vs', members_become (becomes e e') e' (member_fields ms vs) ms' olds vs'.
Proof.
  intros ms vs N I H ms' C. induction C as [|m' ms' Cm C IH]; intros olds; [exists []; constructor|]. destruct (IH (tl olds)) as (vs' & Bs).
  assert (X : exists v', member_becomes (becomes e e') e' (member_fields ms vs) m' (hd VIndet olds) v').
  { pose proof (member_field ms vs N I H (m_name m')) as F. unfold compatible_member in Cm.
    assert (A : field_of (member_fields ms vs) (m_name m') = None -> m_kind m' <> MRequired ->
      exists v', member_becomes (becomes e e') e' (member_fields ms vs) m' (hd VIndet olds) v').
    { intros E K. destruct (m_kind m') eqn:Km; [congruence|eexists; now apply mb_default|eexists; now apply mb_none]. }
    destruct (find _ ms) as [m|]; [|now apply A]. destruct Cm as [W K].
    destruct (field_of (member_fields ms vs) (m_name m')) as [[t x]|] eqn:E; [|apply A; auto].
    destruct F as (-> & Hx & Rx). destruct (m_kind m') eqn:Km.
    - destruct (Rx _ _ Hx W (hd VIndet olds)) as (y & B). exists y. eapply mb_plain; eauto. congruence.
    - destruct (Rx _ _ Hx W (hd VIndet olds)) as (y & B). exists y. eapply mb_plain; eauto. congruence.
    - destruct (Rx _ _ Hx W (dinit e' (m_ty m'))) as (y & B). exists (VSome y). eapply mb_some; eauto. }
  destruct X as (v' & B). exists (v' :: vs'). now constructor.
Qed.

Definition parts_readable (v : val) : Prop :=
  match v with
  | VList l => Forall readable l
  | VMap l => Forall (fun p => readable (snd p)) l
  | VObj l => Forall inside l
  | VPtr x => readable x
  | _ => True
  end.

Lemma list_readable : forall t l ts, Forall readable l -> holds e t (VList l) -> sequence l t ts -> forall u', (forall u, In u ts -> wider u u') ->
  exists l', items_become (becomes e e') ts l (repeat u' (List.length l)) (repeat (dinit e' u') (List.length l)) l'.
Proof.
  intros t l ts R H S u' W. pose proof (sequence_holds _ _ _ _ S H) as Hs. eapply items_readable; eauto. clear - Hs W.
  induction Hs; cbn; constructor; [apply W; now left|]. apply IHHs. intros u Iu. apply W. now right.
Qed.

Lemma held_integer : forall t k v, integer_type t = Some k -> holds e t v -> exists z, v = VInt z /\ in_range k z.
Proof. intros t k v K H. destruct t; try discriminate; injection K as ->; inversion H; subst; eauto. Qed.

Lemma held_float : forall t fm v, float_type t = Some fm -> holds e t v -> exists f, v = VFlt f.
Proof. intros t k v K H. destruct t; try discriminate; inversion H; subst; eauto. Qed.

Lemma elements : forall t u v, In t [TVector u; TSet u] -> holds e t v -> exists l, v = VList l /\ sequence l t (repeat u (List.length l)).
Proof.
  intros t u v I H. cbn in I. destruct I as [<-|[<-|[]]]; inversion H; subst; (eexists; split; [reflexivity|now constructor]).
Qed.

Lemma readable_step : forall v, parts_readable v -> readable v.
Proof.
  intros v P t t' H W. destruct CO as [TE CM].
  induction W as [| |t k t' k' Kt Kt' R|t k t' fm Kt Ft|t fm t' fm' Ft Ft'|t T|t T|names names' I|names|t u u' T W IH|t u u' T W IH
    |n u t' u' T W IH|a b t' a' b' T W1 IH1 W2 IH2|ts ts' F|o o' u u' W IH|c|t t' W IH|t t' W IH]; intros old.
  - inversion H; subst. eexists; constructor.
  - inversion H; subst. eexists; constructor.
  - destruct (held_integer _ _ _ Kt H) as (z & -> & Z). eexists. eapply becomes_int; eauto.
  - destruct (held_integer _ _ _ Kt H) as (z & -> & Z). destruct t'; try discriminate; eexists;
      [eapply becomes_int_float|eapply becomes_int_double]; eauto.
  - destruct (held_float _ _ _ Ft H) as (f & ->). eexists. eapply becomes_float; eauto.
  - destruct (text_doc t v H (or_introl T)) as (s & D & X). exists v. eapply becomes_text; eauto using same_text;
      cbn in T; destruct T as [<-|[<-|[<-|[<-|[]]]]]; reflexivity.
  - destruct (text_doc t v H (or_introl T)) as (s & D & X). exists (VStr s). eapply becomes_text; eauto; try constructor;
      cbn in T; destruct T as [<-|[<-|[<-|[<-|[]]]]]; reflexivity.
  - destruct (text_doc (TEnumStr names) v H) as (s & D & X); [right; eauto|].
    assert (Y : exists z', enum_from_string names' s = Some z').
    { destruct (enum_from_string names' s) as [z'|] eqn:E; [eauto|]. apply enum_from_string_none in E. elim E. apply I.
      inversion D as [| | | | | | | | | |? z ? J| | | | | | | |]; subst. apply in_map_iff. now exists (z, s). }
    destruct Y as (z' & E). exists (VInt z'). eapply becomes_text; eauto; try reflexivity. now constructor.
  - destruct (text_doc (TEnumStr names) v H) as (s & D & X); [right; eauto|]. exists (VStr s). eapply becomes_text; eauto; try reflexivity. constructor.
  - destruct (elements _ _ _ T H) as (l & -> & S). destruct (list_readable _ _ _ P H S u') as (l' & B).
    { intros x Ix. apply repeat_spec in Ix. now subst x. } eexists. eapply becomes_vector; eauto.
  - destruct (elements _ _ _ T H) as (l & -> & S). destruct (list_readable _ _ _ P H S u') as (l' & B).
    { intros x Ix. apply repeat_spec in Ix. now subst x. } eexists. eapply becomes_set; eauto.
  - inversion H; subst. destruct (list_readable _ _ _ P H (seq_array l u) u') as (l' & B).
    { intros x Ix. apply repeat_spec in Ix. now subst x. }
    cbn in T. destruct T as [<-|[<-|[<-|[]]]]; eexists; [eapply becomes_vector|eapply becomes_set|eapply becomes_array]; eauto; constructor.
  - inversion H; subst. destruct (items_readable _ P [a; b] [a'; b']) with (olds := components old) as (l' & B); auto.
    cbn in T. destruct T as [<-|[<-|[]]]; eexists; [eapply becomes_pair|eapply becomes_tuple]; eauto; constructor.
  - inversion H; subst. destruct (items_readable _ P ts ts') with (olds := components old) as (l' & B); auto. eexists. eapply becomes_tuple; eauto. constructor.
  - inversion H; subst. destruct (entries_readable u u' W l P) as (ps & F); [eapply Forall_impl; [|eassumption]; cbn; tauto|].
    eexists. eapply becomes_map; eauto. constructor.
  - inversion H; subst. destruct (members_readable _ l (NM c) P ltac:(assumption) _ (CM c) (components old)) as (vs & B).
    eexists. eapply becomes_class; eauto. constructor.
  - inversion H; subst. edestruct P as (v' & B); eauto. exists v'. constructor. exact B.
  - destruct (IH H (vinit e' t')) as (v' & B). exists (VPtr v'). now constructor.
Qed.

Lemma all_inside : forall v, inside v.
Proof.
  induction v as [| |b|z|f|s|b|z|z|l IH|l IH|i v IH|l IH| |v IH| |v IH|a v IH] using val_ind';
    (split; [apply readable_step; cbn; auto|intros x E; first [discriminate E|injection E as <-; exact (proj1 IH)]]).
  - eapply Forall_impl; [|exact IH]. now intros x [? _].
  - eapply Forall_impl; [|exact IH]. now intros x [? _].
  - exact (proj1 IH).
Qed.
End Compatible.

(** * Results *)

Lemma evolves : forall e e' t t' v, ordinary e -> ordinary e' -> named e -> iterates e -> plain t = true -> ordinary_type t' -> holds e t v ->
  exists j, serialize_to_document e t v = SOk [] j /\
    forall w, deserialize_throw e' t' j = Returned w <-> becomes e e' t v t' (dinit e' t') w.
Proof.
  intros e e' t t' v O O' NM IT P OT H. destruct (document_of e t v O IT P H) as (j & D & S). exists j. split; [exact S|]. intros w.
  rewrite (all_agree e e' NM (proj2 (proj2 O)) j t' t v (dinit e' t') w H D). now apply accepts_exactly.
Qed.

Lemma compatible_reads : forall e e' t t' v, ordinary e -> ordinary e' -> named e -> iterates e -> compatible e e' -> plain t = true -> ordinary_type t' ->
  wider t t' -> holds e t v ->
  exists j w, serialize_to_document e t v = SOk [] j /\ deserialize_throw e' t' j = Returned w.
Proof.
  intros e e' t t' v O O' NM IT CO P OT W H. destruct (evolves e e' t t' v O O' NM IT P OT H) as (j & S & X).
  destruct O as (PC & _ & TK). destruct (proj1 (all_inside e e' NM PC IT TK CO v) t t' H W (dinit e' t')) as (w & B).
  exists j, w. split; [exact S|]. now apply X.
Qed.

Lemma members_all : forall R e' fs ms olds vs, members_become R e' fs ms olds vs -> forall m, In m ms -> exists old v, member_becomes R e' fs m old v.
Proof. intros R e' fs ms olds vs B. induction B; intros x I; [destruct I|]. destruct I as [<-|I]; eauto. Qed.

Lemma required_missing : forall e e' t v fs c old w m, bare t = true -> fields e t v fs -> In m (c_members (class_of e' c)) -> m_kind m = MRequired ->
  field_of fs (m_name m) = None -> ~ becomes e e' t v (TClass c) old w.
Proof.
  intros e e' t v fs c old w m B F I K N X. inversion X; subst; try discriminate.
  assert (fs0 = fs) as -> by (match goal with G : fields e t v fs0 |- _ => inversion G; subst; inversion F; reflexivity end).
  destruct (members_all _ _ _ _ _ _ ltac:(eassumption) m I) as (o & y & M). inversion M; subst; congruence.
Qed.

Lemma evolves_parser : forall e e' fuel t t' v, ordinary e -> named e -> iterates e -> legible e -> plain t = true -> holds e t v -> (depth v <= 84)%nat ->
  supported e' fuel -> fresh_classes e' -> parser_classes e' -> ordinary_type t' -> parser_type t' = true ->
  exists j, serialize_to_document e t v = SOk [] j /\ forall w,
    (known e' t' j -> exact e' t' j -> becomes e e' t v t' (dinit e' t') w -> parse e' fuel real_capacity t' j = PReturned w) /\
    (complete e' t' j -> parse e' fuel real_capacity t' j = PReturned w -> becomes e e' t v t' (dinit e' t') w).
Proof.
  intros e e' fuel t t' v O NM IT LG P H N S F PC OT PT. destruct (document_of e t v O IT P H) as (j & D & W). exists j. split; [exact W|]. intros w.
  pose proof (all_agree e e' NM (proj2 (proj2 O)) j t' t v (dinit e' t') w H D) as A.
  assert (CL : clean j) by (eapply all_clean; eauto). rewrite A, <- (accepts_exactly e' t' (proj1 S) OT). split.
  - intros K X R. eapply agree_backward; eauto; [now apply type_parseable|]. destruct (all_nested e v) as [Y _]. now rewrite (Y _ _ D).
  - intros C R. eapply agree_forward; eauto.
Qed.
