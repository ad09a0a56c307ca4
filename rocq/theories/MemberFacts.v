(** Members of classes: flags, missing members, old content, back-references. *)
From Coq Require Import List Arith ZArith NArith Ascii String Bool Lia Permutation.
From Verif Require Import Base Float NumericModel NumericSpec Base64Model DatetimeModel EnumModel RefsModel Json PathModel Types SerializeModel
  DeserializeModel DenoteSpec DenoteProof SameSpec SameProof DenoteFacts.
Import ListNotations.

(** Where a value is read does not matter. *)
Lemma anywhere : forall e t, unshared_classes e -> unshared t = true -> forall j exc root root' old ctx ctx' loc loc' st st',
  (exc = true -> ctx = ctx') ->
  deser e root j exc t old ctx loc st = set_state st (deser e root' j exc t old ctx' loc' st').
Proof.
  intros e t P U j exc root root' old ctx ctx' loc loc' st st' C.
  apply (all_indifferent e P j t j U (superfluous_same e t j) exc root root'). exact C.
Qed.

(** What stops the members is not an ordinary result. *)
Lemma members_stop : forall e exc fs ms r seen flag olds ctx loc st b vs x st',
  read_members e exc fs ms r seen flag olds ctx loc st = (b, vs, Some x, st') -> forall ok s v, x <> DRet ok s v.
Proof.
  intros e exc fs ms. induction ms as [|m ms IH]; intros r seen flag olds ctx loc st b vs x st' E; [discriminate|].
  cbn [read_members] in E. destruct (read_member e exc fs m flag (hd VIndet olds) ctx loc st) as [ok s v| | |];
    try (injection E as _ _ <- _; discriminate).
  destruct r as [|r].
  - destruct (read_members e exc fs ms 0 seen ok (tl olds) ctx loc s) as [[[b1 l1] [x1|]] s1] eqn:E1; [|discriminate].
    injection E as _ _ -> _. eapply IH; exact E1.
  - destruct (read_members e exc fs ms r ok ok (tl olds) ctx loc s) as [[[b1 l1] [x1|]] s1] eqn:E1; [|discriminate].
    injection E as _ _ -> _. eapply IH; exact E1.
Qed.

(** C22: the flag is the one of the last member. *)
Lemma members_last : forall e exc fs ms m r olds ctx loc st seen flag b vs st', List.length (ms ++ [m]) <= r ->
  read_members e exc fs (ms ++ [m]) r seen flag olds ctx loc st = (b, vs, None, st') ->
  exists flag' st1 v, read_member e exc fs m flag' (nth (List.length ms) olds VIndet) ctx loc st1 = DRet b st' v.
Proof.
  intros e exc fs ms. induction ms as [|m0 ms IH]; intros m r olds ctx loc st seen flag b vs st' L E; cbn [app read_members] in E.
  - cbn in L. destruct r as [|r]; [lia|]. exists flag, st.
    replace (nth (List.length (@nil member)) olds VIndet) with (hd VIndet olds) by (destruct olds; reflexivity).
    destruct (read_member e exc fs m flag (hd VIndet olds) ctx loc st) as [ok s v| | |]; try discriminate.
    injection E as -> _ ->. eauto.
  - cbn in L. destruct r as [|r]; [lia|].
    destruct (read_member e exc fs m0 flag (hd VIndet olds) ctx loc st) as [ok s v| | |]; try discriminate.
    destruct (read_members e exc fs (ms ++ [m]) r ok ok (tl olds) ctx loc s) as [[[b1 l1] [r1|]] s1] eqn:E1; [discriminate|].
    injection E as -> _ ->. apply IH in E1; [|lia].
    replace (nth (List.length (m0 :: ms)) olds VIndet) with (nth (List.length ms) (tl olds) VIndet); [exact E1|].
    destruct olds; [destruct (List.length ms); reflexivity|reflexivity].
Qed.

Lemma last_decides : forall e c ms m, unshared_classes e -> c_members (class_of e c) = ms ++ [m] ->
  List.length (ms ++ [m]) <= c_root (class_of e c) ->
  forall l j, find_member l (m_name m) = Some j -> forall olds b st vs,
  deserialize e (TClass c) (JObj l) (VObj olds) = DRet b st (VObj vs) ->
  exists w, deserialize e (m_ty m) j (match m_kind m with MOptional => dinit e (m_ty m) | _ => nth (List.length ms) olds VIndet end)
            = DRet b start w.
Proof.
  intros e c ms m U M L l j F olds b st vs E. unfold deserialize in E. rewrite deser_unfold in E. cbn [deser_step] in E.
  rewrite M in E. unfold finish_object in E.
  destruct (read_members _ _ _ _ _ _ _ _ _ _ _) as [[[b1 l1] [r1|]] s1] eqn:E1.
  { exfalso. exact (members_stop _ _ _ _ _ _ _ _ _ _ _ _ _ _ _ E1 _ _ _ E). }
  injection E as <- <- <-. apply members_last in E1; [|exact L]. destruct E1 as (flag & st1 & v & E1). unfold read_member in E1.
  rewrite find_fun_map, F in E1. destruct (find_index l (m_name m)) as [k|] eqn:K; [|apply find_both in K; congruence].
  assert (Um : unshared (m_ty m) = true).
  { specialize (U c). rewrite forallb_forall in U. apply U. rewrite M. apply in_or_app. right. now left. }
  assert (G : forall old ok s w, deser e (JObj l) j false (m_ty m) old (at_name [] (m_name m)) ([] ++ [k]) st1 = DRet ok s w ->
    exists w, deserialize e (m_ty m) j old = DRet ok start w).
  { intros old ok s w G. unfold deserialize.
    rewrite (anywhere e (m_ty m) U Um j false j (JObj l) old [] (at_name [] (m_name m)) [] ([] ++ [k]) start st1) by discriminate.
    rewrite G. cbn. eauto. }
  destruct (m_kind m); try (eapply G; exact E1).
  destruct (deser e (JObj l) j false (m_ty m) (dinit e (m_ty m)) (at_name [] (m_name m)) ([] ++ [k]) st1) as [ok s w| | |] eqn:D;
    try discriminate. injection E1 as <- <- <-. eapply G. exact D.
Qed.

(** C35: once the base part has been read, the flag is not touched any more. *)
Lemma members_derived : forall e exc fs ms seen flag olds ctx loc st b vs st',
  read_members e exc fs ms 0 seen flag olds ctx loc st = (b, vs, None, st') -> b = seen.
Proof.
  intros e exc fs ms. induction ms as [|m ms IH]; intros seen flag olds ctx loc st b vs st' E; [now injection E|].
  cbn [read_members] in E. destruct (read_member e exc fs m flag (hd VIndet olds) ctx loc st) as [ok s v| | |]; try discriminate.
  destruct (read_members e exc fs ms 0 seen ok (tl olds) ctx loc s) as [[[b1 l1] [x1|]] s1] eqn:E1; [discriminate|].
  injection E as -> _ _. eapply IH; exact E1.
Qed.

Lemma base_decides_parts : forall e exc fs ms r seen flag olds ctx loc st,
  match read_members e exc fs (firstn r ms) r seen flag olds ctx loc st with
  | (b, vs, None, _) =>
    match read_members e exc fs ms r seen flag olds ctx loc st with
    | (b', vs', None, _) => b' = b /\ firstn (List.length vs) vs' = vs
    | (_, _, Some x, _) => forall ok s v, x <> DRet ok s v
    end
  | (_, _, Some x, _) => exists b' vs' s, read_members e exc fs ms r seen flag olds ctx loc st = (b', vs', Some x, s)
  end.
Proof.
  intros e exc fs ms. induction ms as [|m ms IH]; intros r seen flag olds ctx loc st.
  - rewrite firstn_nil. cbn. auto.
  - destruct r as [|r].
    + cbn [firstn]. destruct (read_members e exc fs (m :: ms) 0 seen flag olds ctx loc st) as [[[b vs] [x|]] s] eqn:E; cbn.
      * eapply members_stop. exact E.
      * split; [|reflexivity]. now apply members_derived in E.
    + cbn [firstn read_members]. destruct (read_member e exc fs m flag (hd VIndet olds) ctx loc st) as [ok s v| | |]; eauto.
      specialize (IH r ok ok (tl olds) ctx loc s).
      destruct (read_members e exc fs (firstn r ms) r ok ok (tl olds) ctx loc s) as [[[b1 l1] [x1|]] s1].
      * destruct IH as (b' & vs' & s' & ->). eauto.
      * destruct (read_members e exc fs ms r ok ok (tl olds) ctx loc s) as [[[b2 l2] [x2|]] s2]; [exact IH|].
        destruct IH as [-> IH]. split; [reflexivity|]. cbn. now rewrite IH.
Qed.

Lemma derived_not_checked : forall e c l olds vs, ordinary e ->
  members_denote (denotes e) e l (firstn (c_root (class_of e c)) (c_members (class_of e c))) olds vs ->
  deserialize e (TClass c) (JObj l) (VObj olds) = DUndef \/
  exists st vs', deserialize e (TClass c) (JObj l) (VObj olds) = DRet true st (VObj vs') /\ firstn (List.length vs) vs' = vs.
Proof.
  intros e c l olds vs (P & R & T) D. unfold deserialize. rewrite deser_unfold. cbn [deser_step parts_of].
  set (r := c_root (class_of e c)) in *. set (ms := c_members (class_of e c)) in *.
  pose proof (base_decides_parts e false (map (fun p => (fst p, deser e (JObj l) (snd p))) l) ms r true true olds [] [] start) as B.
  assert (F : Forall (fun p => fine e (JObj l) (snd p)) l).
  { apply Forall_forall. intros p _. now apply fine_always. }
  assert (Sub : forall f : member -> bool, forallb f ms = true -> forallb f (firstn r ms) = true).
  { intros f H. rewrite forallb_forall in *. intros m I. apply H. rewrite <- (firstn_skipn r ms). apply in_or_app. now left. }
  rewrite (members_complete e (JObj l) false l (firstn r ms) F (Sub _ (P c)) (Sub _ (R c)) P olds vs D r [] [] start) in B.
  assert (D' : deser e (JObj l) (JObj l) false (TClass c) (VObj olds) [] [] start =
    finish_object (read_members e false (map (fun p => (fst p, deser e (JObj l) (snd p))) l) ms r true true olds [] [] start))
    by (now rewrite deser_unfold).
  destruct (read_members e false _ ms r true true olds [] [] start) as [[[b vs'] [x|]] s] eqn:E; cbn in *.
  - destruct x as [ok s' v|why p| |]; auto.
    + now elim (B ok s' v).
    + exfalso. exact (no_throw e (JObj l) (JObj l) (TClass c) (VObj olds) [] [] start _ _ D').
    + exfalso. exact (never_outside e (JObj l) (JObj l) false (TClass c) (VObj olds) [] [] start (plain_unshared_classes e P) eq_refl D').
  - destruct B as [-> B]. right. eauto.
Qed.

(** C30: missing members. *)
Lemma find_fun_none : forall A (F : json -> A) l name, find_member l name = None ->
  find_fun (map (fun p => (fst p, F (snd p))) l) 0 name = None.
Proof. intros A F l name H. now rewrite find_fun_map, H. Qed.

Lemma missing_required : forall e c ms1 m ms2 l olds vs root ctx loc st, ordinary e ->
  c_members (class_of e c) = ms1 ++ m :: ms2 -> m_kind m = MRequired -> find_member l (m_name m) = None ->
  members_denote (denotes e) e l ms1 olds vs ->
  deser e root (JObj l) true (TClass c) (VObj olds) ctx loc st = DThrow (MissingProperty (m_name m)) ctx.
Proof.
  intros e c ms1 m ms2 l olds vs root ctx loc st (P & R & T) M K F D. rewrite deser_unfold. cbn [deser_step parts_of]. rewrite M.
  assert (Fi : Forall (fun p => fine e root (snd p)) l).
  { apply Forall_forall. intros p _. now apply fine_always. }
  pose proof (P c) as Pc. pose proof (R c) as Rc. rewrite M, forallb_app in Pc, Rc. apply andb_true_iff in Pc, Rc.
  destruct Pc as [Pc _], Rc as [Rc _]. generalize (c_root (class_of e c)). intros r. clear M.
  assert (G : exists b vs' st', read_members e true (map (fun p => (fst p, deser e root (snd p))) l) (ms1 ++ m :: ms2) r true true olds ctx loc st
    = (b, vs', Some (DThrow (MissingProperty (m_name m)) ctx), st')).
  { revert r olds vs D Pc Rc. induction ms1 as [|m0 ms1 IH]; intros r olds vs D Pc Rc; cbn [app read_members].
    - unfold read_member. rewrite find_fun_none by exact F. rewrite K. eauto.
    - inversion D as [|m' ms' olds' v vs' Dm Ds]; subst. cbn in Pc, Rc. apply andb_true_iff in Pc, Rc.
      destruct Pc as [Pm Ps], Rc as [Rm Rs].
      rewrite (member_complete e root true l m0 _ v ctx loc st Fi Pm Rm P Dm).
      destruct r; edestruct IH as (b & w & s & ->); eauto. }
  destruct G as (b & w & s & ->). reflexivity.
Qed.

(** A missing member is never accepted silently by the throwing deserializer. *)
Lemma members_missing_throw : forall e fs ms m, In m ms -> m_kind m = MRequired -> find_fun fs 0 (m_name m) = None ->
  forall r seen flag olds ctx loc st b vs st', read_members e true fs ms r seen flag olds ctx loc st <> (b, vs, None, st').
Proof.
  intros e fs ms m I K F. induction ms as [|m0 ms IH]; [contradiction|]. intros r seen flag olds ctx loc st b vs st' E.
  cbn [read_members] in E. destruct I as [->|I].
  - unfold read_member in E. rewrite F, K in E. discriminate.
  - destruct (read_member e true fs m0 flag (hd VIndet olds) ctx loc st) as [ok s v| | |]; try discriminate.
    destruct r as [|r].
    + destruct (read_members e true fs ms 0 seen ok (tl olds) ctx loc s) as [[[b1 l1] [x1|]] s1] eqn:E1; [discriminate|]. eapply IH; eauto.
    + destruct (read_members e true fs ms r ok ok (tl olds) ctx loc s) as [[[b1 l1] [x1|]] s1] eqn:E1; [discriminate|]. eapply IH; eauto.
Qed.

Lemma required_needed : forall e c m l v, In m (c_members (class_of e c)) -> m_kind m = MRequired -> find_member l (m_name m) = None ->
  deserialize_throw e (TClass c) (JObj l) <> Returned v.
Proof.
  intros e c m l v I K F E. unfold deserialize_throw in E. rewrite deser_unfold in E. cbn [deser_step] in E.
  destruct (read_members e true _ (c_members (class_of e c)) (c_root (class_of e c)) true true _ [] [] start) as [[[b vs] [x|]] s] eqn:E1; cbn in E.
  - pose proof (members_stop _ _ _ _ _ _ _ _ _ _ _ _ _ _ _ E1) as N. destruct x; try discriminate. now elim (N ok st v0).
  - revert E1. apply members_missing_throw with (m := m); auto. now apply find_fun_none.
Qed.

(** Members that are not in the document. *)
Lemma members_absent : forall e exc fs ms r seen flag olds ctx loc st b vs st' i m,
  read_members e exc fs ms r seen flag olds ctx loc st = (b, vs, None, st') ->
  nth_error ms i = Some m -> find_fun fs 0 (m_name m) = None ->
  nth_error vs i = Some (match m_kind m with MOptional => VNone | _ => nth i olds VIndet end).
Proof.
  intros e exc fs ms. induction ms as [|m0 ms IH]; intros r seen flag olds ctx loc st b vs st' i m E I F; [destruct i; discriminate|].
  cbn [read_members] in E.
  destruct (read_member e exc fs m0 flag (hd VIndet olds) ctx loc st) as [ok s v| | |] eqn:Em; try discriminate.
  assert (X : exists r' seen' l1 s1 b1, read_members e exc fs ms r' seen' ok (tl olds) ctx loc s = (b1, l1, None, s1) /\ vs = v :: l1).
  { destruct r as [|r].
    - destruct (read_members e exc fs ms 0 seen ok (tl olds) ctx loc s) as [[[b1 l1] [x1|]] s1] eqn:E1; [discriminate|].
      injection E as _ <- _. do 5 eexists. split; [exact E1|reflexivity].
    - destruct (read_members e exc fs ms r ok ok (tl olds) ctx loc s) as [[[b1 l1] [x1|]] s1] eqn:E1; [discriminate|].
      injection E as _ <- _. do 5 eexists. split; [exact E1|reflexivity]. }
  destruct X as (r' & seen' & l1 & s1 & b1 & E1 & ->). destruct i as [|i].
  - injection I as <-. cbn. f_equal. unfold read_member in Em. rewrite F in Em.
    replace (nth 0 olds VIndet) with (hd VIndet olds) by (destruct olds; reflexivity).
    destruct (m_kind m0); [|injection Em as _ _ <-; reflexivity|injection Em as _ _ <-; reflexivity].
    destruct exc; [discriminate|]. now injection Em.
  - cbn in I |- *. rewrite (IH _ _ _ _ _ _ _ _ _ _ i m E1 I F). do 2 f_equal.
    destruct (m_kind m); try reflexivity; (destruct olds; [destruct i; reflexivity|reflexivity]).
Qed.

Lemma absent_kept : forall e c l obj b st vs i m,
  deserialize e (TClass c) (JObj l) obj = DRet b st (VObj vs) ->
  nth_error (c_members (class_of e c)) i = Some m -> find_member l (m_name m) = None ->
  nth_error vs i = Some (match m_kind m with MOptional => VNone | _ => nth i (components obj) VIndet end).
Proof.
  intros e c l obj b st vs i m E I F. unfold deserialize in E. rewrite deser_unfold in E. cbn [deser_step] in E.
  destruct (read_members e false _ _ _ _ _ _ _ _ _) as [[[b1 l1] [x|]] s] eqn:E1; cbn in E.
  - exfalso. exact (members_stop _ _ _ _ _ _ _ _ _ _ _ _ _ _ _ E1 _ _ _ E).
  - injection E as <- <- <-. eapply members_absent; eauto. now apply find_fun_none.
Qed.

Lemma absent_default : forall e c l vs i m,
  deserialize_throw e (TClass c) (JObj l) = Returned (VObj vs) ->
  nth_error (c_members (class_of e c)) i = Some m -> find_member l (m_name m) = None ->
  m_kind m <> MRequired /\
  nth_error vs i = Some (match m_kind m with MOptional => VNone | _ => nth i (c_default (class_of e c)) VIndet end).
Proof.
  intros e c l vs i m E I F. split.
  { intros K. exact (required_needed e c m l _ (nth_error_In _ _ I) K F E). }
  unfold deserialize_throw in E. rewrite deser_unfold in E. cbn [deser_step] in E.
  destruct (read_members e true _ _ _ _ _ _ _ _ _) as [[[b1 l1] [x|]] s] eqn:E1; cbn in E.
  - exfalso. pose proof (members_stop _ _ _ _ _ _ _ _ _ _ _ _ _ _ _ E1) as N. destruct x; try discriminate. now elim (N ok st v).
  - injection E as <-. change (c_default (class_of e c)) with (parts_of (dinit e (TClass c))).
    eapply members_absent; eauto. now apply find_fun_none.
Qed.

(** C33: old content is of no consequence. *)
Lemma settled_any : forall e j t old v, denotes e t old j v -> settled e t j -> forall old', denotes e t old' j v.
Proof.
  intros e. induction j as [|b|z|f|s|l IH|l IH] using json_ind'; intros t old v D S old';
    try (inversion D; subst; econstructor; eauto; fail).
  - assert (G : forall ts js, Forall (fun j => forall t old v, denotes e t old j v -> settled e t j -> forall old', denotes e t old' j v) js ->
      Forall2 (settled e) ts js -> forall olds vs, parts_denote (denotes e) ts olds js vs -> forall olds', parts_denote (denotes e) ts olds' js vs).
    { clear. intros ts js F S. induction S as [|t j ts js Sj Ss IHS]; intros olds vs D olds'; inversion D; subst; constructor.
      - inversion F; subst. eauto.
      - inversion F; subst. eauto. }
    inversion D; subst; try (econstructor; eauto; fail).
    + constructor. eapply G; eauto. inversion S; subst; [discriminate|assumption].
    + constructor. eapply G; eauto. inversion S; subst; [discriminate|assumption].
  - inversion D; subst; try (econstructor; eauto; fail). constructor.
    inversion S as [| | |c' l' S1 S2]; subst; [discriminate|].
    clear D S. revert S1 S2 H2. generalize (components old') (components old). generalize (c_members (class_of e c)).
    intros ms. revert vs. induction ms as [|m ms IHm]; intros vs olds' olds S1 S2 M; inversion M as [|m' ms' o v' vs' Dm Ds]; subst; constructor.
    + inversion Dm; subst.
      * eapply member_plain; eauto. rewrite Forall_forall in IH. apply find_member_In in H0 as I. eapply (IH _ I); eauto.
        cbn. apply (S2 m); auto. now left.
      * exfalso. apply (S1 m); auto. now left.
      * eapply member_some; eauto.
      * now apply member_none.
    + eapply IHm; eauto; intros; [eapply S1|eapply S2]; eauto; now right.
Qed.
