(** The writer and the serializer agree. *)
From Coq Require Import List Arith ZArith NArith Ascii String Bool Lia.
From Verif Require Import Base Float Base64Model DatetimeModel EnumModel RefsModel Json PathModel Types
  SerializeModel Events WriteModel WriteSpec NeverProof.
Import ListNotations.

(** What the outcome of a writer says about the outcome of the serializer. *)
Definition agrees {A} (ev : A -> list event) (w : wres) (s : sres A) : Prop :=
  match w with
  | WRet true tab evs => exists a, s = SOk tab a /\ evs = ev a
  | WRet false _ _ => True
  | WUndef => s = SUndef
  end.

Definition fagrees (w : wfun) (s : sfun json) : Prop :=
  forall ctx tab, agrees events (w ctx tab) (s ctx tab).

Lemma agrees_scalar : forall e t v tab, agrees events (wr_scalar e t v tab) (ser_scalar e t v tab).
Proof.
  intros e t v tab.
  assert (T : forall o, agrees events (text_event tab o) (of_text tab o)).
  { intros [s|]; cbn; [eexists; split; reflexivity|reflexivity]. }
  destruct t, v; cbn [wr_scalar ser_scalar]; try reflexivity; try (eexists; split; reflexivity);
    try apply T.
  - destruct (is_finite f); cbn; [eexists; split; reflexivity|exact I].
  - destruct (is_finite f); cbn; [eexists; split; reflexivity|exact I].
  - destruct (in_int64 (day_ticks e days)); [apply T|reflexivity].
Qed.

Definition pair_events (p : string * json) : list event := EKey (fst p) :: events (snd p).

Lemma agrees_seq : forall at_ ws ss, Forall2 fagrees ws ss -> forall k tab,
  agrees (flat_map events) (wr_seq at_ k ws tab) (ser_seq at_ k ss tab).
Proof.
  intros at_ ws ss H. induction H as [|w s ws ss H Hs IH]; intros k tab; cbn.
  - eexists; split; reflexivity.
  - specialize (H (at_ k) tab). destruct (w (at_ k) tab) as [[|] tab' evs|]; cbn in *.
    + destruct H as (a & -> & ->). cbn. specialize (IH (k + 1)%N tab').
      destruct (wr_seq at_ (k + 1) ws tab') as [[|] tab2 evs2|]; cbn in *.
      * destruct IH as (l & -> & ->). cbn. eexists; split; reflexivity.
      * exact I.
      * now rewrite IH.
    + exact I.
    + now rewrite H.
Qed.

Lemma agrees_array : forall at_ ws ss, Forall2 fagrees ws ss -> forall tab,
  agrees events (wr_array at_ ws tab) (smap JArr (ser_seq at_ 0 ss tab)).
Proof.
  intros at_ ws ss H tab. unfold wr_array. cbn [emit wthen].
  pose proof (agrees_seq at_ ws ss H 0%N tab) as A.
  destruct (wr_seq at_ 0 ws tab) as [[|] tab2 evs2|]; cbn in *.
  - destruct A as (l & -> & ->). cbn. eexists; split; reflexivity.
  - exact I.
  - now rewrite A.
Qed.

Lemma agrees_entries : forall ctx ws ss,
  Forall2 (fun w s => fst w = fst s /\ fagrees (snd w) (snd s)) ws ss -> forall tab,
  agrees (flat_map pair_events) (wr_entries ctx ws tab) (ser_entries ctx ss tab).
Proof.
  intros ctx ws ss H. induction H as [|[k w] [k' s] ws ss [E H] Hs IH]; intros tab; cbn.
  - eexists; split; reflexivity.
  - cbn in E, H. subst k'. specialize (H (name_segment (list_ascii_of_string k) :: ctx) tab).
    destruct (w (name_segment (list_ascii_of_string k) :: ctx) tab) as [[|] tab' evs|]; cbn in *.
    + destruct H as (a & -> & ->). cbn. specialize (IH tab').
      destruct (wr_entries ctx ws tab') as [[|] tab2 evs2|]; cbn in *.
      * destruct IH as (l & -> & ->). cbn. eexists; split; reflexivity.
      * exact I.
      * now rewrite IH.
    + exact I.
    + now rewrite H.
Qed.

Lemma agrees_map : forall ctx ws ss,
  Forall2 (fun w s => fst w = fst s /\ fagrees (snd w) (snd s)) ws ss -> forall tab,
  agrees events (wr_map ctx ws tab) (smap JObj (ser_entries ctx ss tab)).
Proof.
  intros ctx ws ss H tab. unfold wr_map. cbn [emit wthen].
  pose proof (agrees_entries ctx ws ss H tab) as A.
  destruct (wr_entries ctx ws tab) as [[|] tab2 evs2|]; cbn in *.
  - destruct A as (l & -> & ->). cbn. eexists; split; reflexivity.
  - exact I.
  - now rewrite A.
Qed.

Inductive magrees : wmfun -> mfun json -> Prop :=
| magrees_plain w s : (forall t, fagrees (w t) (s t)) -> magrees (WPlain w) (MPlain s)
| magrees_absent : magrees WAbsent MAbsent
| magrees_present w s : (forall t, fagrees (w t) (s t)) -> magrees (WPresent w) (MPresent s).

Lemma agrees_to_write : forall m w s, magrees w s ->
  match wr_to_write m w, to_write m s with
  | None, None => True
  | Some None, Some None => True
  | Some (Some f), Some (Some g) => fagrees f g
  | _, _ => False
  end.
Proof.
  intros m w s H. unfold wr_to_write, to_write. destruct H; destruct (m_kind m); auto.
Qed.

(** Once the flag of the archive is false nothing is written; only a value that is not of
    the type is undefined. *)
Lemma wr_members_false : forall ctx ms ws ss, Forall2 magrees ws ss -> forall root tab,
  match wr_members ctx root false false ms ws tab with
  | WRet ok _ _ => ok = false
  | WUndef => forall tab, ser_members ctx ms ss tab = SUndef
  end.
Proof.
  intros ctx ms. induction ms as [|m ms IH]; intros ws ss H root tab.
  - destruct H; cbn; intros; reflexivity.
  - destruct H as [|w s ws ss H Hs]; [cbn; intros; reflexivity|]. cbn [wr_members ser_members].
    pose proof (agrees_to_write m w s H) as A.
    assert (N : forall root tab,
      match wr_members ctx root false false ms ws tab with
      | WRet ok _ _ => ok = false
      | WUndef => forall tab, ser_members ctx ms ss tab = SUndef
      end) by (intros; apply IH; assumption).
    destruct (wr_to_write m w) as [[f|]|]; destruct (to_write m s) as [[g|]|]; try contradiction.
    + assert (M : match (match root with
                         | 0 => wr_members ctx 0 false false ms ws tab
                         | S r => wr_members ctx r false false ms ws tab
                         end) with
                  | WRet ok _ _ => ok = false
                  | WUndef => forall tab, ser_members ctx ms ss tab = SUndef
                  end) by (destruct root; apply N).
      revert M. destruct (match root with 0 => _ | S r => _ end) as [ok tab' evs|]; intros M; [exact M|].
      intros tab'. destruct (g _ tab'); rewrite ?M; reflexivity.
    + destruct root; apply N.
    + intros; reflexivity.
Qed.

Lemma agrees_members : forall ctx ms ws ss, Forall2 magrees ws ss -> forall root tab,
  List.length ms <= root \/ Forall mnever_false ws ->
  agrees (flat_map pair_events) (wr_members ctx root true true ms ws tab) (ser_members ctx ms ss tab).
Proof.
  intros ctx ms. induction ms as [|m ms IH]; intros ws ss H root tab L.
  - destruct H; cbn; [eexists; split; reflexivity|reflexivity].
  - destruct H as [|w s ws ss H Hs]; [reflexivity|]. cbn [wr_members ser_members].
    pose proof (agrees_to_write m w s H) as A.
    assert (L' : List.length ms <= pred root \/ Forall mnever_false ws).
    { destruct L as [L|L]; [left; cbn in L; lia|right; now inversion L]. }
    assert (W : forall f, wr_to_write m w = Some (Some f) -> 1 <= root \/ never_false f).
    { intros f X. destruct L as [L|L]; [left; cbn in L; lia|right]. inversion L as [|? ? Lw _]; subst.
      unfold wr_to_write in X. destruct (m_kind m), w; try discriminate; injection X as <-; apply Lw. }
    assert (N : forall tab, agrees (flat_map pair_events)
      (match root with O => wr_members ctx O true true ms ws tab | S r => wr_members ctx r true true ms ws tab end)
      (ser_members ctx ms ss tab)) by (intros t0; specialize (IH ws ss Hs (pred root) t0 L'); destruct root; exact IH).
    destruct (wr_to_write m w) as [[f|]|]; destruct (to_write m s) as [[g|]|]; try contradiction.
    + specialize (A (name_segment (list_ascii_of_string (m_name m)) :: ctx) tab).
      destruct (f (name_segment (list_ascii_of_string (m_name m)) :: ctx) tab) as [[|] tab' evs|] eqn:Ef; cbn in A.
      * destruct A as (a & -> & ->). specialize (N tab'). revert N.
        destruct (match root with O => wr_members ctx O true true ms ws tab' | S r => _ end) as [[|] tab2 evs2|]; cbn; intros N.
        -- destruct N as (l & -> & ->). cbn. eexists; split; reflexivity.
        -- exact I.
        -- now rewrite N.
      * destruct (W f eq_refl) as [R|R]; [|destruct (R _ _ _ _ Ef)]. destruct root as [|root]; [lia|].
        pose proof (wr_members_false ctx ms ws ss Hs root tab') as F.
        destruct (wr_members ctx root false false ms ws tab') as [ok tab2 evs2|]; cbn.
        -- subst ok. exact I.
        -- destruct (g _ tab); rewrite ?F; reflexivity.
      * now rewrite A.
    + apply N.
    + reflexivity.
Qed.

Lemma agrees_object : forall ctx c ws ss, Forall2 magrees ws ss ->
  List.length (c_members c) <= c_root c \/ Forall mnever_false ws ->
  forall tab, agrees events (wr_object ctx c ws tab) (smap JObj (ser_members ctx (c_members c) ss tab)).
Proof.
  intros ctx c ws ss H L tab. unfold wr_object. cbn [emit wthen].
  pose proof (agrees_members ctx _ ws ss H (c_root c) tab L) as A.
  destruct (wr_members ctx (c_root c) true true (c_members c) ws tab) as [[|] tab2 evs2|]; cbn in *.
  - destruct A as (l & -> & ->). cbn. eexists; split; reflexivity.
  - exact I.
  - now rewrite A.
Qed.

Lemma Forall2_map : forall A B C (R : B -> C -> Prop) (f : A -> B) (g : A -> C) l,
  Forall (fun x => R (f x) (g x)) l -> Forall2 R (map f l) (map g l).
Proof. intros A B C R f g l H. induction H; cbn; constructor; assumption. Qed.

Lemma Forall2_map2 : forall A B C D (R : A -> B -> Prop) (S : C -> D -> Prop) (f : A -> C) (g : B -> D) l m,
  (forall a b, R a b -> S (f a) (g b)) -> Forall2 R l m -> Forall2 S (map f l) (map g m).
Proof. intros A B C D R S f g l m H F. induction F; cbn; constructor; auto. Qed.

Lemma all_some_rel : forall A B (R : A -> B -> Prop) l m,
  Forall2 (fun a b => match a, b with Some x, Some y => R x y | None, None => True | _, _ => False end) l m ->
  match all_some l, all_some m with Some x, Some y => Forall2 R x y | None, None => True | _, _ => False end.
Proof.
  intros A B R l m H. induction H as [|a b l m H Hs IH]; cbn; [constructor|].
  destruct a as [a|], b as [b|]; try contradiction; [|exact I].
  destruct (all_some l), (all_some m); try contradiction; [|exact I]. now constructor.
Qed.

Lemma apply_types_rel : forall A B (R : A -> B -> Prop) (l : list (ty -> A)) (m : list (ty -> B)) ts,
  Forall2 (fun a b => forall t, R (a t) (b t)) l m ->
  match apply_types l ts, apply_types m ts with Some x, Some y => Forall2 R x y | None, None => True | _, _ => False end.
Proof.
  intros A B R l m ts H. revert ts. induction H as [|a b l m H Hs IH]; intros [|t ts]; cbn; try exact I; [constructor|].
  specialize (IH ts). destruct (apply_types l ts), (apply_types m ts); try contradiction; [|exact I].
  now constructor.
Qed.

Lemma nth_error_rel : forall A B (R : A -> B -> Prop) l m i, Forall2 R l m ->
  match nth_error l i, nth_error m i with Some x, Some y => R x y | None, None => True | _, _ => False end.
Proof.
  intros A B R l m i H. revert i. induction H as [|a b l m H Hs IH]; intros [|i]; cbn; auto. apply IH.
Qed.

Lemma visited_rel : forall A B (R : A -> B -> Prop) e o l m,
  Forall2 (fun a b => fst a = fst b /\ R (snd a) (snd b)) l m ->
  match visited e o l, visited e o m with
  | Some x, Some y => Forall2 (fun a b => fst a = fst b /\ R (snd a) (snd b)) x y
  | None, None => True
  | _, _ => False
  end.
Proof.
  intros A B R e o l m H. unfold visited. destruct o; [exact H|].
  assert (E : map fst l = map fst m).
  { induction H as [|a b l m [E _] Hs IH]; [reflexivity|]. cbn. now rewrite E, IH. }
  rewrite E. apply all_some_rel. induction (iteration e (map fst m)) as [|i is IH]; cbn; constructor; [|exact IH].
  apply nth_error_rel. exact H.
Qed.

Section Agree.
Variable e : env.

(** No inheritance, or nothing that fails. *)
Definition safe (v : val) : Prop := no_bases e \/ finite v = true.

Definition all_agree (v : val) : Prop := forall t, fagrees (wr e v t) (ser e v t).

(** With the parts of a pair and of an optional, which are treated apart. *)
Definition parts_agree (v : val) : Prop := safe v ->
  all_agree v /\
  match v with VList l => Forall all_agree l | VSome x => all_agree x | _ => True end.

Lemma safe_list : forall l, no_bases e \/ forallb finite l = true -> Forall safe l.
Proof.
  intros l H. apply Forall_forall. intros x Ix. destruct H as [H|H]; [left; exact H|right].
  rewrite forallb_forall in H. auto.
Qed.

Lemma safe_map : forall l, no_bases e \/ forallb (fun p : string * val => finite (snd p)) l = true -> Forall (fun p => safe (snd p)) l.
Proof.
  intros l H. apply Forall_forall. intros x Ix. destruct H as [H|H]; [left; exact H|right].
  rewrite forallb_forall in H. exact (H x Ix).
Qed.

Lemma Forall_mp : forall A (P Q : A -> Prop) l, Forall (fun x => P x -> Q x) l -> Forall P l -> Forall Q l.
Proof. intros A P Q l H. induction H; intros F; inversion F; subst; constructor; auto. Qed.

Definition both_agree (v : val) : Prop :=
  all_agree v /\
  match v with VList l => Forall all_agree l | VSome x => all_agree x | _ => True end.

Lemma both_agree_fst : forall l, Forall both_agree l -> Forall all_agree l.
Proof. intros l H. eapply Forall_impl; [|exact H]. intros x [A _]. exact A. Qed.

Lemma keyed_agree : forall l, Forall both_agree l ->
  Forall2 (fun (a : option (string * (ty -> wfun))) (b : option (string * (ty -> sfun json))) =>
    match a, b with
    | Some x, Some y => fst x = fst y /\ (forall t, fagrees (snd x t) (snd y t))
    | None, None => True
    | _, _ => False
    end) (map (keyed (wr e)) l) (map (keyed (ser e)) l).
Proof.
  intros l H. apply Forall2_map. eapply Forall_impl; [|exact H]. intros x [_ A].
  destruct x as [| | | | | | | | |l0| | | | | | | |]; try exact I.
  destruct l0 as [|[] [|y [|]]]; try exact I. cbn. split; [reflexivity|].
  inversion A; subst. inversion H3; subst. assumption.
Qed.

Lemma members_agree : forall l, Forall both_agree l ->
  Forall2 magrees (map (wmpart (wr e)) l) (map (mpart (ser e)) l).
Proof.
  intros l H. apply Forall2_map. eapply Forall_impl; [|exact H]. intros x [A B].
  destruct x; try (constructor; exact A); constructor. exact B.
Qed.

Lemma writer_agrees_parts : forall v, parts_agree v.
Proof.
  assert (S : forall v t ctx tab, wr e v t ctx tab = wr_scalar e t v tab ->
    ser e v t ctx tab = ser_scalar e t v tab -> agrees events (wr e v t ctx tab) (ser e v t ctx tab)).
  { intros v t ctx tab -> ->. apply agrees_scalar. }
  induction v as [| | | | | | | | |l IH|l IH|i v IH|l IH| |v IH| |v IH|a v IH] using val_ind';
    intros SF; (split; [intros t ctx tab|]); try (destruct t; apply S; reflexivity); try exact I;
    try (apply both_agree_fst, (Forall_mp _ _ _ _ IH), safe_list, SF); try (apply IH; exact SF).
  - (* VList *)
    apply (fun X => Forall_mp _ _ _ _ X (safe_list l SF)) in IH.
    assert (F : Forall2 (fun a b => forall t, fagrees (a t) (b t)) (map (wr e) l) (map (ser e) l)).
    { apply Forall2_map, both_agree_fst, IH. }
    assert (G : forall u, Forall2 fagrees (map (fun f => f u) (map (wr e) l)) (map (fun f => f u) (map (ser e) l))).
    { intros u. eapply Forall2_map2; [|exact F]. intros a b H. exact (H u). }
    destruct t; try (apply S; reflexivity); cbn.
    + destruct (dict_type t) as [w|].
      * pose proof (keyed_agree l IH) as K.
        apply all_some_rel in K.
        destruct (all_some (map (keyed (wr e)) l)), (all_some (map (keyed (ser e)) l)); try contradiction; [|reflexivity].
        apply agrees_map. eapply Forall2_map2; [|exact K]. intros x y [E H]. split; [exact E|apply H].
      * apply agrees_array, G.
    + destruct (Nat.eqb n (List.length l)); [apply agrees_array, G|reflexivity].
    + apply agrees_array, G.
    + pose proof (apply_types_rel _ _ fagrees _ _ [t1; t2] F) as A.
      destruct (apply_types (map (wr e) l) [t1; t2]), (apply_types (map (ser e) l) [t1; t2]); try contradiction; [|reflexivity].
      apply agrees_array, A.
    + pose proof (apply_types_rel _ _ fagrees _ _ ts F) as A.
      destruct (apply_types (map (wr e) l) ts), (apply_types (map (ser e) l) ts); try contradiction; [|reflexivity].
      apply agrees_array, A.
  - (* VMap *)
    apply (fun X => Forall_mp _ _ _ _ X (safe_map l SF)) in IH.
    destruct t; try (apply S; reflexivity); cbn.
    assert (F : Forall2 (fun a b => fst a = fst b /\ (forall t, fagrees (snd a t) (snd b t)))
       (map (fun p => (fst p, wr e (snd p))) l) (map (fun p => (fst p, ser e (snd p))) l)).
    { apply Forall2_map. eapply Forall_impl; [|exact IH]. cbn. intros p [H _]. split; [reflexivity|exact H]. }
    apply (visited_rel _ _ (fun a b => forall t, fagrees (a t) (b t)) e ordered) in F.
    destruct (visited e ordered (map (fun p => (fst p, wr e (snd p))) l)),
             (visited e ordered (map (fun p => (fst p, ser e (snd p))) l)); try contradiction; [|reflexivity].
    apply agrees_map. eapply Forall2_map2; [|exact F]. intros x y [E H]. split; [exact E|apply H].
  - (* VVariant *)
    destruct t; try (apply S; reflexivity); cbn.
    destruct (nth_error ts i); [apply IH; exact SF|reflexivity].
  - (* VObj *)
    destruct t; try (apply S; reflexivity); cbn.
    pose proof (Forall_mp _ _ _ _ IH (safe_list l SF)) as IH2.
    apply agrees_object; [apply members_agree, IH2|].
    destruct SF as [SF|SF]; [left; apply SF|right]. apply Forall_map. apply Forall_forall. intros x Ix.
    apply finite_mnever. cbn in SF. rewrite forallb_forall in SF. auto.
  - (* VPtr *)
    destruct t; try (apply S; reflexivity); cbn; apply IH; exact SF.
  - (* VShared *)
    destruct t; try (apply S; reflexivity); cbn.
    destruct (ref_get Nat.eqb tab a) as [segs|]; cbn; [eexists; split; reflexivity|].
    destruct (IH SF) as [IH' _]. clear IH. rename IH' into IH. specialize (IH t ctx tab). destruct (wr e v t ctx tab) as [[|] tab' evs|]; cbn in *.
    + destruct IH as (j & -> & ->). cbn. eexists; split; [reflexivity|]. now rewrite app_nil_r.
    + exact I.
    + now rewrite IH.
Qed.

Lemma writer_agrees : forall v t, safe v -> fagrees (wr e v t) (ser e v t).
Proof. intros v t SF. apply writer_agrees_parts, SF. Qed.
End Agree.
