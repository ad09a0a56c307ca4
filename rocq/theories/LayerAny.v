(** Reading any document again, also one that is rejected. *)
From Coq Require Import List Arith ZArith NArith Ascii String Bool Lia.
From Verif Require Import Base Float NumericModel EnumModel Base64Model DatetimeModel RefsModel Json PathModel Types SerializeModel DeserializeModel.
Import ListNotations.

(** The same outcome, whatever the object. *)
Definition alike (x y : dres) : Prop :=
  match x, y with
  | DRet ok st _, DRet ok' st' _ => ok = ok' /\ st = st'
  | DRet _ _ _, _ | _, DRet _ _ _ => False
  | _, _ => x = y
  end.

Lemma alike_refl : forall x, alike x x.
Proof. intros []; cbn; auto. Qed.

Definition steady (f : reader) : Prop := forall old ctx loc st,
  (forall old', alike (f old ctx loc st) (f old' ctx loc st)) /\
  (forall ok st' v, f old ctx loc st = DRet ok st' v -> f v ctx loc st = DRet ok st' v).

Lemma reject_steady : forall exc why, steady (fun old ctx loc st => reject exc why old ctx st).
Proof. intros exc why old ctx loc st. unfold reject. destruct exc; split; cbn; auto; intros; congruence. Qed.

Lemma const_steady : forall (g : list segment -> list nat -> dstate -> dres), steady (fun _ ctx loc st => g ctx loc st).
Proof. intros g old ctx loc st. split; auto using alike_refl. Qed.

Lemma kept_steady : forall (f : reader) init w, steady (fun old ctx loc st =>
  match f init ctx loc st with DRet true st x => DRet true st (w x) | DRet false st _ => DRet false st old | r => r end).
Proof. intros f init w old ctx loc st. destruct (f init ctx loc st) as [[] ? ?| | |]; split; cbn; auto; intros; congruence. Qed.

Lemma read_int_steady : forall exc k j, steady (read_int exc k j).
Proof.
  intros exc k j old ctx loc st. unfold read_int. destruct j; try apply (reject_steady _ _ old ctx loc st).
  destruct (is_kind _ _); [|apply (reject_steady _ _ old ctx loc st)]. destruct (check_range _ _ _); [|apply (reject_steady _ _ old ctx loc st)].
  split; auto using alike_refl.
Qed.

Lemma read_scalar_steady : forall e exc t j, steady (read_scalar e exc t j).
Proof.
  intros e exc t j old ctx loc st. unfold read_scalar. destruct t; try (split; [intros; reflexivity|auto]; fail); try apply read_int_steady.
  all: unfold read_float; repeat match goal with
    | |- context [match read_int ?a ?b ?c ?o ?x ?y ?z with _ => _ end] => destruct (read_int a b c o x y z) as [[] ? ?| | |]
    | |- context [match number ?x with _ => _ end] => destruct (number x)
    | |- context [match base64_decode ?x with _ => _ end] => destruct (base64_decode x) as [[[] ?]|]
    | |- context [match parse_datetime ?x ?y with _ => _ end] => destruct (parse_datetime x y) as [[?|]|]
    | |- context [match parse_date ?x ?y with _ => _ end] => destruct (parse_date x y) as [[?|]|]
    | |- context [match enum_from_string ?x ?y with _ => _ end] => destruct (enum_from_string x y)
    | |- context [match ?x with _ => _ end] => is_var x; destruct x
    end; unfold reject; try match goal with |- context [if ?x then _ else _] => destruct x end; split; cbn; auto; intros; congruence.
Qed.

Lemma read_tuple_steady : forall fs, Forall steady fs -> forall k olds ctx loc st,
  (forall olds', let '(ok, _, stop, st1) := read_tuple fs k olds ctx loc st in
     let '(ok', _, stop', st2) := read_tuple fs k olds' ctx loc st in ok = ok' /\ stop = stop' /\ (stop = None -> st1 = st2)) /\
  (forall ok l st', read_tuple fs k olds ctx loc st = (ok, l, None, st') -> read_tuple fs k l ctx loc st = (ok, l, None, st')) /\
  (forall ok l st' ok1 st1 v, read_tuple fs k olds ctx loc st <> (ok, l, Some (DRet ok1 st1 v), st')).
Proof.
  intros fs F. induction F as [|f fs Sf F IH]; intros k olds ctx loc st; cbn.
  - repeat split; auto; congruence.
  - destruct (Sf (hd VIndet olds) (at_index ctx (N.of_nat k)) (loc ++ [k]) st) as [A B]. split; [|split].
    + intros olds'. specialize (A (hd VIndet olds')). clear B.
      destruct (f (hd VIndet olds) _ _ st) as [[] st1 x| | |], (f (hd VIndet olds') _ _ st) as [[] st2 y| | |]; cbn in A; try contradiction; try congruence;
        try (destruct A; try discriminate; subst); auto; try (split; [|split]; congruence).
      destruct (IH (S k) (tl olds) ctx loc st2) as [I _]. specialize (I (tl olds')).
      destruct (read_tuple fs (S k) (tl olds) ctx loc st2) as [[[] ?] ?], (read_tuple fs (S k) (tl olds') ctx loc st2) as [[[] ?] ?]; cbn in *; tauto.
    + intros ok l st' H. destruct (f (hd VIndet olds) _ _ st) as [[] st1 x| | |] eqn:E; try (inversion H; fail).
      * destruct (read_tuple fs (S k) (tl olds) ctx loc st1) as [[[ok1 l1] stop1] st2] eqn:R. inversion H; subst. cbn [hd tl].
        rewrite (B _ _ _ eq_refl). destruct (IH (S k) (tl olds) ctx loc st1) as (_ & I & _). now rewrite (I _ _ _ R).
      * inversion H; subst. cbn [hd tl]. now rewrite (B _ _ _ eq_refl).
    + intros ok l st' ok1 st1 v H. destruct (f (hd VIndet olds) _ _ st) as [[] st2 x| | |] eqn:E; try (inversion H; fail).
      destruct (read_tuple fs (S k) (tl olds) ctx loc st2) as [[[ok3 l3] stop3] st3] eqn:R. inversion H; subst.
      destruct (IH (S k) (tl olds) ctx loc st2) as (_ & _ & I). exact (I _ _ _ _ _ _ R).
Qed.

Lemma find_fun_in : forall A (fs : list (string * A)) k name i f, find_fun fs k name = Some (i, f) -> In f (map snd fs).
Proof.
  induction fs as [|[n g] fs IH]; intros k name i f H; cbn in *; [discriminate|]. destruct (String.eqb n name); [inversion H; subst; auto|right; eauto].
Qed.

Definition steadies (F : bool -> ty -> reader) : Prop := forall exc t, steady (F exc t).

Lemma read_member_steady : forall e exc fs m flag, Forall steadies (map snd fs) ->
  steady (fun old ctx loc st => read_member e exc fs m flag old ctx loc st).
Proof.
  intros e exc fs m flag F old ctx loc st. unfold read_member. destruct (find_fun fs 0 (m_name m)) as [[i f]|] eqn:E.
  - apply find_fun_in in E. rewrite Forall_forall in F. specialize (F f E exc (m_ty m)).
    destruct (m_kind m); first [apply F|split; auto using alike_refl].
  - destruct (m_kind m); try (split; cbn; auto; intros; congruence). destruct exc; split; cbn; auto; intros; congruence.
Qed.

Lemma read_members_steady : forall e exc fs, Forall steadies (map snd fs) -> forall ms root seen flag olds ctx loc st,
  (forall olds', let '(ok, _, stop, st1) := read_members e exc fs ms root seen flag olds ctx loc st in
     let '(ok', _, stop', st2) := read_members e exc fs ms root seen flag olds' ctx loc st in ok = ok' /\ stop = stop' /\ (stop = None -> st1 = st2)) /\
  (forall ok l st', read_members e exc fs ms root seen flag olds ctx loc st = (ok, l, None, st') -> read_members e exc fs ms root seen flag l ctx loc st = (ok, l, None, st')) /\
  (forall ok l st' ok1 st1 v, read_members e exc fs ms root seen flag olds ctx loc st <> (ok, l, Some (DRet ok1 st1 v), st')).
Proof.
  intros e exc fs F. induction ms as [|m ms IH]; intros root seen flag olds ctx loc st; cbn [read_members].
  - repeat split; auto; congruence.
  - destruct (read_member_steady e exc fs m flag F (hd VIndet olds) ctx loc st) as [A B]. split; [|split].
    + intros olds'. specialize (A (hd VIndet olds')). clear B.
      destruct (read_member e exc fs m flag (hd VIndet olds) ctx loc st) as [ok1 st1 x| | |], (read_member e exc fs m flag (hd VIndet olds') ctx loc st) as [ok2 st2 y| | |];
        cbn in A; try contradiction; try (split; [|split]; congruence). destruct A as [-> ->].
      destruct root as [|r].
      * destruct (IH 0 seen ok2 (tl olds) ctx loc st2) as [I _]. specialize (I (tl olds')).
        destruct (read_members e exc fs ms 0 seen ok2 (tl olds) ctx loc st2) as [[[] ?] ?], (read_members e exc fs ms 0 seen ok2 (tl olds') ctx loc st2) as [[[] ?] ?]; cbn in *; tauto.
      * destruct (IH r ok2 ok2 (tl olds) ctx loc st2) as [I _]. specialize (I (tl olds')).
        destruct (read_members e exc fs ms r ok2 ok2 (tl olds) ctx loc st2) as [[[] ?] ?], (read_members e exc fs ms r ok2 ok2 (tl olds') ctx loc st2) as [[[] ?] ?]; cbn in *; tauto.
    + intros ok l st' H. destruct (read_member e exc fs m flag (hd VIndet olds) ctx loc st) as [ok1 st1 x| | |] eqn:E; try (inversion H; fail).
      destruct root as [|r].
      * destruct (read_members e exc fs ms 0 seen ok1 (tl olds) ctx loc st1) as [[[ok3 l3] stop3] st3] eqn:R. inversion H; subst. cbn [hd tl].
        rewrite (B _ _ _ eq_refl). destruct (IH 0 seen ok1 (tl olds) ctx loc st1) as (_ & I & _). now rewrite (I _ _ _ R).
      * destruct (read_members e exc fs ms r ok1 ok1 (tl olds) ctx loc st1) as [[[ok3 l3] stop3] st3] eqn:R. inversion H; subst. cbn [hd tl].
        rewrite (B _ _ _ eq_refl). destruct (IH r ok1 ok1 (tl olds) ctx loc st1) as (_ & I & _). now rewrite (I _ _ _ R).
    + intros ok l st' ok4 st4 v H. destruct (read_member e exc fs m flag (hd VIndet olds) ctx loc st) as [ok1 st1 x| | |] eqn:E; try (inversion H; fail).
      destruct root as [|r].
      * destruct (read_members e exc fs ms 0 seen ok1 (tl olds) ctx loc st1) as [[[ok3 l3] stop3] st3] eqn:R. inversion H; subst.
        destruct (IH 0 seen ok1 (tl olds) ctx loc st1) as (_ & _ & I). exact (I _ _ _ _ _ _ R).
      * destruct (read_members e exc fs ms r ok1 ok1 (tl olds) ctx loc st1) as [[[ok3 l3] stop3] st3] eqn:R. inversion H; subst.
        destruct (IH r ok1 ok1 (tl olds) ctx loc st1) as (_ & _ & I). exact (I _ _ _ _ _ _ R).
Qed.

Lemma tuple_steady : forall fs, Forall steady fs -> steady (fun old ctx loc st => finish_tuple (read_tuple fs 0 (parts_of old) ctx loc st)).
Proof.
  intros fs F old ctx loc st. destruct (read_tuple_steady fs F 0 (parts_of old) ctx loc st) as (A & B & C). split.
  - intros old'. specialize (A (parts_of old')). destruct (read_tuple fs 0 (parts_of old) ctx loc st) as [[[ok1 l1] [r1|]] st1], (read_tuple fs 0 (parts_of old') ctx loc st) as [[[ok2 l2] [r2|]] st2];
      destruct A as (A1 & A2 & A3); try discriminate; cbn; [inversion A2; subst; apply alike_refl|auto].
  - intros ok st' v H. destruct (read_tuple fs 0 (parts_of old) ctx loc st) as [[[ok1 l1] [r1|]] st1]; cbn in H.
    + subst. exfalso. eapply C; reflexivity.
    + inversion H; subst. cbn [parts_of]. now rewrite (B _ _ _ eq_refl).
Qed.

Lemma object_steady : forall e exc fs ms root, Forall steadies (map snd fs) ->
  steady (fun old ctx loc st => finish_object (read_members e exc fs ms root true true (parts_of old) ctx loc st)).
Proof.
  intros e exc fs ms root F old ctx loc st. destruct (read_members_steady e exc fs F ms root true true (parts_of old) ctx loc st) as (A & B & C). split.
  - intros old'. specialize (A (parts_of old')).
    destruct (read_members e exc fs ms root true true (parts_of old) ctx loc st) as [[[ok1 l1] [r1|]] st1], (read_members e exc fs ms root true true (parts_of old') ctx loc st) as [[[ok2 l2] [r2|]] st2];
      destruct A as (A1 & A2 & A3); try discriminate; cbn; [inversion A2; subst; apply alike_refl|auto].
  - intros ok st' v H. destruct (read_members e exc fs ms root true true (parts_of old) ctx loc st) as [[[ok1 l1] [r1|]] st1]; cbn in H.
    + subst. exfalso. eapply C; reflexivity.
    + inversion H; subst. cbn [parts_of]. now rewrite (B _ _ _ eq_refl).
Qed.

Lemma applied : forall (Fs : list (bool -> ty -> reader)) exc ts fs, Forall steadies Fs -> apply_types (map (fun f => f exc) Fs) ts = Some fs -> Forall steady fs.
Proof.
  induction Fs as [|f Fs IH]; intros exc ts fs F H; destruct ts as [|t ts]; cbn in H; try discriminate.
  - inversion H; subst. constructor.
  - inversion F; subst. destruct (apply_types _ ts) as [r|] eqn:E; [|discriminate]. inversion H; subst. constructor; eauto.
Qed.

Lemma array_steady : forall init fs, steady (fun old ctx loc st => read_array init old fs ctx loc st).
Proof.
  intros init fs old ctx loc st. unfold read_array. destruct (read_items init push_back fs 0 [] ctx loc st) as [[] ? ?| | |]; split; cbn; auto; intros; congruence.
Qed.

Lemma variant_steady : forall exc fs, steady (fun old ctx loc st =>
  match read_variant fs 0 ctx loc st with
  | (Some (i, x), _, st) => DRet true st (VVariant i x)
  | (None, Some r, _) => r
  | (None, None, st) => reject exc NoAlternative old ctx st
  end).
Proof.
  intros exc fs old ctx loc st. destruct (read_variant fs 0 ctx loc st) as [[[[i x]|] [r|]] st1]; try (split; auto using alike_refl; fail).
  apply (reject_steady exc NoAlternative old ctx loc st1).
Qed.

Lemma ref_steady : forall root u target, steady (fun old ctx loc st => read_ref root u target old st).
Proof.
  intros root u target old ctx loc st. unfold read_ref. destruct target; try (split; auto using alike_refl; fail). destruct (parse_reference _) as [tokens|]; try (split; auto using alike_refl; fail).
  destruct (pointer_get root tokens) as [[place ?]|]; try (split; cbn; auto; intros; congruence). destruct (ref_get place_eqb (objects st) place) as [o|]; try (split; cbn; auto; intros; congruence).
  destruct (ty_eqb _ _); split; auto using alike_refl.
Qed.

Lemma all_steady : forall e root j, steadies (deser e root j).
Proof.
  intros e root. assert (Main : forall j (Fa : Forall steadies (match j with JArr l => map (deser e root) l | _ => [] end))
    (Fo : Forall steadies (map snd (match j with JObj l => map (fun p => (fst p, deser e root (snd p))) l | _ => [] end))), steadies (deser e root j)).
  { intros j Fa Fo exc t. revert exc. induction t using ty_ind'; intros exc; destruct j; cbn [deser];
      first
      [ exact (read_scalar_steady e exc _ _)
      | apply reject_steady
      | apply (kept_steady _ _ VPtr)
      | apply (object_steady e exc _ _ _ Fo)
      | apply variant_steady
      | match goal with |- context [negb ?b] => destruct (negb b); [apply reject_steady|apply array_steady] end
      | match goal with |- context [apply_types ?x ?y] => destruct (apply_types x y) as [fs|] eqn:E; [exact (tuple_steady fs (applied _ _ _ _ Fa E))|apply reject_steady] end
      | match goal with |- context [find_member ?x ?y] => destruct (find_member x y) as [target|]; [apply ref_steady|split; auto using alike_refl] end
      | split; auto using alike_refl ]. }
  induction j as [|b|z|f|s|l IH|l IH] using json_ind'; apply Main; try constructor.
  - now apply Forall_map.
  - rewrite map_map. cbn. now apply Forall_map.
Qed.
