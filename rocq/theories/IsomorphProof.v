(** The document of an object graph does not depend on addresses, and determines the graph up
    to them. *)
From Coq Require Import List Arith ZArith NArith Ascii String Bool Lia.
From Verif Require Import Base Float DatetimeModel RefsModel Json PathModel Types SerializeModel GraphSpec WriteSpec.
Import ListNotations.

Section Rename.
Variable e : env.
Variable r : nat -> nat.
Variable A : list nat.
Hypothesis Hinj : forall a b, In a A -> In b A -> r a = r b -> a = b.

Definition shift (tab : wtable) : wtable := map (fun p => (r (fst p), snd p)) tab.

Definition same {B} (x y : sres B) : Prop :=
  match x, y with
  | SOk tab a, SOk tab' a' => a' = a /\ tab' = shift tab /\ incl (map fst tab) A
  | SFail tab, SFail tab' => tab' = shift tab /\ incl (map fst tab) A
  | SUndef, SUndef => True
  | _, _ => False
  end.

Definition moved {B} (f g : sfun B) : Prop := forall ctx tab, incl (map fst tab) A -> same (f ctx tab) (g ctx (shift tab)).

Lemma same_bind : forall B C (x y : sres B) (f g : wtable -> B -> sres C), same x y ->
  (forall tab a, incl (map fst tab) A -> same (f tab a) (g (shift tab) a)) -> same (sbind x f) (sbind y g).
Proof. intros B C [tab a|tab|] [tab' a'|tab'|] f g H K; try contradiction; cbn in *; auto. destruct H as (-> & -> & I). now apply K. Qed.

Lemma same_map : forall B C (h : B -> C) (x y : sres B), same x y -> same (smap h x) (smap h y).
Proof. intros B C h x y H. apply same_bind; [exact H|]. intros tab a I. cbn. auto. Qed.

Lemma same_seq : forall B (fs gs : list (sfun B)), Forall2 moved fs gs -> forall at_ k tab, incl (map fst tab) A -> same (ser_seq at_ k fs tab) (ser_seq at_ k gs (shift tab)).
Proof.
  intros B fs gs F. induction F as [|f g fs gs X F IH]; intros at_ k tab I; [cbn; auto|]. cbn [ser_seq]. apply same_bind; [now apply X|]. intros tab' a I'. now apply same_map, IH.
Qed.

Definition keyed_moved {B} (p q : string * sfun B) : Prop := fst p = fst q /\ moved (snd p) (snd q).

Lemma same_entries : forall B (fs gs : list (string * sfun B)), Forall2 keyed_moved fs gs -> forall ctx tab, incl (map fst tab) A -> same (ser_entries ctx fs tab) (ser_entries ctx gs (shift tab)).
Proof.
  intros B fs gs F. induction F as [|[n f] [n' g] fs gs [E X] F IH]; intros ctx tab I; [cbn; auto|]. cbn in E, X. subst n'. cbn [ser_entries]. apply same_bind; [now apply X|].
  intros tab' a I'. now apply same_map, IH.
Qed.

Definition mmoved {B} (f g : mfun B) : Prop :=
  match f, g with
  | MPlain f, MPlain g | MPresent f, MPresent g => forall t, moved (f t) (g t)
  | MAbsent, MAbsent => True
  | _, _ => False
  end.

Lemma same_members : forall B (fs gs : list (mfun B)), Forall2 mmoved fs gs -> forall ms ctx tab, incl (map fst tab) A -> same (ser_members ctx ms fs tab) (ser_members ctx ms gs (shift tab)).
Proof.
  intros B fs gs F. induction F as [|f g fs gs X F IH]; intros [|m ms] ctx tab I; cbn [ser_members]; try (cbn; auto; fail).
  assert (G : forall f g : sfun B, moved f g ->
    same match f (name_segment (list_ascii_of_string (m_name m)) :: ctx) tab with SUndef => SUndef | SFail tab => ser_members ctx ms fs tab | SOk tab a => smap (cons (m_name m, a)) (ser_members ctx ms fs tab) end
         match g (name_segment (list_ascii_of_string (m_name m)) :: ctx) (shift tab) with SUndef => SUndef | SFail tab => ser_members ctx ms gs tab | SOk tab a => smap (cons (m_name m, a)) (ser_members ctx ms gs tab) end).
  { intros f' g' M. specialize (M (name_segment (list_ascii_of_string (m_name m)) :: ctx) tab I).
    destruct (f' (name_segment (list_ascii_of_string (m_name m)) :: ctx) tab), (g' (name_segment (list_ascii_of_string (m_name m)) :: ctx) (shift tab)); try contradiction; [|destruct M as [-> M]; now apply IH|exact Logic.I].
    destruct M as (-> & -> & M). now apply same_map, IH. }
  unfold to_write. destruct f, g; try contradiction; destruct (m_kind m); try exact Logic.I; try (apply G, X); now apply IH.
Qed.

Lemma some_related : forall B (R : B -> B -> Prop) (l l' : list (option B)), Forall2 (fun x y => match x, y with Some a, Some b => R a b | None, None => True | _, _ => False end) l l' ->
  match all_some l, all_some l' with Some a, Some b => Forall2 R a b | None, None => True | _, _ => False end.
Proof.
  intros B R l l' F. induction F as [|[a|] [b|] l l' X F IH]; cbn; try contradiction; auto.
  destruct (all_some l), (all_some l'); try contradiction; auto.
Qed.

Lemma visited_related : forall B (R : B -> B -> Prop) (l l' : list (string * B)), Forall2 (fun p q => fst p = fst q /\ R (snd p) (snd q)) l l' -> forall o,
  match visited e o l, visited e o l' with Some a, Some b => Forall2 (fun p q => fst p = fst q /\ R (snd p) (snd q)) a b | None, None => True | _, _ => False end.
Proof.
  intros B R l l' F o. unfold visited. destruct o; [exact F|]. assert (E : map fst l = map fst l') by (induction F as [|? ? ? ? [X _] F IH]; cbn; congruence). rewrite <- E.
  apply some_related. generalize (iteration e (map fst l)). intros ks. induction ks as [|k ks IH]; constructor; [|exact IH]. clear -F. revert k.
  induction F as [|x y l l' X F IH]; intros [|k]; cbn [nth_error]; [exact Logic.I|exact Logic.I|exact X|apply IH].
Qed.

Lemma types_related : forall B (fs gs : list (ty -> sfun B)), Forall2 (fun f g => forall t, moved (f t) (g t)) fs gs -> forall ts,
  match apply_types fs ts, apply_types gs ts with Some a, Some b => Forall2 moved a b | None, None => True | _, _ => False end.
Proof.
  intros B fs gs F. induction F as [|f g fs gs X F IH]; intros [|t ts]; cbn; auto. specialize (IH ts). destruct (apply_types fs ts), (apply_types gs ts); try contradiction; auto.
Qed.

Lemma get_shift : forall tab a, incl (map fst tab) A -> In a A -> ref_get Nat.eqb (shift tab) (r a) = ref_get Nat.eqb tab a.
Proof.
  induction tab as [|[b s] tab IH]; intros a I Ia; [reflexivity|]. cbn. assert (Ib : In b A) by (apply I; now left).
  destruct (Nat.eqb_spec b a) as [->|N]; [now rewrite Nat.eqb_refl|]. destruct (Nat.eqb_spec (r b) (r a)) as [E|_]; [destruct N; now apply Hinj|]. apply IH; [|exact Ia]. intros x Ix. apply I. now right.
Qed.

Lemma put_shift : forall tab a s, incl (map fst tab) A -> In a A -> ref_put Nat.eqb (shift tab) (r a) s = shift (ref_put Nat.eqb tab a s) /\ incl (map fst (ref_put Nat.eqb tab a s)) A.
Proof.
  intros tab a s I Ia. unfold ref_put. rewrite get_shift by assumption. destruct (ref_get Nat.eqb tab a); [auto|]. unfold shift. rewrite !map_app. split; [reflexivity|].
  intros x Ix. apply in_app_or in Ix as [Ix|[<-|[]]]; auto.
Qed.

Definition serialized (v : val) : Prop := incl (addresses v) A -> forall t, moved (ser e v t) (ser e (rename r v) t).

Lemma same_scalar : forall v w t tab, incl (map fst tab) A -> (forall tab', ser_scalar e t v tab' = ser_scalar e t w tab') -> same (ser_scalar e t v tab) (ser_scalar e t w (shift tab)).
Proof.
  intros v w t tab I E. rewrite <- E. destruct t, v; cbn; auto; try (destruct (is_finite f); cbn; auto; fail);
    try (unfold of_text; match goal with |- context [match ?x with Some _ => _ | None => _ end] => destruct x end; cbn; auto; fail).
  destruct (in_int64 _); [|exact Logic.I]. unfold of_text. destruct (to_iso_date _ _); cbn; auto.
Qed.

Lemma items_moved : forall l, Forall serialized l -> incl (flat_map addresses l) A -> Forall2 (fun f g => forall t, moved (f t) (g t)) (map (ser e) l) (map (ser e) (map (rename r) l)).
Proof.
  intros l F. induction F as [|v l S F IH]; intros I; [constructor|]. cbn in *. constructor; [apply S; intros a Ia; apply I; apply in_or_app; now left|].
  apply IH. intros a Ia. apply I, in_or_app. now right.
Qed.

Lemma all_serialized : forall v, serialized v /\ match v with VList [VStr _; x] | VSome x => serialized x | _ => True end.
Proof.
  assert (One : forall u fs gs, Forall2 (fun f g : ty -> sfun json => forall t, moved (f t) (g t)) fs gs -> Forall2 moved (map (fun f => f u) fs) (map (fun f => f u) gs)).
  { intros u fs gs F. induction F; constructor; auto. }
  assert (Length : forall l, List.length (map (rename r) l) = List.length l) by (intros; apply map_length).
  induction v as [| |b|z|f|s|b|z|z|l IH|l IH|i v IH|l IH| |v IH| |v IH|a v IH] using val_ind'.
  all: split; [|try exact Logic.I].
  1-9, 15, 18: intros I t ctx tab It; cbn [rename ser]; destruct t; apply same_scalar; auto.
  - intros I t ctx tab It. cbn [rename ser]. cbn [addresses] in I. assert (F : Forall serialized l) by (revert IH; apply Forall_impl; tauto).
    pose proof (items_moved l F I) as M. destruct t; try (apply same_scalar; auto; fail).
    + destruct (dict_type t) as [w|] eqn:Dt; [|apply same_map, same_seq; auto].
      assert (K : match all_some (map (keyed (ser e)) l), all_some (map (keyed (ser e)) (map (rename r) l)) with
        | Some a, Some b => Forall2 (fun p q => fst p = fst q /\ forall t, moved (snd p t) (snd q t)) a b | None, None => True | _, _ => False end).
      { apply some_related. clear -IH I. induction IH as [|v l [_ X] F IHF]; [constructor|]. cbn [map flat_map] in *. constructor; [|apply IHF; intros a Ia; apply I, in_or_app; now right].
        destruct v as [| | | | | | | | |[|[| | | | |s| | | | | | | | | | | |] [|x [|? ?]]]| | | | | | | |]; cbn; auto. split; [reflexivity|]. cbn in X. apply X.
        intros a Ia. apply I, in_or_app. left. cbn. now rewrite app_nil_r. }
      destruct (all_some (map (keyed (ser e)) l)), (all_some (map (keyed (ser e)) (map (rename r) l))); try contradiction; [|exact Logic.I].
      apply same_map, same_entries; [|exact It]. clear -K. induction K as [|p q l l' [E X] K IH]; constructor; [split; [exact E|apply X]|exact IH].
    + rewrite Length. destruct (Nat.eqb _ _); [apply same_map, same_seq; auto|exact Logic.I].
    + apply same_map, same_seq; auto.
    + pose proof (types_related _ _ _ M [t1; t2]) as K. destruct (apply_types (map (ser e) l) _), (apply_types (map (ser e) (map (rename r) l)) _); try contradiction; [apply same_map, same_seq; auto|exact Logic.I].
    + pose proof (types_related _ _ _ M ts) as K. destruct (apply_types (map (ser e) l) _), (apply_types (map (ser e) (map (rename r) l)) _); try contradiction; [apply same_map, same_seq; auto|exact Logic.I].
  - destruct l as [|[| | | | |s| | | | | | | | | | | |] [|x [|? ?]]]; try exact Logic.I. inversion IH as [|? ? _ IH2]; subst. inversion IH2 as [|? ? [X _] _]; subst. exact X.
  - intros I t ctx tab It. cbn [rename ser]. cbn [addresses] in I. destruct t; try (apply same_scalar; auto; fail).
    assert (M : Forall2 (fun p q => fst p = fst q /\ forall t, moved (snd p t) (snd q t)) (map (fun p => (fst p, ser e (snd p))) l) (map (fun p => (fst p, ser e (snd p))) (map (fun p => (fst p, rename r (snd p))) l))).
    { clear -IH I. induction IH as [|[n v] l [X _] F IHF]; [constructor|]. cbn [map flat_map fst snd] in *. constructor; [|apply IHF; intros a Ia; apply I, in_or_app; now right].
      split; [reflexivity|]. apply X. intros a Ia. apply I, in_or_app. now left. }
    pose proof (visited_related _ (fun f g : ty -> sfun json => forall t, moved (f t) (g t)) _ _ M ordered) as K.
    destruct (visited e ordered (map (fun p => (fst p, ser e (snd p))) l)), (visited e ordered (map (fun p => (fst p, ser e (snd p))) (map (fun p => (fst p, rename r (snd p))) l))); try contradiction; [|exact Logic.I].
    apply same_map, same_entries; [|exact It]. clear -K. induction K as [|p q l l' [E X] K IH]; constructor; [split; [exact E|apply X]|exact IH].
  - intros I t ctx tab It. cbn [rename ser]. destruct t; try (apply same_scalar; auto; fail). destruct (nth_error ts i); [|exact Logic.I]. now apply IH.
  - intros I t ctx tab It. cbn [rename ser]. cbn [addresses] in I. destruct t; try (apply same_scalar; auto; fail). apply same_map, same_members; [|exact It].
    clear -IH I. induction IH as [|v l [X Y] F IHF]; [constructor|]. cbn [map flat_map] in *. constructor; [|apply IHF; intros a Ia; apply I, in_or_app; now right].
    assert (Iv : incl (addresses v) A) by (intros a Ia; apply I, in_or_app; now left). specialize (X Iv). destruct v; cbn [mpart rename]; try exact X; [exact Logic.I|]. intros t. exact (Y Iv t).
  - intros I t ctx tab It. cbn [rename ser]. destruct t; apply same_scalar; auto.
  - apply IH.
  - intros I t ctx tab It. cbn [rename ser]. destruct t; try (apply same_scalar; auto; fail); now apply IH.
  - intros I t ctx tab It. cbn [rename ser]. cbn [addresses] in I. destruct t; try (apply same_scalar; auto; fail). assert (Ia : In a A) by (apply I; now left).
    rewrite get_shift by assumption. destruct (ref_get Nat.eqb tab a); [cbn; auto|]. apply same_bind; [apply IH; [intros x Ix; apply I; now right|exact It]|].
    intros tab' j I'. destruct (put_shift tab' a ctx I' Ia) as [-> P]. cbn. auto.
Qed.
End Rename.

(** * Back from the document *)

Lemma addresses_renamed : forall r v, addresses (rename r v) = map r (addresses v).
Proof.
  intros r. assert (L : forall (l : list val), Forall (fun v => addresses (rename r v) = map r (addresses v)) l -> flat_map addresses (map (rename r) l) = map r (flat_map addresses l)).
  { intros l F. induction F as [|v l E F IH]; [reflexivity|]. cbn. now rewrite map_app, E, IH. }
  induction v as [| |b|z|f|s|b|z|z|l IH|l IH|i v IH|l IH| |v IH| |v IH|a v IH] using val_ind'; cbn; auto; [|now rewrite IH].
  induction IH as [|p l E F IHF]; [reflexivity|]. cbn. now rewrite map_app, E, IHF.
Qed.

Section Inverse.
Variables r r' : nat -> nat.
Variable w0 : val.
Hypothesis Hdist : distinct r' w0.

Definition back (a : nat) : nat := match find (fun b => Nat.eqb (r' b) (r a)) (addresses w0) with Some b => b | None => a end.

Lemma back_found : forall a b, In b (addresses w0) -> r a = r' b -> back a = b.
Proof.
  intros a b I E. unfold back. destruct (find (fun b => Nat.eqb (r' b) (r a)) (addresses w0)) as [c|] eqn:F.
  - apply find_some in F as [Ic Ec]. apply Nat.eqb_eq in Ec. apply Hdist; congruence.
  - apply (find_none _ _ F) in I. cbn in I. rewrite E, Nat.eqb_refl in I. discriminate.
Qed.

Lemma back_renames : forall v w, incl (addresses w) (addresses w0) -> rename r v = rename r' w -> w = rename back v.
Proof.
  assert (L : forall l, Forall (fun v => forall w, incl (addresses w) (addresses w0) -> rename r v = rename r' w -> w = rename back v) l ->
    forall l', incl (flat_map addresses l') (addresses w0) -> map (rename r) l = map (rename r') l' -> l' = map (rename back) l).
  { intros l F. induction F as [|v l X F IH]; intros [|w l'] I E; try discriminate; [reflexivity|]. cbn in I, E. injection E as E1 E2. cbn. f_equal.
    - apply X; [|exact E1]. intros a Ia. apply I, in_or_app. now left.
    - apply IH; [|exact E2]. intros a Ia. apply I, in_or_app. now right. }
  induction v as [| |b|z|f|s|b|z|z|l IH|l IH|i v IH|l IH| |v IH| |v IH|a v IH] using val_ind'; intros w I E; destruct w; cbn [rename] in E; try discriminate E; try exact (eq_sym E); cbn [rename addresses] in *.
  - injection E as E. f_equal. now apply L.
  - injection E as E. f_equal. revert l0 I E. induction IH as [|[n v] l X F IHF]; intros [|[m w] l'] I E; try discriminate; [reflexivity|]. cbn in I, E, X. injection E as -> E1 E2. cbn. f_equal; [f_equal|].
    + apply X; [|exact E1]. intros a Ia. apply I, in_or_app. now left.
    + apply IHF; [|exact E2]. intros a Ia. apply I, in_or_app. now right.
  - injection E as -> E. f_equal. now apply IH.
  - injection E as E. f_equal. now apply L.
  - injection E as E. f_equal. now apply IH.
  - injection E as E. f_equal. now apply IH.
  - injection E as Ea E. f_equal; [symmetry; apply back_found; [apply I; now left|exact Ea]|]. apply IH; [|exact E]. intros x Ix. apply I. now right.
Qed.
End Inverse.

Lemma same_graph : forall r r' v w, distinct r v -> distinct r' w -> rename r v = rename r' w -> exists q, distinct q v /\ w = rename q v.
Proof.
  intros r r' v w D D' E. exists (back r r' w). split; [|apply (back_renames r r' w D' v w); [apply incl_refl|exact E]].
  assert (B : forall a, In a (addresses v) -> r' (back r r' w a) = r a).
  { intros a I. assert (M : In (r a) (map r' (addresses w))) by (rewrite <- addresses_renamed, <- E, addresses_renamed; now apply in_map).
    apply in_map_iff in M as (b & Eb & Ib). rewrite (back_found r r' w D' a b Ib (eq_sym Eb)). exact Eb. }
  intros a b Ia Ib H. apply D; auto. rewrite <- (B a Ia), <- (B b Ib). now rewrite H.
Qed.

(** Renaming forth. *)
Lemma renamed_document : forall e r t v, distinct r v ->
  match serialize_to_document e t v, serialize_to_document e t (rename r v) with
  | SOk _ j, SOk _ j' => j = j'
  | SFail _, SFail _ | SUndef, SUndef => True
  | _, _ => False
  end.
Proof.
  intros e r t v D. pose proof (proj1 (all_serialized e r (addresses v) D v) (incl_refl _) t [] []) as H. unfold serialize_to_document.
  assert (I : incl (map fst (@nil (nat * list segment))) (addresses v)) by (intros x []). specialize (H I). change (shift r []) with (@nil (nat * list segment)) in H.
  destruct (ser e v t [] []), (ser e (rename r v) t [] []); cbn in H; try contradiction; auto. destruct H as (-> & _). reflexivity.
Qed.

Lemma finite_renamed : forall r v, finite (rename r v) = finite v.
Proof.
  intros r. assert (L : forall (l : list val), Forall (fun v => finite (rename r v) = finite v) l -> forallb finite (map (rename r) l) = forallb finite l).
  { intros l F. induction F as [|v l E F IH]; [reflexivity|]. cbn. now rewrite E, IH. }
  induction v as [| |b|z|f|s|b|z|z|l IH|l IH|i v IH|l IH| |v IH| |v IH|a v IH] using val_ind'; cbn; auto.
  induction IH as [|p l E F IHF]; [reflexivity|]. cbn. now rewrite E, IHF.
Qed.
