(** The texts of deserialization errors fit the defects. *)
From Coq Require Import List Arith ZArith NArith Ascii String Bool Lia.
From Verif Require Import Base Decimal10 NumericModel NumericSpec Json PathModel PathSpec Types DeserializeModel DenoteSpec SameSpec TextSpec TextProof
  CulpritSpec CulpritProof ErrorModel ErrorSpec.
Import ListNotations.
Local Open Scope string_scope.

(** * Numerals *)

Lemma to_string_numeral : forall n, numeral (to_string n) n.
Proof.
  intros n. unfold numeral, to_string. rewrite list_ascii_of_string_of_list_ascii. split; [apply dec_integer_part|].
  rewrite digits_value_spec by apply digits_forallb, dec_digits. rewrite digits_val_dec. lia.
Qed.

Lemma numeral_one : forall d n, numeral d n -> d = to_string n.
Proof.
  intros d n [[[N D] Z] V]. rewrite digits_value_spec in V by exact D. unfold to_string. apply digits_forallb in D.
  assert (E : digits_val (list_ascii_of_string d) = N.of_nat n) by lia. rewrite <- E, dec_digits_val, string_of_list_ascii_of_string; auto.
  intros H. rewrite Z; [reflexivity|]. destruct (list_ascii_of_string d); [congruence|exact H].
Qed.

(** * Defects and what is said about them *)

Definition missing (e : env) (c : nat) (l : list (string * json)) (k : nat) (m : member) : Prop :=
  nth_error (c_members (class_of e c)) k = Some m /\ m_kind m = MRequired /\ find_member l (m_name m) = None.

Lemma defect_kinds : forall e t j pos ss u r why, defect e t j pos ss u r why ->
  wrong e u r why \/
  exists c l p k m, u = TClass c /\ r = JObj l /\ why = MissingProperty (m_name m) /\ missing e c l k m /\ pos = (p ++ [k])%list /\
    forall k' m', missing e c l k' m' -> defect e t j (p ++ [k'])%list ss (TClass c) (JObj l) (MissingProperty (m_name m')).
Proof.
  intros e t j pos ss u r why D. induction D as [t j why W|c l k m E K F|t t' js k j pos ss u r why T E D IH|t ts t' js k j pos ss u r why T E1 E2 D IH|
    o t l k n j pos ss u r why E D IH|c l k m j pos ss u r why E F D IH|t j pos ss u r why D IH|t j pos ss u r why D IH].
  - now left.
  - right. exists c, l, [], k, m. split; [reflexivity|]. split; [reflexivity|]. split; [reflexivity|]. split; [split; auto|]. split; [reflexivity|].
    intros k' m' (E' & K' & F'). now apply defect_missing.
  - destruct IH as [W|(c & l & p & k0 & m & -> & -> & -> & M & -> & A)]; [now left|right]. exists c, l, (k :: p), k0, m. repeat (split; [auto|]).
    intros k' m' M'. cbn [app]. eapply defect_element; eauto.
  - destruct IH as [W|(c & l & p & k0 & m & -> & -> & -> & M & -> & A)]; [now left|right]. exists c, l, (k :: p), k0, m. repeat (split; [auto|]).
    intros k' m' M'. cbn [app]. eapply defect_component; eauto.
  - destruct IH as [W|(c & l0 & p & k0 & m & -> & -> & -> & M & -> & A)]; [now left|right]. exists c, l0, (k :: p), k0, m. repeat (split; [auto|]).
    intros k' m' M'. cbn [app]. eapply defect_entry; eauto.
  - destruct IH as [W|(c0 & l0 & p & k0 & m0 & -> & -> & -> & M & -> & A)]; [now left|right]. exists c0, l0, (k :: p), k0, m0. repeat (split; [auto|]).
    intros k' m' M'. cbn [app]. eapply defect_member; eauto.
  - destruct IH as [W|(c & l & p & k0 & m & -> & -> & -> & M & -> & A)]; [now left|right]. exists c, l, p, k0, m. repeat (split; [auto|]).
    intros k' m' M'. eapply defect_unique; eauto.
  - destruct IH as [W|(c & l & p & k0 & m & -> & -> & -> & M & -> & A)]; [now left|right]. exists c, l, p, k0, m. repeat (split; [auto|]).
    intros k' m' M'. eapply defect_shared; eauto.
Qed.

Lemma wrong_says : forall e t j why, wrong e t j why -> says e t j (reason why).
Proof.
  intros e t j why W. destruct W as [t j N|k z R N|k z R N|s D|s D|s D|names s D|n u js L|a b js L|ts js L|ts j D]; cbn [reason].
  - now constructor.
  - destruct (is_signed k) eqn:S; [eapply says_signed|eapply says_unsigned]; eauto.
  - destruct (is_signed k) eqn:S; [eapply says_signed|eapply says_unsigned]; eauto.
  - now constructor.
  - now constructor.
  - now constructor.
  - now constructor.
  - apply (says_length e (TArray n u) n); auto using to_string_numeral.
  - apply (says_length e (TPair a b) 2); auto using to_string_numeral.
  - apply (says_length e (TTuple ts) (List.length ts)); auto using to_string_numeral.
  - now constructor.
Qed.

Lemma before_last : forall p k k', before (p ++ [k])%list (p ++ [k'])%list -> k < k'.
Proof.
  intros p k k'. induction p as [|x p IH]; cbn [app]; intros B; inversion B; subst; try lia.
  match goal with H : before [] [] |- _ => inversion H end.
Qed.

Lemma culprit_says : forall e t j ss u r why, culprit e t j ss u r why -> says e u r (reason why).
Proof.
  intros e t j ss u r why (pos & D & First). destruct (defect_kinds _ _ _ _ _ _ _ _ D) as [W|(c & l & p & k & m & -> & -> & -> & (E & K & F) & -> & A)]; [now apply wrong_says|].
  destruct (nth_error_split _ _ E) as (before_ & after_ & Eq & L). cbn [reason]. eapply says_missing; [exact Eq|exact K|exact F|].
  apply Forall_forall. intros b Ib Kb Fb. apply In_nth_error in Ib as [k' Ek'].
  assert (Lt : k' < List.length before_) by (apply nth_error_Some; congruence).
  assert (M : missing e c l k' b) by (split; [rewrite Eq, nth_error_app1 by exact Lt; exact Ek'|auto]).
  destruct (First _ _ _ _ _ (A k' b M)) as [X|X].
  - apply app_inj_tail in X as [_ X]. lia.
  - apply before_last in X. lia.
Qed.

(** * One sentence for every value *)

Lemma first_one : forall A (P : A -> Prop) l l' x x' r r', (l ++ x :: r = l' ++ x' :: r')%list -> P x -> P x' ->
  Forall (fun y => ~ P y) l -> Forall (fun y => ~ P y) l' -> x = x'.
Proof.
  intros A P l. induction l as [|y l IH]; intros [|y' l'] x x' r r' E Px Px' F F'; cbn [app] in E; injection E as -> E.
  - reflexivity.
  - inversion F'; contradiction.
  - inversion F; contradiction.
  - inversion F; inversion F'; subst. eapply IH; eauto.
Qed.

Ltac either := match goal with H : _ = TInt _ \/ _ = TEnumInt _ |- _ => destruct H as [H|H]; (discriminate H || (inversion H; subst) || subst) end.

Lemma says_one : forall e t j m m', says e t j m -> says e t j m' -> m = m'.
Proof.
  intros e t j m m' A. destruct A as [t j N|t k z T S R N|t k z T S R N|s D|s D|s D|names s D|t n js dn dl T L Nn Nl|c l b x a E K F B|ts j D]; intros Q.
  - inversion Q; subst; try reflexivity; exfalso; apply N; try exact I.
    + either; assumption.
    + either; assumption.
    + destruct t; try contradiction; exact I.
  - destruct T as [-> | ->]; inversion Q; subst; try reflexivity; try contradiction.
    all: either; congruence.
  - destruct T as [-> | ->]; inversion Q; subst; try reflexivity; try contradiction.
    all: either; congruence.
  - inversion Q; subst; try reflexivity. now elim H.
  - inversion Q; subst; try reflexivity. now elim H.
  - inversion Q; subst; try reflexivity. now elim H.
  - inversion Q; subst; try reflexivity. now elim H.
  - apply numeral_one in Nn, Nl. subst dn dl. inversion Q; subst.
    + exfalso. apply H. destruct t; try contradiction; exact I.
    + repeat match goal with H : numeral _ _ |- _ => apply numeral_one in H; subst end. destruct t; try contradiction; subst; reflexivity.
    + contradiction.
  - inversion Q; subst; [now elim H|]. do 2 f_equal.
    match goal with X : c_members _ = _, Y : Forall _ _ |- _ => rename X into E'; rename Y into B' end. rewrite E in E'. refine (first_one _ (fun y => m_kind y = MRequired /\ find_member l (m_name y) = None) _ _ _ _ _ _ E' _ _ _ _); auto.
    + eapply Forall_impl; [|exact B]. intros y Hy [K' F']. now apply Hy.
    + eapply Forall_impl; [|exact B']. intros y Hy [K' F']. now apply Hy.
  - inversion Q; subst; try reflexivity; try contradiction; [now elim H|either..].
Qed.

Lemma says_denies : forall e t j m, real_ints t = true -> says e t j m -> denies e t j.
Proof.
  intros e t j m W A old v D. destruct A as [t j N|t k z T S R N|t k z T S R N|s X|s X|s X|names s X|t n js dn dl T L Nn Nl|c l b x a E K F B|ts j X].
  - now apply (wrong_denies e t j _ old v W (wrong_kind e t j N)).
  - destruct T as [-> | ->]; [apply (wrong_denies e _ _ _ old v W (wrong_int e k z R N) D)|apply (wrong_denies e _ _ _ old v W (wrong_enum_int e k z R N) D)].
  - destruct T as [-> | ->]; [apply (wrong_denies e _ _ _ old v W (wrong_int e k z R N) D)|apply (wrong_denies e _ _ _ old v W (wrong_enum_int e k z R N) D)].
  - exact (X old v D).
  - exact (X old v D).
  - exact (X old v D).
  - exact (X old v D).
  - destruct t; try contradiction; subst n.
    + exact (wrong_denies e _ _ _ old v W (wrong_length e _ _ js L) D).
    + exact (wrong_denies e _ _ _ old v W (wrong_pair e _ _ js L) D).
    + exact (wrong_denies e _ _ _ old v W (wrong_tuple e _ js L) D).
  - refine (missing_denies e c l (List.length b) x old v _ K F D). rewrite E, nth_error_app2, Nat.sub_diag by lia. reflexivity.
  - exact (wrong_denies e _ _ _ old v W (wrong_variant e ts j X) D).
Qed.
