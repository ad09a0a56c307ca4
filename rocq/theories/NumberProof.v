(** Number literals are read exactly. *)
From Coq Require Import List Arith ZArith NArith Ascii String Bool Lia.
From Verif Require Import Base Float NumericModel NumericSpec TextSpec NumberModel NumberSpec.
Import ListNotations.
Local Open Scope Z_scope.

Definition is_digit (c : ascii) : bool := let n := Z.of_N (N_of_ascii c) in (48 <=? n) && (n <=? 57).
Definition value_of (c : ascii) : Z := Z.of_N (N_of_ascii c) - 48.

Lemma digit_iff : forall c d, digit_value c d <-> is_digit c = true /\ d = value_of c.
Proof. intros c d. unfold digit_value, is_digit, value_of. rewrite andb_true_iff, !Z.leb_le. lia. Qed.

Lemma leading_cons : forall c l acc, leading_digits (c :: l) acc = if is_digit c then leading_digits l (10 * acc + value_of c) else (acc, c :: l).
Proof. reflexivity. Qed.

(** The digits that are read. *)
Lemma leading_split : forall l acc n rest, leading_digits l acc = (n, rest) -> exists ds, l = ds ++ rest /\ Forall (fun c => is_digit c = true) ds /\
  n = fold_left (fun a c => 10 * a + value_of c) ds acc /\ match rest with c :: _ => is_digit c = false | [] => True end.
Proof.
  induction l as [|c l IH]; intros acc n rest E.
  - injection E as <- <-. exists []. auto.
  - rewrite leading_cons in E. destruct (is_digit c) eqn:D.
    + destruct (IH _ _ _ E) as (ds & -> & F & N & R). exists (c :: ds). auto.
    + injection E as <- <-. exists []. auto.
Qed.

Lemma decimal_digits : forall l n, decimal l n <-> l <> [] /\ Forall (fun c => is_digit c = true) l /\ n = fold_left (fun a c => 10 * a + value_of c) l 0.
Proof.
  intros l n. split.
  - intros H. induction H as [c d H|l n c d D IH H].
    + apply digit_iff in H. destruct H as [A ->]. split; [|split]; [discriminate|constructor; [exact A|constructor]|]. cbn [fold_left]. lia.
    + apply digit_iff in H. destruct H as [A ->]. destruct IH as (N & F & ->). split; [|split]; [now destruct l|apply Forall_app; auto|]. now rewrite fold_left_app.
  - revert n. induction l as [|c l IH] using rev_ind; intros n (N & F & E); [contradiction|]. apply Forall_app in F. destruct F as [F1 F2]. inversion F2; subst.
    rewrite fold_left_app. cbn [fold_left]. destruct l as [|a l].
    + cbn. constructor. apply digit_iff. split; [assumption|reflexivity].
    + constructor; [|now apply digit_iff]. apply IH. split; [|split]; [discriminate|assumption|reflexivity].
Qed.

Lemma digits_app : forall ds rest acc, Forall (fun c => is_digit c = true) ds -> match rest with c :: _ => is_digit c = false | [] => True end ->
  leading_digits (ds ++ rest) acc = (fold_left (fun a c => 10 * a + value_of c) ds acc, rest).
Proof.
  induction ds as [|c ds IH]; intros rest acc F R; cbn [app fold_left].
  - destruct rest as [|c rest]; [reflexivity|]. now rewrite leading_cons, R.
  - inversion F; subst. rewrite leading_cons. rewrite H1. now apply IH.
Qed.

Lemma minus_not_digit : is_digit "-" = false. Proof. reflexivity. Qed.

Lemma range_iff : forall k z, (tmin k <=? z) && (z <=? tmax k) = true <-> in_range k z.
Proof. intros k z. rewrite andb_true_iff, !Z.leb_le. unfold in_range, tmin, tmax. destruct (is_signed k); lia. Qed.

(** The three outcomes of std::from_chars. *)
Definition no_numeral (signed : bool) (l : list ascii) : Prop := forall p rest z, l = p ++ rest -> ~ integer_numeral signed p z.

Lemma from_chars_cases : forall k l v,
  (from_chars k l v = (EInvalid, v, l) /\ no_numeral (is_signed k) l) \/
  exists p rest z, l = p ++ rest /\ integer_numeral (is_signed k) p z /\ (match rest with c :: _ => is_digit c = false | [] => True end) /\
    ((in_range k z /\ from_chars k l v = (ENone, z, rest)) \/ (~ in_range k z /\ from_chars k l v = (ERange, v, rest))).
Proof.
  intros k l v.
  set (neg := match l with c :: _ => is_signed k && Ascii.eqb c "-" | [] => false end).
  set (digits := if neg then tl l else l).
  assert (E : from_chars k l v = let '(n, rest) := leading_digits digits 0 in
    if Nat.eqb (List.length rest) (List.length digits) then (EInvalid, v, l)
    else let z := if neg then - n else n in if (tmin k <=? z) && (z <=? tmax k) then (ENone, z, rest) else (ERange, v, rest)).
  { unfold from_chars, digits, neg. destruct l as [|c l]; [reflexivity|]. destruct (is_signed k && Ascii.eqb c "-"); reflexivity. }
  assert (L : l = (if neg then ["-"%char] else []) ++ digits).
  { unfold digits, neg. destruct l as [|c l]; [reflexivity|]. destruct (is_signed k && Ascii.eqb c "-") eqn:N; [|reflexivity]. apply andb_true_iff in N. destruct N as [_ N]. apply Ascii.eqb_eq in N. now subst. }
  assert (Sg : neg = true -> is_signed k = true).
  { unfold neg. destruct l; [discriminate|]. intros H. now apply andb_true_iff in H. }
  assert (Np : neg = false -> is_signed k = true -> forall r, l <> "-"%char :: r).
  { unfold neg. intros H S r ->. rewrite S in H. discriminate. }
  clearbody digits neg. rewrite E. clear E. destruct (leading_digits digits 0) as [n rest] eqn:Ld. destruct (leading_split _ _ _ _ Ld) as (ds & Eds & F & En & R).
  destruct (Nat.eqb_spec (List.length rest) (List.length digits)) as [Le|Le].
  - left. split; [reflexivity|]. intros p r z Ep H. assert (ds = []) by (rewrite Eds, app_length in Le; destruct ds; [reflexivity|cbn in Le; lia]). subst ds. cbn in Eds. subst rest.
    assert (X : forall q r z, digits = q ++ r -> ~ decimal q z).
    { intros q r' z' Eq D. apply decimal_digits in D. destruct D as (Nq & Fq & _). destruct q as [|c q]; [contradiction|]. cbn in Eq. rewrite Eq in R. inversion Fq; subst. congruence. }
    rewrite Ep in L. inversion H; subst.
    + destruct neg; [|exact (X _ _ _ (eq_sym L) H0)]. apply decimal_digits in H0. destruct H0 as (Nq & Fq & _). destruct p as [|c p]; [contradiction|]. injection L as -> L. inversion Fq; subst. discriminate.
    + destruct neg eqn:Ng; [|exact (Np eq_refl H0 _ eq_refl)]. cbn in L. injection L as L. exact (X _ _ _ (eq_sym L) H1).
  - right. assert (Nd : ds <> []) by (intros ->; apply Le; now rewrite Eds). assert (Dn : decimal ds n) by (apply decimal_digits; auto).
    exists ((if neg then ["-"%char] else []) ++ ds), rest, (if neg then - n else n). split; [rewrite L at 1; rewrite Eds; apply app_assoc|]. split; [|split; [exact R|]].
    + destruct neg; [apply numeral_minus; auto|apply numeral_plain; auto].
    + cbv zeta. destruct ((tmin k <=? _) && _) eqn:Rg; [left|right]; (split; [|reflexivity]); [now apply range_iff|]. intros C. apply range_iff in C. congruence.
Qed.

Lemma numeral_shape : forall s p z, integer_numeral s p z -> exists ds, (p = ds \/ p = "-"%char :: ds) /\ ds <> [] /\ Forall (fun c => is_digit c = true) ds.
Proof. intros s p z H. inversion H; subst; apply decimal_digits in H0 || apply decimal_digits in H1; eexists; (split; [eauto|tauto]). Qed.

(** A numeral is the longest one at the beginning of the text. *)
Lemma longest : forall s l p rest z p' rest' z', l = p ++ rest -> l = p' ++ rest' -> integer_numeral s p z -> integer_numeral s p' z' ->
  match rest with c :: _ => is_digit c = false | [] => True end -> match rest' with c :: _ => is_digit c = false | [] => True end -> p = p' /\ rest = rest' /\ z = z'.
Proof.
  intros s l p rest z p' rest' z' E E' H H' R R'.
  assert (D : forall ds ds', Forall (fun c => is_digit c = true) ds -> Forall (fun c => is_digit c = true) ds' -> ds ++ rest = ds' ++ rest' -> ds = ds' /\ rest = rest').
  { intros ds ds' F F' X. assert (A := digits_app ds rest 0 F R). rewrite X, (digits_app ds' rest' 0 F' R') in A. injection A as _ A. subst rest'. split; [|reflexivity]. now apply app_inv_tail in X. }
  assert (Nd : forall q, Forall (fun c => is_digit c = true) ("-"%char :: q) -> False) by (intros q F; inversion F; subst; discriminate).
  rewrite E in E'.
  assert (Q : p = p' /\ rest = rest').
  { inversion H as [? ? A|? ? S A]; subst; inversion H' as [? ? A'|? ? S' A']; subst; apply decimal_digits in A, A'; destruct A as (N & F & _), A' as (N' & F' & _).
    - now apply D.
    - destruct p as [|c p]; [contradiction|]. cbn in E'. injection E' as -> E'. destruct (Nd _ F).
    - destruct p' as [|c p']; [contradiction|]. cbn in E'. injection E' as <- E'. destruct (Nd _ F').
    - cbn in E'. injection E' as E'. destruct (D _ _ F F' E') as [-> ->]. auto. }
  destruct Q as [-> ->]. split; [reflexivity|]. split; [reflexivity|].
  inversion H as [? ? A|? ? S A]; subst; inversion H' as [? ? A'|? ? S' A']; subst; apply decimal_digits in A, A'; destruct A as (N & F & ->), A' as (N' & F' & ->); try reflexivity;
    [destruct (Nd _ F)|destruct (Nd _ F')].
Qed.

Lemma parse_integer_iff : forall k l v z, (exists w, parse_integer k l v = (true, w) /\ w = z) <-> integer_numeral (is_signed k) l z /\ in_range k z.
Proof.
  intros k l v z. unfold parse_integer. destruct (from_chars_cases k l v) as [(-> & N)|(p & rest & y & E & H & R & [(Rg & ->)|(Rg & ->)])].
  - split; [intros (w & A & _); discriminate A|]. intros [H _]. destruct (N l [] z (eq_sym (app_nil_r l)) H).
  - split.
    + intros (w & A & ->). destruct rest; [|discriminate A]. injection A as <-. rewrite app_nil_r in E. subst p. auto.
    + intros [H' Rg']. destruct (longest _ l p rest y l [] z E (eq_sym (app_nil_r l)) H H' R I) as (_ & -> & ->). eauto.
  - split; [intros (w & A & _); discriminate A|]. intros [H' Rg'].
    destruct (longest _ l p rest y l [] z E (eq_sym (app_nil_r l)) H H' R I) as (_ & _ & ->). contradiction.
Qed.

Lemma parse_integer_false : forall k l v w, parse_integer k l v = (false, w) ->
  w = v \/ exists p c rest, l = p ++ c :: rest /\ integer_numeral (is_signed k) p w /\ in_range k w /\ is_digit c = false.
Proof.
  intros k l v w. unfold parse_integer. destruct (from_chars_cases k l v) as [(-> & N)|(p & rest & y & E & H & R & [(Rg & ->)|(Rg & ->)])]; intros A.
  - injection A as <-. now left.
  - destruct rest as [|c rest]; [discriminate A|]. injection A as <-. right. exists p, c, rest. auto.
  - injection A as <-. now left.
Qed.

(** * Literals of JSON *)

Lemma code_N : forall c, code c = Z.of_N (N_of_ascii c).
Proof. intros c. unfold code, nat_of_ascii. apply N_nat_Z. Qed.

Lemma digit_code : forall c, digit c <-> is_digit c = true.
Proof. intros c. unfold digit, is_digit. rewrite code_N, andb_true_iff, !Z.leb_le. lia. Qed.

Lemma digits_fold : forall ds acc, digits_value acc ds = fold_left (fun a c => 10 * a + value_of c) ds acc.
Proof. induction ds as [|c ds IH]; intros acc; [reflexivity|]. cbn [digits_value fold_left]. rewrite IH, code_N. reflexivity. Qed.

Lemma integer_is_numeral : forall s z, integer s z -> integer_numeral true s z.
Proof.
  assert (D : forall ds, integer_part ds -> decimal ds (digits_value 0 ds)).
  { intros ds [[N F] _]. apply decimal_digits. split; [exact N|]. split; [|apply digits_fold]. eapply Forall_impl; [|exact F]. intros c. apply digit_code. }
  intros s z [ds H|ds H]; [apply numeral_plain|apply numeral_minus; [reflexivity|]]; auto.
Qed.

Lemma numeral_is_integer : forall s z, number s -> integer_numeral true s z -> integer s z.
Proof.
  intros s z (sign & ds & frac & ex & Sg & Ip & Fr & Ex & E) H.
  assert (All : Forall (fun c => is_digit c = true \/ c = "-"%char) s).
  { inversion H as [l n D|l n _ D]; subst l || subst s; apply decimal_digits in D; destruct D as (_ & F & _); [|constructor; [now right|]]; (eapply Forall_impl; [|exact F]); auto. }
  assert (Dot : forall c, In c s -> is_digit c = false -> c = "-"%char).
  { intros c I D. rewrite Forall_forall in All. destruct (All c I); congruence. }
  assert (frac = []).
  { destruct Fr as [->|(fs & _ & ->)]; [reflexivity|]. discriminate (Dot "."%char); [|reflexivity]. rewrite E, !in_app_iff. right. right. left. now left. }
  assert (ex = []).
  { destruct Ex as [->|(c & sg & es & Ic & _ & _ & ->)]; [reflexivity|]. exfalso. assert (Y : In c s) by (rewrite E, !in_app_iff; right; right; right; now left).
    destruct Ic as [<-|[<-|[]]]; discriminate (Dot _ Y eq_refl). }
  subst frac ex. rewrite !app_nil_r in E.
  assert (Q : exists z', integer s z') by (destruct Sg as [<-|[<-|[]]]; cbn in E; subst s; eexists; constructor; exact Ip).
  destruct Q as (z' & Q). assert (Q' := integer_is_numeral _ _ Q).
  destruct (longest true s s [] z s [] z' (eq_sym (app_nil_r s)) (eq_sym (app_nil_r s)) H Q' I I) as (_ & _ & ->). exact Q.
Qed.
