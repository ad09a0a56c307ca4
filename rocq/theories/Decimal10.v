(** Decimal numerals: model of std::to_chars / std::from_chars on non-negative
    numbers, with the facts used about them. *)
From Coq Require Import List Arith NArith Ascii String Bool Lia ZifyBool ZifyNat ZifyN ZArith.
From Verif Require Import Base.
Import ListNotations.
Local Open Scope N_scope.

Ltac Zify.zify_post_hook ::= Z.div_mod_to_equations.

Definition digit_char (d : N) : ascii := ascii_of_N (48 + d).

Definition is_digit (c : ascii) : bool := (48 <=? N_of_ascii c) && (N_of_ascii c <=? 57).

Definition digit_val (c : ascii) : N := N_of_ascii c - 48.

(** Digits of [n], most significant first, put in front of [acc]. *)
Fixpoint dec_aux (fuel : nat) (n : N) (acc : list ascii) : list ascii :=
  match fuel with
  | O => acc
  | S f => if n <? 10 then digit_char n :: acc
           else dec_aux f (n / 10) (digit_char (n mod 10) :: acc)
  end.

(** The shortest decimal numeral of [n]. *)
Definition dec (n : N) : list ascii := dec_aux (S (N.size_nat n)) n [].

(** Decimal numeral of an integer, with a minus sign. *)
Definition decZ (z : Z) : list ascii :=
  match z with
  | Zneg p => "-"%char :: dec (Npos p)
  | _ => dec (Z.to_N z)
  end.

(** Value of a list of digit characters. *)
Definition digits_val (ds : list ascii) : N := fold_left (fun a c => 10 * a + digit_val c) ds 0.

(** Read a numeral made of digits only, at least one. *)
Definition undec (ds : list ascii) : option N :=
  match ds with
  | [] => None
  | _ => if forallb is_digit ds then Some (digits_val ds) else None
  end.

Lemma digit_char_small : forall d, d < 10 ->
  is_digit (digit_char d) = true /\ digit_val (digit_char d) = d.
Proof.
  intros d H. unfold is_digit, digit_val, digit_char.
  rewrite N_ascii_embedding by lia. split; [|lia].
  apply andb_true_iff. split; apply N.leb_le; lia.
Qed.

Lemma is_digit_char : forall c, is_digit c = true -> digit_val c < 10 /\ c = digit_char (digit_val c).
Proof.
  intros c H. unfold is_digit in H. apply andb_true_iff in H. destruct H as [H1 H2].
  apply N.leb_le in H1, H2. unfold digit_val, digit_char. split; [lia|].
  replace (48 + (N_of_ascii c - 48)) with (N_of_ascii c) by lia.
  symmetry. apply ascii_N_embedding.
Qed.

Lemma digit_char_inj : forall d e, d < 10 -> e < 10 -> digit_char d = digit_char e -> d = e.
Proof.
  intros d e Hd He H. apply (f_equal digit_val) in H.
  rewrite (proj2 (digit_char_small d Hd)), (proj2 (digit_char_small e He)) in H. exact H.
Qed.

(** Induction by dropping the last digit. *)
Lemma size_div10 : forall n, 10 <= n -> (S (N.size_nat (n / 10)) <= N.size_nat n)%nat.
Proof.
  intros n H.
  assert (N.size (n / 10) + 1 <= N.size n)%N as HS.
  { destruct (N.eq_dec (n / 10) 0) as [E|E].
    - rewrite E. cbn [N.size]. assert (n <> 0) by lia.
      rewrite (N.size_log2 n) by assumption. lia.
    - rewrite !N.size_log2 by (try assumption; lia).
      assert (N.log2 (n / 10) + 1 <= N.log2 n); [|lia].
      apply N.log2_le_pow2; [lia|]. rewrite N.pow_add_r. change (2 ^ 1) with 2.
      pose proof (N.log2_spec (n / 10) ltac:(lia)). 
      apply N.le_trans with (n / 10 * 2); [|lia]. apply N.mul_le_mono_r. lia. }
  assert (forall m, N.of_nat (N.size_nat m) = N.size m) as HE.
  { intros [|p]; [reflexivity|]. cbn [N.size_nat N.size].
    induction p; cbn [Pos.size_nat Pos.size]; lia. }
  rewrite <- !HE in HS. lia.
Qed.

Lemma dec_aux_app : forall fuel n acc, dec_aux fuel n acc = dec_aux fuel n [] ++ acc.
Proof.
  induction fuel as [|f IH]; intros n acc; [reflexivity|].
  cbn [dec_aux]. destruct (n <? 10); [reflexivity|].
  rewrite IH. rewrite (IH _ [_]). rewrite <- app_assoc. reflexivity.
Qed.

Lemma dec_aux_fuel : forall f1 f2 n acc,
  (S (N.size_nat n) <= f1)%nat -> (S (N.size_nat n) <= f2)%nat ->
  dec_aux f1 n acc = dec_aux f2 n acc.
Proof.
  induction f1 as [|f1 IH]; intros f2 n acc H1 H2; [lia|].
  destruct f2 as [|f2]; [lia|]. cbn [dec_aux].
  destruct (N.ltb_spec n 10) as [H|H]; [reflexivity|].
  pose proof (size_div10 n H). apply IH; lia.
Qed.

Lemma dec_small : forall n, n < 10 -> dec n = [digit_char n].
Proof.
  intros n H. unfold dec. cbn [dec_aux]. apply N.ltb_lt in H. rewrite H. reflexivity.
Qed.

Lemma dec_big : forall n, 10 <= n -> dec n = dec (n / 10) ++ [digit_char (n mod 10)].
Proof.
  intros n H. unfold dec at 1. cbn [dec_aux].
  replace (n <? 10) with false by (symmetry; apply N.ltb_ge; lia).
  rewrite dec_aux_app. f_equal. pose proof (size_div10 n H).
  apply dec_aux_fuel; lia.
Qed.

Lemma dec_ind : forall P : N -> Prop,
  (forall n, n < 10 -> P n) -> (forall n, 10 <= n -> P (n / 10) -> P n) -> forall n, P n.
Proof.
  intros P H1 H2 n. induction n as [n IH] using (well_founded_induction N.lt_wf_0).
  destruct (N.lt_ge_cases n 10) as [H|H]; [auto|].
  apply H2; [assumption|]. apply IH. apply N.div_lt; lia.
Qed.

Lemma dec_digits : forall n, forallb is_digit (dec n) = true.
Proof.
  induction n as [n H|n H IH] using dec_ind.
  - rewrite dec_small by assumption. cbn. rewrite andb_true_r. now apply digit_char_small.
  - rewrite dec_big by assumption. rewrite forallb_app, IH. cbn. rewrite andb_true_r.
    apply digit_char_small. apply N.mod_lt. lia.
Qed.

Lemma dec_nonempty : forall n, dec n <> [].
Proof.
  intros n. destruct (N.lt_ge_cases n 10) as [H|H].
  - rewrite dec_small by assumption. discriminate.
  - rewrite dec_big by assumption. destruct (dec (n / 10)); discriminate.
Qed.

Lemma digits_val_app : forall ds c, digits_val (ds ++ [c]) = 10 * digits_val ds + digit_val c.
Proof. intros. unfold digits_val. rewrite fold_left_app. reflexivity. Qed.

Lemma digits_val_dec : forall n, digits_val (dec n) = n.
Proof.
  induction n as [n H|n H IH] using dec_ind.
  - rewrite dec_small by assumption. cbn [digits_val fold_left].
    unfold digits_val; cbn [fold_left]. rewrite (proj2 (digit_char_small n H)). lia.
  - rewrite dec_big by assumption. rewrite digits_val_app, IH.
    rewrite (proj2 (digit_char_small (n mod 10) ltac:(apply N.mod_lt; lia))).
    pose proof (N.div_mod n 10). lia.
Qed.

Lemma undec_dec : forall n, undec (dec n) = Some n.
Proof.
  intros n. unfold undec. destruct (dec n) eqn:E; [now apply dec_nonempty in E|].
  rewrite <- E, dec_digits, digits_val_dec. reflexivity.
Qed.

Lemma dec_inj : forall n m, dec n = dec m -> n = m.
Proof. intros n m H. apply (f_equal digits_val) in H. now rewrite !digits_val_dec in H. Qed.

(** Numerals without leading zero are unique. *)
Lemma dec_digits_val : forall ds, ds <> [] -> forallb is_digit ds = true ->
  (hd Ascii.zero ds = "0"%char -> List.length ds = 1%nat) ->
  dec (digits_val ds) = ds.
Proof.
  intros ds. induction ds as [|c ds IH] using rev_ind; [congruence|].
  intros _ HD HZ. rewrite forallb_app in HD. apply andb_true_iff in HD. destruct HD as [HD HC].
  cbn in HC. rewrite andb_true_r in HC. destruct (is_digit_char c HC) as [Hc Ec].
  rewrite digits_val_app. destruct ds as [|d ds].
  - cbn [app]. unfold digits_val; cbn [fold_left].
    rewrite dec_small by lia. rewrite Ec at 2. do 2 f_equal.
  - assert (dec (digits_val (d :: ds)) = d :: ds) as IH'.
    { apply IH; [discriminate|assumption|]. intros Hd. cbn [hd] in Hd. cbn [app hd] in HZ.
      specialize (HZ Hd). rewrite <- Hd in *. cbn [app List.length] in HZ. rewrite app_length in HZ. cbn in HZ. lia. }
    assert (0 < digits_val (d :: ds)).
    { destruct (N.eq_0_gt_0_cases (digits_val (d :: ds))) as [E|E]; [|exact E].
      rewrite E in IH'. rewrite dec_small in IH' by lia. injection IH' as E1 E2.
      subst d ds. cbn [app hd] in HZ. specialize (HZ eq_refl). discriminate HZ. }
    rewrite dec_big by lia.
    replace ((10 * digits_val (d :: ds) + digit_val c) / 10) with (digits_val (d :: ds)).
    2:{ apply N.div_unique with (digit_val c); lia. }
    replace ((10 * digits_val (d :: ds) + digit_val c) mod 10) with (digit_val c).
    2:{ apply N.mod_unique with (digits_val (d :: ds)); lia. }
    rewrite IH', <- Ec. reflexivity.
Qed.

Lemma dec_no_leading_zero : forall n, hd Ascii.zero (dec n) = "0"%char -> n = 0.
Proof.
  induction n as [n H|n H IH] using dec_ind.
  - rewrite dec_small by assumption. cbn [hd]. intros E.
    apply (digit_char_inj n 0); [assumption|lia|exact E].
  - rewrite dec_big by assumption. intros E.
    destruct (dec (n / 10)) as [|c l] eqn:Ed; [now apply dec_nonempty in Ed|].
    cbn [app hd] in *. specialize (IH E).
    assert (1 <= n / 10) by (apply N.div_le_lower_bound; lia). lia.
Qed.

Lemma digits_val_bound : forall ds, forallb is_digit ds = true ->
  digits_val ds < 10 ^ N.of_nat (List.length ds).
Proof.
  induction ds as [|c ds IH] using rev_ind; intros H; [reflexivity|].
  rewrite forallb_app in H. apply andb_true_iff in H. destruct H as [H HC].
  cbn in HC. rewrite andb_true_r in HC. destruct (is_digit_char c HC) as [Hc _].
  rewrite digits_val_app, app_length. cbn [List.length].
  replace (N.of_nat (List.length ds + 1)) with (N.succ (N.of_nat (List.length ds))) by lia.
  rewrite N.pow_succ_r'. specialize (IH H). lia.
Qed.

(** Length of a numeral. *)
Lemma dec_length_le : forall k n, n < 10 ^ N.of_nat (S k) -> (List.length (dec n) <= S k)%nat.
Proof.
  induction k as [|k IH]; intros n H.
  - change (10 ^ N.of_nat 1) with 10 in H. rewrite dec_small by assumption. cbn. lia.
  - destruct (N.lt_ge_cases n 10) as [H1|H1].
    + rewrite dec_small by assumption. cbn. lia.
    + rewrite dec_big, app_length by assumption. cbn [List.length].
      assert (List.length (dec (n / 10)) <= S k)%nat; [|lia].
      apply IH. apply N.div_lt_upper_bound; [lia|].
      replace (N.of_nat (S (S k))) with (N.succ (N.of_nat (S k))) in H by lia.
      rewrite N.pow_succ_r' in H. exact H.
Qed.

Lemma dec_length_lower : forall k n, 10 ^ N.of_nat k <= n -> (S k <= List.length (dec n))%nat.
Proof.
  intros k n H.
  destruct (le_lt_dec (S k) (List.length (dec n))) as [|Hl]; [assumption|].
  pose proof (digits_val_bound (dec n) (dec_digits n)) as HB.
  rewrite digits_val_dec in HB.
  assert (10 ^ N.of_nat (List.length (dec n)) <= 10 ^ N.of_nat k) by (apply N.pow_le_mono_r; lia).
  lia.
Qed.
