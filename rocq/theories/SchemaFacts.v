(** Facts about the formats and the equality of JSON Schema. *)
From Coq Require Import List Arith ZArith NArith Ascii String Bool Lia ZifyBool ZifyN Permutation Sorted.
From Verif Require Import Base Float FloatFacts NumericModel NumericSpec Base64Model Base64Spec Base64Proof Base64Decode DatetimeModel DatetimeSpec DatetimeProof
  EnumModel Json Types DenoteSpec RoundSpec DocSpec PathModel PathSpec MapFacts DenoteProof RoundProof MergeFacts GraphSpec SchemaSpec.
Import ListNotations.
Local Open Scope Z_scope.

(** * Dates and times *)

Lemma digit_dig : forall v, 0 <= v < 10 -> digit (dig v) = Some v.
Proof.
  intros v H. assert (In v [0; 1; 2; 3; 4; 5; 6; 7; 8; 9]) as I by (cbn; lia).
  cbn in I. repeat (destruct I as [<-|I]; [reflexivity|]). destruct I.
Qed.

Lemma digits_pad2 : forall v, 0 <= v <= 99 -> digits (pad2 v) 0 = Some v.
Proof. intros v H. unfold pad2. cbn [digits]. rewrite !digit_dig by lia. f_equal. lia. Qed.

Lemma digits_pad4 : forall v, 0 <= v <= 9999 -> digits (pad4 v) 0 = Some v.
Proof. intros v H. unfold pad4. cbn [digits]. rewrite !digit_dig by lia. f_equal. lia. Qed.

Lemma month_lengths : forall y m, days_in_month y m = month_days y m.
Proof.
  intros y m. unfold days_in_month, month_days, leapb. destruct (m =? 2) eqn:E.
  - destruct (y mod 400 =? 0) eqn:A, (y mod 100 =? 0) eqn:B, (y mod 4 =? 0) eqn:C; cbn; try reflexivity; exfalso; lia.
  - cbn [existsb]. rewrite orb_false_r, !orb_assoc. reflexivity.
Qed.

Lemma field_pad2 : forall v lo hi, 0 <= v <= 99 -> lo <= v <= hi -> field (dig (v / 10 mod 10)) (dig (v mod 10)) lo hi = true.
Proof. intros v lo hi H B. unfold field. change [_; _] with (pad2 v). rewrite digits_pad2 by assumption. lia. Qed.

Lemma date_is_full_date : forall y m d, year_ok y -> date_ok y m d -> full_date (date_text y m d) = true.
Proof.
  intros y m d Y [M D]. pose proof (month_days_le y m) as L. unfold date_text, pad4, pad2, full_date. cbn [app].
  rewrite field_pad2 by lia. change [dig (m / 10 mod 10); dig (m mod 10)] with (pad2 m).
  change [dig (y / 1000 mod 10); dig (y / 100 mod 10); dig (y / 10 mod 10); dig (y mod 10)] with (pad4 y).
  unfold year_ok in Y. rewrite digits_pad4, digits_pad2, field_pad2 by (rewrite ?month_lengths; lia). reflexivity.
Qed.

Lemma time_is_date_time : forall y m d hh mi ss, year_ok y -> date_ok y m d -> time_ok hh mi ss -> date_time (iso_text "T" y m d hh mi ss) = true.
Proof.
  intros y m d hh mi ss Y D (H & M & S). unfold date_time, iso_text. rewrite firstn_app. replace (List.length (date_text y m d)) with 10%nat by reflexivity.
  rewrite firstn_all2 by (cbn; lia). replace (10 - 10)%nat with 0%nat by lia. cbn [firstn]. rewrite app_nil_r, date_is_full_date by auto.
  rewrite skipn_app. replace (List.length (date_text y m d)) with 10%nat by reflexivity. rewrite skipn_all2 by (cbn; lia).
  cbn [Nat.sub skipn app pad2 full_time offset]. rewrite !field_pad2 by lia. reflexivity.
Qed.

(** * Base64 *)

Lemma sextet_char : forall a b c d f g, base64_char (A6 [a; b; c; d; f; g]) = true.
Proof. intros [] [] [] [] [] []; reflexivity. Qed.

Lemma rfc_is_base64 : forall data, base64_text (rfc4648 data) = true.
Proof.
  assert (Z : forall x, enc3 (byte_val x) 0 0 = enc3 (byte_val x) (byte_val Ascii.zero) (byte_val Ascii.zero)) by reflexivity.
  assert (Z' : forall x y, enc3 (byte_val x) (byte_val y) 0 = enc3 (byte_val x) (byte_val y) (byte_val Ascii.zero)) by reflexivity.
  assert (E : forall x y z, exists a b c d, enc3 (byte_val x) (byte_val y) (byte_val z) = [a; b; c; d] /\
            base64_char a = true /\ base64_char b = true /\ base64_char c = true /\ base64_char d = true).
  { intros x y z. unfold enc3. rewrite enc_c1, enc_c2, enc_c3, enc_c4. destruct x, y, z. cbn [bits8 firstn skipn app].
    do 4 eexists. split; [reflexivity|]. repeat split; apply sextet_char. }
  intros data. induction data as [|x|x y|x y z r IH] using list_ind3; [reflexivity| | |].
  - rewrite rfc_one, Z. destruct (E x Ascii.zero Ascii.zero) as (a & b & c & d & -> & A & B & C & D). cbn [firstn app base64_text]. now rewrite A, B.
  - rewrite rfc_two, Z'. destruct (E x y Ascii.zero) as (a & b & c & d & -> & A & B & C & D). cbn [firstn app base64_text]. rewrite A, B, C. cbn. now rewrite orb_true_r.
  - rewrite rfc_cons3. destruct (E x y z) as (a & b & c & d & -> & A & B & C & D). cbn [firstn app base64_text]. rewrite A, B, C, D, IH.
    destruct (rfc4648 r); cbn; [now rewrite !orb_true_r|reflexivity].
Qed.

Lemma rfc_injective : forall a b, rfc4648 a = rfc4648 b -> a = b.
Proof.
  intros a b E.
  assert (D : forall x, base64_decode (rfc4648 x) = Some (true, x)).
  { intros x. destruct (round_trip little x (repeat Ascii.zero (over_read (List.length x)))) as (t & T & R); [rewrite repeat_length; lia|].
    rewrite encode_ok in T by (rewrite repeat_length; lia). injection T as <-. exact R. }
  pose proof (D a) as A. rewrite E, D in A. congruence.
Qed.

(** * Texts *)

Lemma iso_injective : forall y m d hh mi ss s y' m' d' hh' mi' ss' s', year_ok y -> year_ok y' ->
  instant y m d hh mi ss s -> instant y' m' d' hh' mi' ss' s' -> iso_text "T" y m d hh mi ss = iso_text "T" y' m' d' hh' mi' ss' -> s = s'.
Proof.
  intros y m d hh mi ss s y' m' d' hh' mi' ss' s' Y Y' I I' E.
  apply instant_iff in I, I'. destruct I as (D & T & ->), I' as (D' & T' & ->). destruct D as [M D], D' as [M' D'], T as (H & Mi & S), T' as (H' & Mi' & S').
  pose proof (month_days_le y m). pose proof (month_days_le y' m'). unfold year_ok in *.
  unfold iso_text, date_text in E. rewrite <- !app_assoc in E.
  assert (X : forall (a b c d : list ascii), List.length a = List.length b -> a ++ c = b ++ d -> a = b /\ c = d).
  { intros a. induction a as [|x a IH]; intros [|z b] c d0 L Q; try discriminate L; [auto|]. injection Q as -> Q. injection L as L.
    destruct (IH _ _ _ L Q). subst. auto. }
  repeat match goal with
  | Q : _ ++ _ = _ ++ _ |- _ => apply X in Q; [destruct Q as [?E Q]|reflexivity]
  end.
  repeat match goal with
  | Q : pad2 _ = pad2 _ |- _ => apply pad2_inj in Q; [|lia|lia]
  | Q : pad4 _ = pad4 _ |- _ => apply pad4_inj in Q; [|lia|lia]
  end. now subst.
Qed.

Lemma date_injective : forall y m d n y' m' d' n', year_ok y -> year_ok y' -> cal y m d n -> cal y' m' d' n' -> date_text y m d = date_text y' m' d' -> n = n'.
Proof.
  intros y m d n y' m' d' n' Y Y' C C' E.
  assert (I : forall y m d n, cal y m d n -> instant y m d 0 0 0 (n * 86400)) by (intros; split; [unfold time_ok; lia|exists n0; split; [assumption|lia]]).
  assert (Q : n * 86400 = n' * 86400).
  { apply (iso_injective y m d 0 0 0 _ y' m' d' 0 0 0 _); auto. unfold iso_text. now rewrite E. }
  lia.
Qed.

(** * Numbers *)

Lemma at_most_ints : forall a b, at_most (JInt a) (JInt b) = (a <=? b).
Proof. intros a b. unfold at_most, number, compare_numbers. cbn [fst snd]. rewrite Z.min_id, Z.sub_diag, Z.pow_0_r, !Z.mul_1_r. unfold Z.leb. now destruct (a ?= b). Qed.

Lemma odd_power : forall m m' e e', odd_pos m' = true -> e <= e' -> Z.pos m = Z.pos m' * 2 ^ (e' - e) -> odd_pos m = true -> m = m' /\ e = e'.
Proof.
  intros m m' e e' O' L E O. destruct (Z.eq_dec e e') as [->|N].
  - rewrite Z.sub_diag, Z.pow_0_r in E. split; [lia|reflexivity].
  - exfalso. replace (e' - e) with (Z.succ (e' - e - 1)) in E by lia. rewrite Z.pow_succ_r in E by lia.
    set (k := Z.pos m' * 2 ^ (e' - e - 1)) in *. assert (E2 : Z.pos m = 2 * k) by (unfold k; lia). destruct m as [m|m|]; [|discriminate O|]; lia.
Qed.

Lemma same_doubles : forall fm f g, in_format fm f = true -> in_format fm g = true -> is_finite f = true -> is_finite g = true ->
  same (JDbl f) (JDbl g) = true -> positive_zeros (VFlt f) = positive_zeros (VFlt g).
Proof.
  intros fm. assert (Odd : forall s m e, in_format fm (FFin s m e) = true -> odd_pos m = true).
  { intros s m e F. cbn [in_format] in F. destruct (odd_pos m); [reflexivity|discriminate F]. }
  intros f g Ff Fg If Ig S.
  destruct f as [s| | |s m e], g as [s'| | |s' m' e']; try discriminate If; try discriminate Ig; try reflexivity;
    unfold same, number, compare_numbers in S; cbn [fst snd] in S; cbn [positive_zeros].
  - exfalso. destruct (Z.compare_spec (0 * 2 ^ (0 - Z.min 0 e')) ((if s' then Z.neg m' else Z.pos m') * 2 ^ (e' - Z.min 0 e'))) as [E|E|E]; try discriminate S.
    pose proof (Z.pow_pos_nonneg 2 (e' - Z.min 0 e') ltac:(lia) ltac:(lia)). destruct s'; nia.
  - exfalso. destruct (Z.compare_spec ((if s then Z.neg m else Z.pos m) * 2 ^ (e - Z.min e 0)) (0 * 2 ^ (0 - Z.min e 0))) as [E|E|E]; try discriminate S.
    pose proof (Z.pow_pos_nonneg 2 (e - Z.min e 0) ltac:(lia) ltac:(lia)). destruct s; nia.
  - set (k := Z.min e e') in *.
    destruct (Z.compare_spec ((if s then Z.neg m else Z.pos m) * 2 ^ (e - k)) ((if s' then Z.neg m' else Z.pos m') * 2 ^ (e' - k))) as [E|E|E]; try discriminate S.
    pose proof (Z.pow_pos_nonneg 2 (e - k) ltac:(lia) ltac:(lia)) as P. pose proof (Z.pow_pos_nonneg 2 (e' - k) ltac:(lia) ltac:(lia)) as P'.
    assert (Es : s = s') by (destruct s, s'; try reflexivity; exfalso; nia). subst s'.
    assert (Em : Z.pos m * 2 ^ (e - k) = Z.pos m' * 2 ^ (e' - k)).
    { destruct s; [|exact E]. rewrite <- !Pos2Z.opp_pos, !Z.mul_opp_l in E. lia. }
    destruct (Z.le_ge_cases e e') as [L|L].
    + assert (k = e) as Ek by (unfold k; lia). rewrite Ek, Z.sub_diag, Z.pow_0_r, Z.mul_1_r in Em.
      destruct (odd_power m m' e e') as [-> ->]; eauto.
    + assert (k = e') as Ek by (unfold k; lia). rewrite Ek, Z.sub_diag, Z.pow_0_r, Z.mul_1_r in Em.
      destruct (odd_power m' m e' e) as [-> ->]; eauto.
Qed.

Lemma same_ints : forall a b, same (JInt a) (JInt b) = true -> a = b.
Proof.
  intros a b. unfold same, number, compare_numbers. cbn [fst snd]. rewrite Z.min_id, Z.sub_diag, Z.pow_0_r, !Z.mul_1_r.
  destruct (Z.compare_spec a b); auto; discriminate.
Qed.

(** * Different values have different documents *)

Lemma same_arrays : forall l m, same (JArr l) (JArr m) = true -> Forall2 (fun x y => same x y = true) l m.
Proof.
  induction l as [|x l IH]; intros [|y m] E; cbn in E; try discriminate; constructor.
  - now apply andb_true_iff in E.
  - apply IH. now apply andb_true_iff in E.
Qed.

Definition same_members (l m : list (string * json)) : Prop :=
  (forall k x, In (k, x) l -> exists y, In (k, y) m /\ same x y = true) /\ (forall k, In k (map fst m) -> In k (map fst l)).

Lemma same_objects : forall l m, same (JObj l) (JObj m) = true -> same_members l m.
Proof.
  intros l m E. cbn [same] in E. apply andb_true_iff in E. destruct E as [A B]. rewrite forallb_forall in A, B. split.
  - intros k x I. specialize (A _ I). cbn [fst snd] in A. destruct (find_member m k) as [y|] eqn:F; [|discriminate]. exists y. split; [now apply find_member_In|exact A].
  - intros k I. apply in_map_iff in I. destruct I as ([k' y] & <- & I). specialize (B _ I). apply existsb_exists in B. destruct B as ([k2 x] & I2 & Q).
    apply String.eqb_eq in Q. cbn in Q. subst. exact (in_map fst _ _ I2).
Qed.

Lemma sorted_same : forall A (R : A -> A -> Prop), (forall x, ~ R x x) -> (forall x y z, R x y -> R y z -> R x z) ->
  forall l m, StronglySorted R l -> StronglySorted R m -> (forall x, In x l <-> In x m) -> l = m.
Proof.
  intros A R Irr Tr l. induction l as [|x l IH]; intros m Sl Sm E.
  - destruct m as [|y m]; [reflexivity|]. destruct (proj2 (E y) (or_introl eq_refl)).
  - destruct m as [|y m]; [destruct (proj1 (E x) (or_introl eq_refl))|].
    inversion Sl as [|? ? Sl' Fl]; subst. inversion Sm as [|? ? Sm' Fm]; subst. rewrite Forall_forall in Fl, Fm.
    assert (x = y) as ->.
    { destruct (proj1 (E x) (or_introl eq_refl)) as [->|I]; [reflexivity|]. destruct (proj2 (E y) (or_introl eq_refl)) as [->|I']; [reflexivity|].
      elim (Irr x). exact (Tr _ _ _ (Fl _ I') (Fm _ I)). }
    f_equal. apply IH; auto. intros z. specialize (E z). split; intros I.
    + destruct (proj1 E (or_intror I)) as [->|]; [|assumption]. elim (Irr z). auto.
    + destruct (proj2 E (or_intror I)) as [->|]; [|assumption]. elim (Irr z). auto.
Qed.

Lemma items_each : forall D u p l n js, items_placed D u p n l js -> Forall2 (fun x j => exists q, D u x q j) l js.
Proof. intros D u p l n js P. induction P; constructor; eauto. Qed.

Lemma set_each : forall (D : ty -> val -> list step -> json -> Prop) u p l js, Forall2 (fun x j => D u x p j) l js -> Forall2 (fun x j => exists q, D u x q j) l js.
Proof. intros D u p l js P. induction P; constructor; eauto. Qed.

Lemma entries_keys : forall D u p l ps, entries_placed D u p l ps -> map fst ps = map fst l.
Proof. intros D u p l ps P. induction P; cbn; congruence. Qed.

Lemma entries_each : forall D u p l ps, entries_placed D u p l ps -> Forall2 (fun x q => fst x = fst q /\ exists r, D u (snd x) r (snd q)) l ps.
Proof. intros D u p l ps P. induction P; constructor; eauto. Qed.

Lemma Forall2_in_l : forall A B (R : A -> B -> Prop) l m x, Forall2 R l m -> In x l -> exists y, In y m /\ R x y.
Proof. intros A B R l m x F. induction F as [|a b l m Rab F IH]; intros []; [subst; exists b; split; [now left|auto]|]. destruct IH as (y & I & Y); auto. exists y. split; [now right|auto]. Qed.

Lemma Forall2_in_r : forall A B (R : A -> B -> Prop) l m y, Forall2 R l m -> In y m -> exists x, In x l /\ R x y.
Proof. intros A B R l m y F. induction F as [|a b l m Rab F IH]; intros []; [subst; exists a; split; [now left|auto]|]. destruct IH as (x & I & X); auto. exists x. split; [now right|auto]. Qed.

Lemma flat_nil : forall A B (f : A -> list B) l x, flat_map f l = [] -> In x l -> f x = [].
Proof. intros A B f l x E I. induction l as [|y l IH]; cbn in *; [contradiction|]. apply app_eq_nil in E. destruct E, I; [now subst|auto]. Qed.

(** * Types of documents *)

Local Open Scope string_scope.

Lemma not_integer : forall t, json_type t <> Some "integer".
Proof. intros t. induction t; cbn; try discriminate; assumption. Qed.

Lemma one_type : forall k k' j, is_type k j = true -> is_type k' j = true -> k <> "integer" -> k' <> "integer" -> k = k'.
Proof.
  intros k k' j A B Nk Nk'. assert (G : forall n, is_type n j = true -> n <> "integer" ->
    n = match j with JNull => "null" | JBool _ => "boolean" | JStr _ => "string" | JArr _ => "array" | JObj _ => "object" | _ => "number" end).
  { intros n T N. destruct j; try (apply String.eqb_eq; exact T); unfold is_type in T; destruct (number _); try discriminate T;
      (destruct (String.eqb_spec n "number"); [assumption|]; destruct (String.eqb_spec n "integer"); [contradiction|discriminate]). }
  rewrite (G _ A Nk), (G _ B Nk'). reflexivity.
Qed.

Lemma same_types : forall j j' k, same j j' = true -> k <> "integer" -> is_type k j = true -> is_type k j' = true.
Proof.
  assert (N0 : forall j, is_type "number" j = match number j with Some _ => true | None => false end).
  { intros j. destruct j; try reflexivity; unfold is_type; destruct (number _); reflexivity. }
  assert (Num : forall j j' k, match j with JInt _ | JDbl _ => True | _ => False end -> same j j' = true -> k <> "integer" -> is_type k j = true -> is_type k j' = true).
  { intros j j' k J E N T. assert (A : number j <> None) by (destruct j; try contradiction; unfold is_type in T; destruct (number _); congruence).
    assert (B : number j' <> None).
    { assert (G : match number j, number j' with Some x, Some y => match compare_numbers x y with Eq => true | _ => false end | _, _ => false end = true) by (destruct j; try contradiction; exact E).
      intros B. rewrite B in G. destruct (number j); discriminate. }
    assert (K : k = "number") by (apply (one_type k "number" j T); [|exact N|discriminate]; rewrite N0; destruct (number j); congruence).
    subst k. rewrite N0. destruct (number j'); congruence. }
  intros j j' k E N T. destruct j; try (eapply Num; [|exact E|exact N|exact T]; exact I); destruct j'; try discriminate E; exact T.
Qed.

Lemma apart_at : forall ts i i' t u, apart ts = true -> nth_error ts i = Some t -> nth_error ts i' = Some u -> i <> i' ->
  exists k k', json_type t = Some k /\ json_type u = Some k' /\ k <> k'.
Proof.
  induction ts as [|a ts IH]; intros i i' t u A T U N; [destruct i; discriminate|]. cbn [apart] in A. destruct (json_type a) as [k|] eqn:Ja; [|discriminate].
  apply andb_true_iff in A. destruct A as [A1 A2]. rewrite forallb_forall in A1.
  assert (G : forall n w, nth_error ts n = Some w -> exists k', json_type w = Some k' /\ k <> k').
  { intros n w W. specialize (A1 w (nth_error_In _ _ W)). destruct (json_type w) as [k'|]; [|discriminate]. exists k'. split; [reflexivity|]. intros ->. now rewrite String.eqb_refl in A1. }
  destruct i as [|i], i' as [|i']; cbn in T, U.
  - contradiction.
  - injection T as <-. destruct (G _ _ U) as (k' & K & D). exists k, k'. auto.
  - injection U as <-. destruct (G _ _ T) as (k' & K & D). exists k', k. auto.
  - apply (IH i i' t u A2 T U). congruence.
Qed.

Lemma typed : forall e v t p j k, holds e t v -> placed e homeless t v p j -> json_type t = Some k -> is_type k j = true.
Proof.
  intros e v. induction v; intros t p j k H P J; inversion P; subst; try discriminate; cbn in J; try (injection J as <-; reflexivity); try discriminate J.
  all: try (match goal with Dc : doc _ _ _ _ |- _ => inversion Dc; subst; inversion H; subst; cbn in J; try discriminate J; injection J as <-; try reflexivity end).
  all: try (inversion H; subst; eauto; fail).
  all: destruct f; try discriminate; reflexivity.
Qed.

Section Injective.
Variable e : env.
Hypothesis Hn : named e.
Hypothesis He : schematic_classes e.

Notation placed := (placed e homeless).

Definition injective_at (x : val) : Prop := forall u y p q j j', schematic u = true -> holds e u x -> holds e u y -> addresses x = [] -> addresses y = [] ->
  placed u x p j -> placed u y q j' -> same j j' = true -> positive_zeros x = positive_zeros y.

Lemma lists_injective : forall l, Forall injective_at l -> forall u m js js', schematic u = true -> Forall (holds e u) l -> Forall (holds e u) m ->
  flat_map addresses l = [] -> flat_map addresses m = [] ->
  Forall2 (fun x j => exists q, placed u x q j) l js -> Forall2 (fun x j => exists q, placed u x q j) m js' -> Forall2 (fun x y => same x y = true) js js' ->
  map positive_zeros l = map positive_zeros m.
Proof.
  intros l F. induction F as [|x l Ix F IH]; intros u m js js' Eu Hl Hm Al Am Pl Pm S.
  - inversion Pl; subst. inversion S; subst. now inversion Pm; subst.
  - inversion Pl as [|? j ? js1 (q & Q) Pl']; subst. inversion S as [|? j' ? js2 S1 S2]; subst. inversion Pm as [|y ? m' ? (q' & Q') Pm']; subst.
    inversion Hl; subst. inversion Hm; subst. cbn in Al, Am. apply app_eq_nil in Al, Am. destruct Al, Am. cbn [map]. f_equal; [eapply Ix|eapply IH]; eauto.
Qed.

Lemma parts_injective : forall l, Forall injective_at l -> forall ts m n n' p p' js js', forallb schematic ts = true -> Forall2 (holds e) ts l -> Forall2 (holds e) ts m ->
  flat_map addresses l = [] -> flat_map addresses m = [] ->
  parts_placed placed p n ts l js -> parts_placed placed p' n' ts m js' -> Forall2 (fun x y => same x y = true) js js' ->
  map positive_zeros l = map positive_zeros m.
Proof.
  intros l F. induction F as [|x l Ix F IH]; intros ts m n n' p p' js js' Eu Hl Hm Al Am Pl Pm S.
  - inversion Pl; subst. inversion S; subst. now inversion Pm; subst.
  - inversion Pl as [|? u ts' ? ? j js1 Q Pl']; subst. inversion S as [|? j' ? js2 S1 S2]; subst. inversion Pm as [|? ? ? y m' ? ? Q' Pm']; subst.
    inversion Hl; subst. inversion Hm; subst. cbn in Al, Am, Eu. apply app_eq_nil in Al, Am. destruct Al, Am. apply andb_true_iff in Eu. destruct Eu.
    cbn [map]. f_equal; [eapply Ix|eapply IH]; eauto.
Qed.

Lemma members_keys : forall D p ms l ps k, members_placed D p ms l ps -> In k (map fst ps) -> In k (map m_name ms).
Proof. intros D p ms l ps k P. induction P; cbn; intuition. Qed.

Lemma members_injective : forall l, Forall injective_at l -> (forall x, In (VSome x) l -> injective_at x) -> forall ms m p p' ps ps',
  (forall c, In c ms -> schematic (m_ty c) = true) -> NoDup (map m_name ms) ->
  Forall2 (member_holds (holds e)) ms l -> Forall2 (member_holds (holds e)) ms m -> flat_map addresses l = [] -> flat_map addresses m = [] ->
  members_placed placed p ms l ps -> members_placed placed p' ms m ps' -> same_members ps ps' -> map positive_zeros l = map positive_zeros m.
Proof.
  intros l F. induction F as [|x l Ix F IH]; intros Fs ms m p p' ps ps' Em Nd Hl Hm Al Am Pl Pm S.
  - inversion Pl; subst. now inversion Pm; subst.
  - destruct ms as [|c ms]; [inversion Pl|]. inversion Nd as [|? ? N1 N2]; subst.
    destruct m as [|y m]; [inversion Pm|].
    inversion Hl as [|? ? ? ? H1 H2]; subst. inversion Hm as [|? ? ? ? K1 K2]; subst. cbn in Al, Am. apply app_eq_nil in Al, Am. destruct Al as [Ax Al], Am as [Ay Am].
    assert (Rest : forall j j' qs qs', members_placed placed p ms l qs -> members_placed placed p' ms m qs' ->
      same_members ((m_name c, j) :: qs) ((m_name c, j') :: qs') -> same j j' = true /\ map positive_zeros l = map positive_zeros m).
    { intros j j' qs qs' P P' [A B]. split.
      - destruct (A _ _ (or_introl eq_refl)) as (z & [E|I] & Z); [now injection E as <-|]. elim N1. eapply members_keys; [exact P'|]. exact (in_map fst _ _ I).
      - apply (IH (fun x I => Fs x (or_intror I)) ms m p p' qs qs'); auto; [intros; apply Em; now right|]. split.
        + intros k z I. destruct (A k z (or_intror I)) as (w & [E|I'] & W); [|eauto]. injection E as <- <-.
          elim N1. eapply members_keys; [exact P|]. exact (in_map fst _ _ I).
        + intros k I. destruct (B k (or_intror I)) as [E|]; [|assumption]. cbn in E. subst. elim N1. now apply (members_keys _ _ _ _ _ _ P'). }
    inversion Pl as [|? ? ? ? j js Kc D P|? ? z ? j js Kc D P|? ? ? js Kc P]; subst; inversion Pm as [|? ? ? ? j' js' Kc' D' P'|? ? z' ? j' js' Kc' D' P'|? ? ? js' Kc' P']; subst; try congruence; cbn [map].
    + destruct (Rest _ _ _ _ P P' S) as [Sj R]. f_equal; [|exact R]. inversion H1; subst; try congruence. inversion K1; subst; try congruence.
      eapply Ix; eauto. apply Em. now left.
    + destruct (Rest _ _ _ _ P P' S) as [Sj R]. f_equal; [|exact R]. inversion H1; subst; try congruence. inversion K1; subst; try congruence.
      cbn [positive_zeros]. f_equal. eapply (Fs z); eauto; [now left|]. apply Em. now left.
    + exfalso. destruct (proj1 S _ _ (or_introl eq_refl)) as (w & I & _). apply N1. eapply members_keys; [exact P'|]. exact (in_map fst _ _ I).
    + exfalso. apply N1. eapply members_keys; [exact P|]. apply S. now left.
    + f_equal. apply (IH (fun x I => Fs x (or_intror I)) ms m p p' ps ps'); auto. intros; apply Em; now right.
Qed.

Lemma maps_injective : forall l, Forall (fun p => injective_at (snd p)) l -> forall u m p p' l' m' ps ps', schematic u = true ->
  Forall (fun x => holds e u (snd x)) l -> Forall (fun x => holds e u (snd x)) m ->
  flat_map (fun x => addresses (snd x)) l = [] -> flat_map (fun x => addresses (snd x)) m = [] ->
  StronglySorted (fun x y => str_ltb (fst x) (fst y) = true) l -> StronglySorted (fun x y => str_ltb (fst x) (fst y) = true) m ->
  Permutation l l' -> Permutation m m' -> entries_placed placed u p l' ps -> entries_placed placed u p' m' ps' -> same_members ps ps' ->
  map (fun x => (fst x, positive_zeros (snd x))) l = map (fun x => (fst x, positive_zeros (snd x))) m.
Proof.
  intros l F u m p p' l' m' ps ps' Eu Hl Hm Al Am Sl Sm Pl Pm El Em [A B].
  rewrite Forall_forall in F, Hl, Hm. pose proof (ascending_nodup _ Sm) as Nm.
  assert (S2 : forall l, StronglySorted (fun x y : string * val => str_ltb (fst x) (fst y) = true) l ->
    StronglySorted (fun x y : string * val => str_ltb (fst x) (fst y) = true) (map (fun x => (fst x, positive_zeros (snd x))) l)).
  { intros k S. induction S as [|x k S IH Fx]; cbn; constructor; auto. rewrite Forall_forall in *. intros y I. apply in_map_iff in I. destruct I as (z & <- & I). cbn. auto. }
  assert (Fw : forall k x, In (k, x) l -> exists y, In (k, y) m /\ positive_zeros x = positive_zeros y).
  { intros k x I. destruct (Forall2_in_l _ _ _ _ _ (k, x) (entries_each _ _ _ _ _ El) (Permutation_in _ Pl I)) as ([k1 j] & I1 & E1 & r & D1). cbn in E1, D1. subst k1.
    destruct (A _ _ I1) as (j' & I2 & Sj). destruct (Forall2_in_r _ _ _ _ _ (k, j') (entries_each _ _ _ _ _ Em) I2) as ([k2 y] & I3 & E3 & r' & D2). cbn in E3, D2. subst k2.
    apply (Permutation_in _ (Permutation_sym Pm)) in I3. exists y. split; [exact I3|].
    exact (F _ I u y r r' j j' Eu (Hl _ I) (Hm _ I3) (flat_nil _ _ _ _ _ Al I) (flat_nil _ _ _ _ _ Am I3) D1 D2 Sj). }
  apply (sorted_same _ (fun x y : string * val => str_ltb (fst x) (fst y) = true)); auto.
  - intros x. now rewrite str_ltb_irrefl.
  - intros x y z. apply str_ltb_trans.
  - intros [k z]. rewrite !in_map_iff. split; intros ([k' x] & E & I); injection E as -> <-.
    + destruct (Fw _ _ I) as (y & I' & Q). exists (k, y). cbn. now rewrite Q.
    + assert (Ik : In k (map fst l)).
      { rewrite (Permutation_map fst Pl), <- (entries_keys _ _ _ _ _ El). apply B. rewrite (entries_keys _ _ _ _ _ Em), <- (Permutation_map fst Pm). exact (in_map fst _ _ I). }
      apply in_map_iff in Ik. destruct Ik as ([k2 w] & E & I2). cbn in E. subst k2. destruct (Fw _ _ I2) as (y & I3 & Q).
      exists (k, w). split; [|exact I2]. cbn. f_equal. rewrite Q. f_equal. f_equal.
      clear -Nm I I3. induction m as [|[n v] m IH]; cbn in *; [contradiction|]. inversion Nm as [|? ? N1 N2]; subst.
      destruct I as [E|I], I3 as [E'|I3]; [congruence| | |auto]; exfalso; apply N1; [injection E as -> ->|injection E' as -> ->]; [exact (in_map fst _ _ I3)|exact (in_map fst _ _ I)].
Qed.

Lemma scalar_injective : forall u x y j j', schematic u = true -> holds e u x -> holds e u y -> doc e u x j -> doc e u y j' -> scalar_value x = true -> scalar_value y = true ->
  same j j' = true -> positive_zeros x = positive_zeros y.
Proof.
  intros u x y j j' Eu Hx Hy Dx Dy Sx Sy S.
  inversion Dx; subst; try discriminate Sx; try discriminate Eu; inversion Dy; subst; try discriminate Sy; try reflexivity.
  - cbn in S. apply Bool.eqb_prop in S. now subst.
  - apply same_ints in S. now subst.
  - inversion Hx; inversion Hy; subst. eapply same_doubles; [| | | |exact S]; eassumption.
  - inversion Hx; inversion Hy; subst. eapply same_doubles; [| | | |exact S]; eassumption.
  - cbn in S. apply String.eqb_eq in S. now subst.
  - unfold string_of in S. cbn [same] in S. apply String.eqb_eq in S. apply (f_equal list_ascii_of_string) in S. rewrite !list_ascii_of_string_of_list_ascii in S.
    apply rfc_injective in S. now subst.
  - unfold string_of in S. cbn [same] in S. apply String.eqb_eq in S. apply (f_equal list_ascii_of_string) in S. rewrite !list_ascii_of_string_of_list_ascii in S.
    eapply iso_injective in S; eauto. now subst.
  - unfold string_of in S. cbn [same] in S. apply String.eqb_eq in S. apply (f_equal list_ascii_of_string) in S. rewrite !list_ascii_of_string_of_list_ascii in S.
    eapply date_injective in S; eauto. now subst.
Qed.

Lemma documents_differ : forall x, injective_at x.
Proof.
  assert (Base : forall x, scalar_value x = true -> injective_at x).
  { intros x Sx u y p q j j' Eu Hx Hy Ax Ay Px Py S.
    assert (Sy : scalar_value y = true) by (inversion Hx; subst; try discriminate Sx; inversion Hy; subst; reflexivity).
    assert (doc e u x j) by (inversion Px; subst; try discriminate Sx; assumption). assert (doc e u y j') by (inversion Py; subst; try discriminate Sy; assumption).
    eapply scalar_injective; eauto. }
  assert (Split : forall l, Forall (fun x => injective_at x /\ match x with VSome y => injective_at y | _ => True end) l ->
    Forall injective_at l /\ (forall x, In (VSome x) l -> injective_at x)).
  { intros l F. rewrite Forall_forall in F. split; [rewrite Forall_forall; intros x I; now apply F|]. intros x I. exact (proj2 (F _ I)). }
  intros x. enough (A : injective_at x /\ match x with VSome y => injective_at y | _ => True end) by apply A.
  induction x as [| |b|z|f|s|b|z|z|l IH|l IH|i v IH|l IH| |v IH| |v IH|a v IH] using val_ind'; (split; [|try exact I; try apply IH]);
    try (apply Base; reflexivity); intros u y p q j j' Eu Hx Hy Ax Ay Px Py S.
  - inversion Hx.
  - destruct (Split _ IH) as [F _]. cbn in Ax. inversion Hx; subst; inversion Hy; subst; cbn in Ay; cbn [schematic] in Eu; cbn [positive_zeros]; f_equal.
    + inversion Px as [? ? ? ? X|? ? ? js ? P| | | | | | | | | | |]; subst; [discriminate X|].
      inversion Py as [? ? ? ? X|? ? ? js' ? P'| | | | | | | | | | |]; subst; [discriminate X|].
      eapply (lists_injective l F _ _ js js'); eauto using items_each, same_arrays.
    + inversion Px as [? ? ? ? X| |? ? ? js P| | | | | | | | | |]; subst; [discriminate X|].
      inversion Py as [? ? ? ? X| |? ? ? js' P'| | | | | | | | | |]; subst; [discriminate X|].
      eapply (lists_injective l F _ _ js js'); eauto using items_each, same_arrays.
    + inversion Px as [? ? ? ? X| | |? ? ? js P| | | | | | | | |]; subst; [discriminate X|].
      inversion Py as [? ? ? ? X| | |? ? ? js' P'| | | | | | | | |]; subst; [discriminate X|].
      eapply (lists_injective l F _ _ js js'); eauto using same_arrays.
      * exact (set_each _ _ _ _ _ P).
      * exact (set_each _ _ _ _ _ P').
    + inversion Px as [? ? ? ? X| | | |? ? ? ? js P| | | | | | | |]; subst; [discriminate X|].
      inversion Py as [? ? ? ? X| | | |? ? ? ? js' P'| | | | | | | |]; subst; [discriminate X|].
      eapply parts_injective; eauto using same_arrays. cbn. now rewrite andb_true_r.
    + inversion Px as [? ? ? ? X| | | | |? ? ? js P| | | | | | |]; subst; [discriminate X|].
      inversion Py as [? ? ? ? X| | | | |? ? ? js' P'| | | | | | |]; subst; [discriminate X|].
      eapply parts_injective; eauto using same_arrays.
  - assert (F : Forall (fun p => injective_at (snd p)) l) by (eapply Forall_impl; [|exact IH]; cbn beta; intros q0 [Q _]; exact Q).
    cbn in Ax. inversion Hx as [| | | | | | | | | | | | | |o u' l0 Hl Sl| | | | | |]; subst; inversion Hy as [| | | | | | | | | | | | | |o' u'' m Hm Sm| | | | | |]; subst. cbn in Ay. cbn [schematic] in Eu. cbn [positive_zeros]. f_equal.
    inversion Px as [? ? ? ? X| | | | | |? ? ? l' ? ps Pe P| | | | | |]; subst; [discriminate X|].
    inversion Py as [? ? ? ? X| | | | | |? ? ? m' ? ps' Pe' P'| | | | | |]; subst; [discriminate X|].
    apply (maps_injective l F u' m p q l' m' ps ps'); auto.
    + eapply Forall_impl; [|exact Hl]. cbn. tauto.
    + eapply Forall_impl; [|exact Hm]. cbn. tauto.
    + destruct o; [subst; auto|exact Pe].
    + destruct o; [subst; auto|exact Pe'].
    + now apply same_objects.
  - inversion Hx as [| | | | | | | | | | | | | | | | | | | |ts ? t ? Nt Ht _]; subst. inversion Hy as [| | | | | | | | | | | | | | | | | | | |? i' t' y' Nt' Ht' _]; subst.
    inversion Px as [? ? ? ? X| | | | | | | | | | | |? ? ? ? ? ? Nt1 P]; subst; [discriminate X|]. inversion Py as [? ? ? ? X| | | | | | | | | | | |? ? ? ? ? ? Nt2 P']; subst; [discriminate X|].
    rewrite Nt in Nt1. injection Nt1 as <-. rewrite Nt' in Nt2. injection Nt2 as <-. cbn in Ax, Ay. cbn [schematic] in Eu. apply andb_true_iff in Eu. destruct Eu as [Ap Eu].
    rewrite forallb_forall in Eu. destruct (Nat.eq_dec i i') as [<-|N].
    + assert (t' = t) by congruence. subst t'. cbn [positive_zeros]. f_equal. eapply (proj1 IH); eauto. apply Eu. eapply nth_error_In, Nt.
    + exfalso. destruct (apart_at _ _ _ _ _ Ap Nt Nt' N) as (k & k' & K & K' & D). apply D.
      apply (one_type k k' j'); [|exact (typed _ _ _ _ _ _ Ht' P' K')|intros ->; exact (not_integer _ K)|intros ->; exact (not_integer _ K')].
      eapply same_types; [exact S|intros ->; exact (not_integer _ K)|exact (typed _ _ _ _ _ _ Ht P K)].
  - destruct (Split _ IH) as [F Fs]. cbn in Ax. inversion Hx; subst; inversion Hy; subst. cbn in Ay. cbn [positive_zeros]. f_equal.
    inversion Px as [? ? ? ? X| | | | | | |? ? ? ps P| | | | |]; subst; [discriminate X|].
    inversion Py as [? ? ? ? X| | | | | | |? ? ? ps' P'| | | | |]; subst; [discriminate X|].
    eapply members_injective; eauto using same_objects.
  - inversion Hx.
  - inversion Hx.
  - inversion Hx.
  - cbn in Ax. inversion Hx; subst; inversion Hy; subst. cbn in Ay. cbn [schematic] in Eu. cbn [positive_zeros]. f_equal.
    inversion Px as [? ? ? ? X| | | | | | | |? ? ? ? P| | | |]; subst; [discriminate X|].
    inversion Py as [? ? ? ? X| | | | | | | |? ? ? ? P'| | | |]; subst; [discriminate X|].
    eapply IH; eauto.
  - discriminate Ax.
Qed.
End Injective.
