(** Where references lead. *)
From Coq Require Import List Arith ZArith NArith Ascii String Bool Lia.
From Verif Require Import Decimal10 Json Types PathModel TextSpec FragmentSpec FragmentProof RespellSpec.
Import ListNotations.

Lemma digit_of : forall c, digit c <-> is_digit c = true.
Proof.
  intros c. unfold digit, is_digit. rewrite code_N, andb_true_iff, !N.leb_le. split; intros [A B]; split; lia.
Qed.

Definition value (a : N) (s : list ascii) : N := fold_left (fun a c => 10 * a + digit_val c)%N s a.

Lemma value_z : forall s a, forallb is_digit s = true -> Z.of_N (value a s) = digits_value (Z.of_N a) s.
Proof.
  induction s as [|c s IH]; intros a H; [reflexivity|]. cbn [forallb] in H. unfold value in *. cbn [fold_left digits_value]. apply andb_true_iff in H as [H1 H2]. rewrite IH by exact H2. f_equal.
  unfold is_digit in H1. apply andb_true_iff in H1 as [A B]. apply N.leb_le in A, B. unfold digit_val. rewrite code_N. lia.
Qed.

Lemma value_grows : forall s a, (a <= value a s)%N.
Proof.
  induction s as [|c s IH]; intros a; [cbn; lia|]. unfold value in *. cbn [fold_left]. specialize (IH (10 * a + digit_val c)%N). lia.
Qed.

(** Numbers are right, or no smaller than a tenth of 2 ^ 32. *)
Lemma number_grows : forall s n m, token_number n s = Some m -> (n <= m)%N.
Proof.
  induction s as [|c s IH]; intros n m H; [injection H as <-; lia|]. cbn [token_number] in H. cbv zeta in H.
  destruct (N.ltb_spec ((n * 10 + digit_val c) mod two32) n); [discriminate|]. apply IH in H. lia.
Qed.

Lemma number_value : forall s n m, forallb is_digit s = true -> (n < two32)%N -> token_number n s = Some m -> m = value n s \/ (429496729 < m)%N /\ (429496729 < value n s)%N.
Proof.
  induction s as [|c s IH]; intros n m D B H; [left; injection H as <-; reflexivity|]. cbn [token_number] in H. cbv zeta in H.
  destruct (N.ltb_spec ((n * 10 + digit_val c) mod two32) n) as [|G]; [discriminate|]. cbn [forallb] in D. apply andb_true_iff in D as [D1 D2].
  pose proof (number_grows _ _ _ H) as Gm. assert (V : (digit_val c <= 9)%N) by (apply is_digit_char in D1; lia).
  destruct (N.lt_ge_cases (n * 10 + digit_val c) two32) as [L|L].
  - rewrite N.mod_small in H by exact L. unfold value. cbn [fold_left]. rewrite (N.mul_comm n 10) in H. apply IH; [exact D2|lia|exact H].
  - right. assert (429496729 < n)%N.
    { unfold two32 in L, G. change (2 ^ 32)%N with 4294967296%N in L, G. clear -L V G. destruct (N.eq_dec n 429496729) as [->|]; [|lia]. exfalso.
      assert (Q : (429496729 * 10 + digit_val c = (429496729 * 10 + digit_val c - 4294967296) + 1 * 4294967296)%N) by lia. rewrite Q in G.
      rewrite N.mod_add in G by lia. rewrite N.mod_small in G by lia. lia. }
    pose proof (value_grows s (10 * n + digit_val c)). unfold value in *. cbn [fold_left]. lia.
Qed.

Lemma number_small : forall s n, forallb is_digit s = true -> (value n s <= 429496729)%N -> token_number n s = Some (value n s).
Proof.
  induction s as [|c s IH]; intros n D B; [reflexivity|]. cbn [forallb] in D. apply andb_true_iff in D as [D1 D2]. unfold value in *. cbn [fold_left] in *. cbn [token_number]. cbv zeta.
  pose proof (value_grows s (10 * n + digit_val c)) as G. unfold value in G. rewrite (N.mul_comm n 10), N.mod_small by (unfold two32; change (2 ^ 32)%N with 4294967296%N; lia).
  destruct (N.ltb_spec (10 * n + digit_val c) n); [lia|]. now apply IH.
Qed.

(** The index of a token is the number its name is in decimal. *)
Lemma index_exactly : forall name k, (k <= 429496729)%N -> tok_index (make_token name) = Some k <-> integer_part name /\ digits_value 0 name = Z.of_N k.
Proof.
  intros name k Hk. unfold make_token. cbn [tok_index].
  assert (G : token_index name = Some k <-> integer_part name /\ digits_value 0 name = Z.of_N k).
  { unfold token_index, integer_part, digits. destruct (forallb is_digit name) eqn:D.
    - assert (FD : Forall digit name) by (rewrite forallb_forall in D; apply Forall_forall; intros c I; apply digit_of; auto).
      pose proof (value_z name 0 D) as V. change (Z.of_N 0) with 0%Z in V.
      assert (G : token_number 0 name = Some k <-> digits_value 0 name = Z.of_N k).
      { split; intros H.
        - apply number_value in H; [|exact D|reflexivity]. destruct H as [->|[? _]]; [auto|lia].
        - assert (E : value 0 name = k) by lia. rewrite <- E. apply number_small; [exact D|lia]. }
      destruct name as [|c [|d s]].
      + split; [discriminate|]. intros [[[? _] _] _]. congruence.
      + rewrite G. split; [intros H; repeat split; auto; try discriminate; cbn; congruence|tauto].
      + destruct (Ascii.eqb_spec c "0") as [->|N].
        * split; [discriminate|]. intros [[_ H] _]. cbn in H. specialize (H eq_refl). discriminate H.
        * rewrite G. split; [intros H; repeat split; auto; try discriminate; cbn; congruence|tauto].
    - split; [discriminate|]. intros [[[_ H] _] _]. exfalso. rewrite <- not_true_iff_false in D. apply D. apply forallb_forall. rewrite Forall_forall in H. intros c I. apply digit_of; auto. }
  rewrite <- G. destruct (token_index name) as [i|]; [|tauto]. destruct (N.eqb_spec i invalid_index) as [->|]; [|tauto]. split; [discriminate|]. intros H. injection H as <-. unfold invalid_index, two32 in Hk. cbn in Hk. lia.
Qed.

Lemma index_found : forall (l : list (string * json)) n k, find_index l n = Some k -> exists before x after, l = before ++ (n, x) :: after /\ List.length before = k /\ ~ In n (map fst before).
Proof.
  induction l as [|[m y] l IH]; intros n k H; [discriminate|]. cbn [find_index] in H. destruct (String.eqb_spec m n) as [->|N].
  - injection H as <-. exists [], y, l. repeat split. intros [].
  - destruct (find_index l n) as [i|] eqn:E; [|discriminate]. injection H as <-. destruct (IH _ _ E) as (b & x & a & -> & <- & I). exists ((m, y) :: b), x, a. repeat split. intros [|]; auto.
Qed.

Lemma index_first : forall before n (x : json) after, ~ In n (map fst before) -> find_index (before ++ (n, x) :: after) n = Some (List.length before).
Proof.
  induction before as [|[m y] b IH]; intros n x after H; cbn [app find_index]; [now rewrite String.eqb_refl|].
  destruct (String.eqb_spec m n) as [->|]; [destruct H; now left|]. rewrite IH; [reflexivity|]. intros I. apply H. now right.
Qed.

Lemma nth_before : forall A (b : list A) x a, nth_error (b ++ x :: a) (List.length b) = Some x.
Proof. intros A b x a. induction b; [reflexivity|exact IHb]. Qed.

Lemma get_arrives : forall ns j place y, handy j -> pointer_get j (map make_token ns) = Some (place, y) <-> arrives j ns place y.
Proof.
  induction ns as [|n ns IH]; intros j place y M.
  - cbn. split; [intros H; injection H as <- <-; constructor|]. intros H. inversion H; reflexivity.
  - cbn [map pointer_get]. destruct j as [|b|z|f|s|l|l]; try (split; [discriminate|intros H; inversion H]; fail).
    + inversion M as [? L F| |? N _]; subst; [|now destruct (N l)]. split.
      * destruct (tok_index (make_token n)) as [i|] eqn:E; [|discriminate]. destruct (N.leb_spec (N.of_nat (List.length l)) i); [discriminate|].
        destruct (nth_error l (N.to_nat i)) as [v|] eqn:Ev; [|discriminate]. destruct (pointer_get v (map make_token ns)) as [[p r]|] eqn:G; [|discriminate]. intros X. injection X as <- <-.
        rewrite Forall_forall in F. apply IH in G; [|apply F; now apply nth_error_In in Ev]. apply index_exactly in E as [E1 E2]; [|lia].
        apply arrives_element with v; auto. lia.
      * intros H. inversion H as [|? k x ? ? p ? Ex I D A|]; subst. assert (K : k < List.length l) by (apply nth_error_Some; congruence).
        assert (E : tok_index (make_token n) = Some (N.of_nat k)) by (apply index_exactly; [lia|]; split; [exact I|lia]). rewrite E.
        destruct (N.leb_spec (N.of_nat (List.length l)) (N.of_nat k)); [lia|]. rewrite Nat2N.id, Ex. rewrite Forall_forall in F.
        apply IH in A; [|apply F; now apply nth_error_In in Ex]. now rewrite A.
    + inversion M as [|? F|? _ N]; subst; [|now destruct (N l)]. cbn [make_token tok_name]. split.
      * destruct (find_index l (string_of_list_ascii n)) as [k|] eqn:E; [|discriminate]. apply index_found in E as (b & x & a & -> & <- & I). rewrite nth_before.
        destruct (pointer_get x (map make_token ns)) as [[p r]|] eqn:G; [|discriminate]. intros X. injection X as <- <-. apply Forall_app in F as [_ F]. inversion F; subst.
        apply IH in G; [|assumption]. pose proof (arrives_member b _ x a ns p r I G) as Q. now rewrite list_ascii_of_string_of_list_ascii in Q.
      * intros H. inversion H as [| |b name x a ? p ? I A]; subst. rewrite string_of_list_ascii_of_string, index_first by exact I. rewrite nth_before. apply Forall_app in F as [_ F]. inversion F; subst.
        apply IH in A; [|assumption]. now rewrite A.
Qed.
