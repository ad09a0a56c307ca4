(** Characters, escapes and strings: the reader reads exactly what the grammar says. *)
From Coq Require Import List Arith ZArith NArith Ascii String Bool Lia ZifyBool ZifyN ZifyNat.
From Verif Require Import Float Decimal10 Json Events TextModel TextSpec.
Import ListNotations.
Local Open Scope char_scope.
Ltac Zify.zify_post_hook ::= Z.div_mod_to_equations.

Lemma code_N : forall c, code c = Z.of_N (N_of_ascii c).
Proof. intros c. unfold code, nat_of_ascii. apply N_nat_Z. Qed.

Lemma byte_N : forall n, byte (Z.of_N n) = ascii_of_N n.
Proof. intros n. unfold byte, ascii_of_nat. f_equal. lia. Qed.

Lemma code_byte : forall c, byte (code c) = c.
Proof. intros c. rewrite code_N, byte_N. apply ascii_N_embedding. Qed.

Lemma code_inj : forall c d, code c = code d -> c = d.
Proof. intros c d E. rewrite <- (code_byte c), <- (code_byte d). now f_equal. Qed.

Lemma code_range : forall c, (0 <= code c < 256)%Z.
Proof. intros c. rewrite code_N. pose proof (N_ascii_bounded c). lia. Qed.

Lemma code_of : forall n, (n < 256)%N -> code (ascii_of_N n) = Z.of_N n.
Proof. intros n H. rewrite code_N, N_ascii_embedding by assumption. reflexivity. Qed.

(** Statements about one character, by cases. *)
Lemma all_chars : forall P : ascii -> bool, forallb P (map ascii_of_nat (seq 0 256)) = true -> forall c, P c = true.
Proof.
  intros P H c. rewrite forallb_forall in H. apply H. rewrite <- (ascii_nat_embedding c). apply in_map.
  apply in_seq. pose proof (nat_ascii_bounded c). lia.
Qed.

(** * White space *)

Lemma is_space_spec : forall c, is_space c = true <-> In (code c) [32; 10; 13; 9]%Z.
Proof.
  intros c. unfold is_space. rewrite !orb_true_iff, !Ascii.eqb_eq. cbn [In]. split.
  - intros [[[->| ->]| ->]| ->]; cbn; tauto.
  - intros [E|[E|[E|[E|[]]]]]; [left; left; left|left; left; right|left; right|right]; apply code_inj; now rewrite <- E.
Qed.

Lemma blank_forallb : forall w, blank w <-> forallb is_space w = true.
Proof.
  intros w. unfold blank. rewrite forallb_forall, Forall_forall. split; intros H c Hc; apply is_space_spec; auto.
Qed.

Definition dark (s : list ascii) : Prop := match s with c :: _ => is_space c = false | [] => True end.

Lemma skip_blank : forall w s, blank w -> dark s -> skip (w ++ s) = s.
Proof.
  intros w s H D. apply blank_forallb in H. induction w as [|c w IH]; cbn in *.
  - destruct s as [|c s]; [reflexivity|]. cbn in *. now rewrite D.
  - apply andb_true_iff in H as [Hc H]. rewrite Hc. auto.
Qed.

Lemma skip_spec : forall s, exists w, blank w /\ s = w ++ skip s /\ dark (skip s).
Proof.
  induction s as [|c s [w (Hw & E & D)]].
  - exists []. repeat split. constructor.
  - cbn [skip]. destruct (is_space c) eqn:Ec.
    + exists (c :: w). split; [|split; [cbn; congruence|assumption]]. constructor; [now apply is_space_spec|assumption].
    + exists []. repeat split; [constructor|assumption].
Qed.

Lemma skip_skip : forall s, skip (skip s) = skip s.
Proof.
  intros s. destruct (skip_spec s) as (w & Hw & E & D). apply (skip_blank [] (skip s)); [constructor|assumption].
Qed.

Lemma skip_length : forall s, List.length (skip s) <= List.length s.
Proof. intros s. destruct (skip_spec s) as (w & _ & E & _). rewrite E at 2. rewrite app_length. lia. Qed.

(** * Hexadecimal digits *)

Lemma hex_digit_spec : forall c x, hex_digit c = Some x <-> hex_value c (Z.of_N x).
Proof.
  intros c x. unfold hex_digit, hex_value. rewrite code_N. set (n := N_of_ascii c).
  destruct ((48 <=? n) && (n <=? 57))%N eqn:E1; [|destruct ((65 <=? n) && (n <=? 70))%N eqn:E2; [|destruct ((97 <=? n) && (n <=? 102))%N eqn:E3]];
    split; intros H; try (injection H as <-); try discriminate H; try (f_equal); lia.
Qed.

Lemma hex_value_range : forall c x, hex_value c x -> (0 <= x < 16)%Z.
Proof. intros c x. unfold hex_value. lia. Qed.

Lemma hex4_spec : forall a b c d x, hex4 a b c d = Some x <-> hex_value4 a b c d (Z.of_N x).
Proof.
  intros a b c d x. unfold hex4, hex_value4. split.
  - destruct (hex_digit a) as [p|] eqn:Ea; [|discriminate]. destruct (hex_digit b) as [q|] eqn:Eb; [|discriminate].
    destruct (hex_digit c) as [r|] eqn:Ec; [|discriminate]. destruct (hex_digit d) as [s|] eqn:Ed; [|discriminate].
    intros H. injection H as <-. apply hex_digit_spec in Ea, Eb, Ec, Ed. exists (Z.of_N p), (Z.of_N q), (Z.of_N r), (Z.of_N s).
    repeat (split; [assumption|]). rewrite !N.shiftl_mul_pow2. change (2 ^ 4)%N with 16%N. lia.
  - intros (p & q & r & s & Ha & Hb & Hc & Hd & E).
    pose proof (hex_value_range _ _ Ha). pose proof (hex_value_range _ _ Hb). pose proof (hex_value_range _ _ Hc). pose proof (hex_value_range _ _ Hd).
    rewrite <- (Z2N.id p) in Ha by lia. rewrite <- (Z2N.id q) in Hb by lia. rewrite <- (Z2N.id r) in Hc by lia. rewrite <- (Z2N.id s) in Hd by lia.
    apply hex_digit_spec in Ha, Hb, Hc, Hd. rewrite Ha, Hb, Hc, Hd. f_equal. rewrite !N.shiftl_mul_pow2. change (2 ^ 4)%N with 16%N. lia.
Qed.

Lemma hex_value4_range : forall a b c d x, hex_value4 a b c d x -> (0 <= x < 65536)%Z.
Proof.
  intros a b c d x (p & q & r & s & Ha & Hb & Hc & Hd & E).
  pose proof (hex_value_range _ _ Ha). pose proof (hex_value_range _ _ Hb). pose proof (hex_value_range _ _ Hc). pose proof (hex_value_range _ _ Hd). lia.
Qed.

Lemma hex_value4_N : forall a b c d x, hex_value4 a b c d x -> hex4 a b c d = Some (Z.to_N x).
Proof. intros a b c d x H. apply hex4_spec. pose proof (hex_value4_range _ _ _ _ _ H). now rewrite Z2N.id by lia. Qed.

(** * UTF-8 *)

Lemma lor_add : forall k a b, (b < 2 ^ k)%N -> N.lor (a * 2 ^ k) b = (a * 2 ^ k + b)%N.
Proof.
  intros k a b H. rewrite <- N.lxor_lor, N.add_nocarry_lxor; [reflexivity| |];
    apply N.bits_inj_0; intros i; rewrite N.land_spec; destruct (N.lt_ge_cases i k) as [L|L].
  all: try (rewrite N.mul_pow2_bits_low by assumption; reflexivity).
  all: replace (N.testbit b i) with false; [apply andb_false_r|]; symmetry;
    destruct (N.eq_0_gt_0_cases b) as [->|Hb]; [apply N.bits_0|]; apply N.bits_above_log2; apply N.log2_lt_pow2 in H; lia.
Qed.

Lemma low_bits : forall cp k, N.lor 128 (N.land (N.shiftr cp k) 63) = (128 + cp / 2 ^ k mod 64)%N.
Proof.
  intros cp k. change 63%N with (N.ones 6). rewrite N.land_ones, N.shiftr_div_pow2. change (2 ^ 6)%N with 64%N.
  change 128%N with (2 * 2 ^ 6)%N. apply lor_add. apply N.mod_lt. discriminate.
Qed.

Lemma high_bits : forall cp k m a, (cp / 2 ^ k < 2 ^ m)%N -> (m <= 8)%N -> N.lor (a * 2 ^ m) (N.land (N.shiftr cp k) 255) = (a * 2 ^ m + cp / 2 ^ k)%N.
Proof.
  intros cp k m a H Hm. change 255%N with (N.ones 8). rewrite N.land_ones, N.shiftr_div_pow2.
  assert (2 ^ m <= 2 ^ 8)%N by (apply N.pow_le_mono_r; lia).
  rewrite N.mod_small by lia. now apply lor_add.
Qed.

Lemma utf8_bytes_spec : forall n, (n < 1114112)%N -> utf8_bytes n = utf8 (Z.of_N n).
Proof.
  intros n H. unfold utf8_bytes, utf8.
  assert (B : forall m z, Z.of_N m = z -> ascii_of_N m = byte z) by (intros m z <-; symmetry; apply byte_N).
  destruct (n <=? 127)%N eqn:E1; [replace (Z.of_N n <? 128)%Z with true by lia; f_equal; now apply B|].
  replace (Z.of_N n <? 128)%Z with false by lia.
  destruct (n <=? 2047)%N eqn:E2.
  { replace (Z.of_N n <? 2048)%Z with true by lia. rewrite low_bits. change 192%N with (6 * 2 ^ 5)%N.
    rewrite high_bits by (change (2 ^ 6)%N with 64%N; change (2 ^ 5)%N with 32%N; lia).
    change (2 ^ 6)%N with 64%N; change (2 ^ 5)%N with 32%N; change (2 ^ 0)%N with 1%N. repeat (apply f_equal2; [apply B; lia|]). reflexivity. }
  replace (Z.of_N n <? 2048)%Z with false by lia.
  destruct (n <=? 65535)%N eqn:E3.
  { replace (Z.of_N n <? 65536)%Z with true by lia. rewrite !low_bits. change 224%N with (14 * 2 ^ 4)%N.
    rewrite high_bits by (change (2 ^ 12)%N with 4096%N; change (2 ^ 4)%N with 16%N; lia).
    change (2 ^ 6)%N with 64%N; change (2 ^ 12)%N with 4096%N; change (2 ^ 4)%N with 16%N; change (2 ^ 0)%N with 1%N. repeat (apply f_equal2; [apply B; lia|]). reflexivity. }
  replace (Z.of_N n <? 65536)%Z with false by lia.
  rewrite !low_bits. change 240%N with (30 * 2 ^ 3)%N.
  rewrite high_bits by (change (2 ^ 18)%N with 262144%N; change (2 ^ 3)%N with 8%N; lia).
  change (2 ^ 6)%N with 64%N; change (2 ^ 12)%N with 4096%N; change (2 ^ 18)%N with 262144%N; change (2 ^ 3)%N with 8%N; change (2 ^ 0)%N with 1%N. repeat (apply f_equal2; [apply B; lia|]). reflexivity.
Qed.

Lemma pair_code : forall h l, (h < 1024)%N -> (l < 1024)%N -> (N.lor (N.shiftl h 10) l + 65536 = 65536 + 1024 * h + l)%N.
Proof.
  intros h l Hh Hl. rewrite N.shiftl_mul_pow2, lor_add by exact Hl. change (2 ^ 10)%N with 1024%N. lia.
Qed.

(** * Strings *)

Lemma eqb_code : forall c d, Ascii.eqb c d = (code c =? code d)%Z.
Proof.
  intros c d. destruct (Ascii.eqb_spec c d) as [->|N]; [symmetry; apply Z.eqb_refl|].
  symmetry. apply Z.eqb_neq. intros E. apply N. now apply code_inj.
Qed.

Lemma small_code : forall c n, (N_of_ascii c <? n)%N = (code c <? Z.of_N n)%Z.
Proof. intros c n. rewrite code_N. lia. Qed.

Lemma read_string_u : forall s2, read_string (backslash :: "u" :: s2) =
  match s2 with
  | h1 :: h2 :: h3 :: h4 :: s3 =>
    match hex4 h1 h2 h3 h4 with
    | None => None
    | Some cp =>
      if ((55296 <=? cp) && (cp <=? 57343))%N then
        if (cp <=? 56319)%N then
          match s3 with
          | y :: z :: k1 :: k2 :: k3 :: k4 :: s4 =>
            if Ascii.eqb y backslash && Ascii.eqb z "u" then
              match hex4 k1 k2 k3 k4 with
              | None => None
              | Some cp2 =>
                if ((cp2 <? 56320) || (57343 <? cp2))%N then None
                else put (utf8_bytes (N.lor (N.shiftl (cp - 55296) 10) (cp2 - 56320) + 65536)) (read_string s4)
              end
            else None
          | _ => None
          end
        else None
      else put (utf8_bytes cp) (read_string s3)
    end
  | _ => None
  end.
Proof. reflexivity. Qed.

Lemma read_string_complete : forall s b, chars s b -> forall r, read_string (s ++ quote :: r) = Some (b, r).
Proof.
  intros s b H. induction H as [|c s b H1 H2 H3 _ IH|x z s b Hx _ IH|h1 h2 h3 h4 cp s b Hh Hs _ IH|h1 h2 h3 h4 k1 k2 k3 k4 hi lo s b Hh Rh Hk Rk _ IH]; intros r.
  - reflexivity.
  - cbn [app read_string]. rewrite !eqb_code, small_code. change (code quote) with 34%Z. change (code backslash) with 92%Z.
    replace (code c =? 34)%Z with false by lia. replace (code c =? 92)%Z with false by lia. replace (code c <? Z.of_N 32)%Z with false by lia.
    rewrite IH. reflexivity.
  - cbn in Hx. repeat (destruct Hx as [Hx|Hx]; [injection Hx as <- <-; cbn [app read_string]; cbn [Ascii.eqb Bool.eqb andb orb quote backslash]; rewrite IH; reflexivity|]).
    contradiction.
  - cbn [app]. change "\" with backslash. rewrite read_string_u. rewrite (hex_value4_N _ _ _ _ _ Hh).
    pose proof (hex_value4_range _ _ _ _ _ Hh). replace ((55296 <=? Z.to_N cp) && (Z.to_N cp <=? 57343))%N with false by lia.
    rewrite IH. cbn [put]. rewrite utf8_bytes_spec by lia. rewrite Z2N.id by lia. reflexivity.
  - cbn [app]. change "\" with backslash. rewrite read_string_u. cbv iota beta. rewrite (hex_value4_N _ _ _ _ _ Hh), (hex_value4_N _ _ _ _ _ Hk).
    replace ((55296 <=? Z.to_N hi) && (Z.to_N hi <=? 57343))%N with true by lia. replace (Z.to_N hi <=? 56319)%N with true by lia.
    replace ((Z.to_N lo <? 56320) || (57343 <? Z.to_N lo))%N with false by lia.
    rewrite IH. cbn [put]. rewrite pair_code by lia. rewrite utf8_bytes_spec by lia.
    replace (Z.of_N (65536 + 1024 * (Z.to_N hi - 55296) + (Z.to_N lo - 56320))) with (65536 + 1024 * (hi - 55296) + (lo - 56320))%Z by lia. reflexivity.
Qed.

Lemma put_inv : forall l x b r, put l x = Some (b, r) -> exists b', x = Some (b', r) /\ b = l ++ b'.
Proof. intros l [[b' r']|] b r H; [|discriminate]. injection H as <- <-. eauto. Qed.

Lemma read_string_sound_n : forall n s b r, List.length s < n -> read_string s = Some (b, r) -> exists k, chars k b /\ s = k ++ quote :: r.
Proof.
  induction n as [|n IH]; intros s b r L H; [lia|].
  destruct s as [|c s]; [discriminate|]. cbn [read_string] in H. cbn [List.length] in L.
  destruct (Ascii.eqb_spec c quote) as [->|Nq]. { injection H as <- <-. exists []. split; [constructor|reflexivity]. }
  destruct (Ascii.eqb_spec c backslash) as [->|Nb].
  2:{ destruct (N_of_ascii c <? 32)%N eqn:E32; [discriminate|]. rewrite small_code in E32. apply put_inv in H as (b' & H & ->).
      apply IH in H as (k & Hk & ->); [|lia]. exists (c :: k). split; [|reflexivity].
      constructor; [lia| | |assumption]; intros E; [apply Nq|apply Nb]; apply code_inj; rewrite E; reflexivity. }
  destruct s as [|x s]; [discriminate|]. cbn [List.length] in L.
  assert (Short : forall y z, put [y] (read_string s) = Some (b, r) -> y = byte z -> In (x, z) short_escapes -> exists k, chars k b /\ backslash :: x :: s = k ++ quote :: r).
  { intros y z Hp -> Hi. apply put_inv in Hp as (b' & Hp & ->). apply IH in Hp as (k & Hk & ->); [|lia].
    exists (backslash :: x :: k). split; [|reflexivity]. cbn [app]. now apply chars_short. }
  destruct (Ascii.eqb_spec x quote) as [->|N1]; [eapply Short; [exact H|instantiate (1 := 34%Z); reflexivity|cbn; tauto]|].
  destruct (Ascii.eqb_spec x backslash) as [->|N2]; [eapply Short; [exact H|instantiate (1 := 92%Z); reflexivity|cbn; tauto]|].
  destruct (Ascii.eqb_spec x "/") as [->|N3]; [eapply Short; [exact H|instantiate (1 := 47%Z); reflexivity|cbn; tauto]|].
  cbn [orb] in H.
  destruct (Ascii.eqb_spec x "b") as [->|N4]; [eapply Short; [exact H|instantiate (1 := 8%Z); reflexivity|cbn; tauto]|].
  destruct (Ascii.eqb_spec x "f") as [->|N5]; [eapply Short; [exact H|instantiate (1 := 12%Z); reflexivity|cbn; tauto]|].
  destruct (Ascii.eqb_spec x "n") as [->|N6]; [eapply Short; [exact H|instantiate (1 := 10%Z); reflexivity|cbn; tauto]|].
  destruct (Ascii.eqb_spec x "r") as [->|N7]; [eapply Short; [exact H|instantiate (1 := 13%Z); reflexivity|cbn; tauto]|].
  destruct (Ascii.eqb_spec x "t") as [->|N8]; [eapply Short; [exact H|instantiate (1 := 9%Z); reflexivity|cbn; tauto]|].
  clear Short. destruct (Ascii.eqb_spec x "u") as [->|N9]; [|discriminate].
  destruct s as [|h1 [|h2 [|h3 [|h4 s]]]]; try discriminate. cbn [List.length] in L.
  destruct (hex4 h1 h2 h3 h4) as [cp|] eqn:Eh; [|discriminate]. apply hex4_spec in Eh. pose proof (hex_value4_range _ _ _ _ _ Eh) as R1.
  destruct ((55296 <=? cp) && (cp <=? 57343))%N eqn:Es.
  - destruct (cp <=? 56319)%N eqn:Ec; [|discriminate]. destruct s as [|y [|z [|k1 [|k2 [|k3 [|k4 s]]]]]]; try discriminate. cbn [List.length] in L.
    destruct (Ascii.eqb_spec y backslash) as [->|]; [|discriminate]. destruct (Ascii.eqb_spec z "u") as [->|]; [|discriminate]. cbn [andb] in H.
    destruct (hex4 k1 k2 k3 k4) as [lo|] eqn:Ek; [|discriminate]. apply hex4_spec in Ek. pose proof (hex_value4_range _ _ _ _ _ Ek) as R2.
    destruct ((lo <? 56320) || (57343 <? lo))%N eqn:El; [discriminate|].
    apply put_inv in H as (b' & H & ->). apply IH in H as (k & Hk & ->); [|lia].
    exists (backslash :: "u" :: h1 :: h2 :: h3 :: h4 :: backslash :: "u" :: k1 :: k2 :: k3 :: k4 :: k). split; [|reflexivity].
    rewrite pair_code by lia. rewrite utf8_bytes_spec by lia.
    replace (Z.of_N (65536 + 1024 * (cp - 55296) + (lo - 56320))) with (65536 + 1024 * (Z.of_N cp - 55296) + (Z.of_N lo - 56320))%Z by lia.
    apply chars_pair; try assumption; lia.
  - apply put_inv in H as (b' & H & ->). apply IH in H as (k & Hk & ->); [|lia].
    exists (backslash :: "u" :: h1 :: h2 :: h3 :: h4 :: k). split; [|reflexivity].
    rewrite utf8_bytes_spec by lia. apply chars_unicode; [assumption|lia|assumption].
Qed.

Lemma read_string_sound : forall s b r, read_string s = Some (b, r) -> exists k, chars k b /\ s = k ++ quote :: r.
Proof. intros s b r. apply (read_string_sound_n (S (List.length s))). lia. Qed.

Lemma read_string_shorter : forall s b r, read_string s = Some (b, r) -> List.length r < List.length s.
Proof. intros s b r H. apply read_string_sound in H as (k & _ & ->). rewrite app_length. cbn. lia. Qed.

(** * What the writer prints *)

Definition escape_ok (c : ascii) : bool := match read_string (escape c ++ [quote]) with Some ([d], []) => Ascii.eqb c d | _ => false end.

Lemma escape_reads : forall c, escape_ok c = true.
Proof. apply all_chars. vm_compute. reflexivity. Qed.

Lemma chars_app : forall s b, chars s b -> forall s' b', chars s' b' -> chars (s ++ s') (b ++ b').
Proof. intros s b H s' b' H'. induction H; cbn [app]; try rewrite <- app_assoc; try assumption; now constructor. Qed.

Lemma escape_chars : forall c, chars (escape c) [c].
Proof.
  intros c. pose proof (escape_reads c) as H. unfold escape_ok in H.
  destruct (read_string (escape c ++ [quote])) as [[[|d [|]] [|]]|] eqn:E; try discriminate.
  apply Ascii.eqb_eq in H. subst d. apply read_string_sound in E as (k & Hk & E). now apply app_inj_tail in E as [-> _].
Qed.

Lemma printed_chars : forall b, chars (flat_map escape b) b.
Proof.
  induction b as [|c b IH]; [constructor|]. cbn [flat_map]. apply (chars_app _ [c]); [apply escape_chars|assumption].
Qed.
