(** rapidjson::Pointer reads plain pointers and URI fragments. *)
From Coq Require Import List Arith ZArith NArith Ascii String Bool Lia ZifyBool.
From Verif Require Import Decimal10 Json PathModel TextSpec FragmentSpec.
Import ListNotations.
Local Open Scope char_scope.

(** ** Bytes *)

Lemma code_N : forall c, code c = Z.of_N (N_of_ascii c).
Proof. intros c. unfold code, nat_of_ascii. lia. Qed.

Lemma code_range : forall c, (0 <= code c < 256)%Z.
Proof. intros c. rewrite code_N. pose proof (N_ascii_bounded c). lia. Qed.

Lemma byte_code : forall c, byte (code c) = c.
Proof. intros c. unfold byte, code. rewrite Nat2Z.id. apply ascii_nat_embedding. Qed.

Lemma code_byte : forall z, (0 <= z < 256)%Z -> code (byte z) = z.
Proof. intros z H. unfold byte, code. rewrite nat_ascii_embedding; lia. Qed.

Lemma byte_N : forall n, ascii_of_N n = byte (Z.of_N n).
Proof. intros n. unfold byte, ascii_of_nat. f_equal. lia. Qed.

Lemma code_eq : forall c d, code c = code d -> c = d.
Proof. intros c d H. rewrite <- (byte_code c), <- (byte_code d). now rewrite H. Qed.

(** ** Percent signs *)

Lemma percent_digit_spec : forall c x, percent_digit c = Some x <-> hex_value c (Z.of_N x).
Proof.
  intros c x. unfold percent_digit, hex_value. rewrite code_N. cbv zeta. set (n := N_of_ascii c). clearbody n.
  destruct ((48 <=? n) && (n <=? 57))%N eqn:A; [split; [intros [= <-]|intros; f_equal]; lia|].
  destruct ((65 <=? n) && (n <=? 70))%N eqn:B; [split; [intros [= <-]|intros; f_equal]; lia|].
  destruct ((97 <=? n) && (n <=? 102))%N eqn:C; [split; [intros [= <-]|intros; f_equal]; lia|].
  split; [discriminate|lia].
Qed.

Lemma hex_small : forall c x, hex_value c x -> (0 <= x < 16)%Z.
Proof. unfold hex_value. lia. Qed.

Lemma percent_byte_spec : forall h l c, percent_byte h l = Some c <-> percent ["%"; h; l] c.
Proof.
  intros h l c. unfold percent_byte. split.
  - destruct (percent_digit h) as [a|] eqn:A; [|discriminate]. destruct (percent_digit l) as [b|] eqn:B; [|discriminate]. intros [= <-].
    apply percent_digit_spec in A, B. exists h, l, (Z.of_N a), (Z.of_N b). repeat (split; [assumption|]). split; [reflexivity|].
    rewrite byte_N. f_equal. lia.
  - intros (h' & l' & a & b & A & B & E & ->). injection E as <- <-. pose proof (hex_small _ _ A). pose proof (hex_small _ _ B).
    rewrite <- (Z2N.id a) in A by lia. rewrite <- (Z2N.id b) in B by lia. apply percent_digit_spec in A, B. rewrite A, B. f_equal.
    rewrite byte_N. f_equal. lia.
Qed.

Lemma percent_inv : forall p c, percent p c -> exists h l, p = ["%"; h; l] /\ percent_byte h l = Some c.
Proof. intros p c H. pose proof H as (h & l & a & b & _ & _ & -> & _). exists h, l. split; [reflexivity|]. now apply percent_byte_spec. Qed.

(** ** UTF-8 *)

Definition ranged (d : N * N) (c : ascii) : Prop := (Z.of_N (fst d) <= code c <= Z.of_N (snd d))%Z.

Lemma more_bytes_sound : forall b due bs, more_bytes b = Some due -> Forall2 ranged due bs ->
  exists cp, (128 <= cp)%Z /\ unicode cp /\ utf8 cp = b :: bs.
Proof.
  intros b due bs H F. unfold more_bytes in H. cbv zeta in H. assert (En : N_of_ascii b = Z.to_N (code b)) by (rewrite code_N; lia).
  rewrite En in H. pose proof (code_range b). set (z := code b) in *. assert (Eb : b = byte z) by (symmetry; apply byte_code). clearbody z. subst b. clear En.
  assert (T1 : forall d cs, Forall2 ranged [d] cs -> exists x, cs = [byte x] /\ (Z.of_N (fst d) <= x <= Z.of_N (snd d))%Z).
  { intros d cs X. inversion X as [|? c ? l R Y]; subst. inversion Y; subst. exists (code c). rewrite byte_code. now split. }
  assert (T2 : forall d d' cs, Forall2 ranged [d; d'] cs -> exists x y, cs = [byte x; byte y] /\ (Z.of_N (fst d) <= x <= Z.of_N (snd d))%Z /\ (Z.of_N (fst d') <= y <= Z.of_N (snd d'))%Z).
  { intros d d' cs X. inversion X as [|? c ? l R Y]; subst. apply T1 in Y as (y & -> & Y). exists (code c), y. rewrite byte_code. now split. }
  assert (T3 : forall d d' d'' cs, Forall2 ranged [d; d'; d''] cs -> exists x y w, cs = [byte x; byte y; byte w] /\ (Z.of_N (fst d) <= x <= Z.of_N (snd d))%Z /\
    (Z.of_N (fst d') <= y <= Z.of_N (snd d'))%Z /\ (Z.of_N (fst d'') <= w <= Z.of_N (snd d''))%Z).
  { intros d d' d'' cs X. inversion X as [|? c ? l R Y]; subst. apply T2 in Y as (y & w & -> & Y). exists (code c), y, w. rewrite byte_code. now split. }
  assert (U2 : forall x, (194 <= z < 224 -> 128 <= x <= 191 -> exists cp, 128 <= cp /\ unicode cp /\ utf8 cp = [byte z; byte x])%Z).
  { intros x Hz Hx. exists (64 * (z - 192) + (x - 128))%Z. unfold unicode. split; [lia|]. split; [lia|]. unfold utf8.
    rewrite (proj2 (Z.ltb_ge _ 128)) by lia. rewrite (proj2 (Z.ltb_lt _ 2048)) by lia. repeat f_equal; Z.div_mod_to_equations; lia. }
  assert (U3 : forall x y, (224 <= z < 240 -> 128 <= x <= 191 -> 128 <= y <= 191 -> (z = 224 -> 160 <= x) -> (z = 237 -> x <= 159) ->
    exists cp, 128 <= cp /\ unicode cp /\ utf8 cp = [byte z; byte x; byte y])%Z).
  { intros x y Hz Hx Hy H1 H2. exists (4096 * (z - 224) + 64 * (x - 128) + (y - 128))%Z. unfold unicode. split; [lia|]. split; [lia|]. unfold utf8.
    rewrite (proj2 (Z.ltb_ge _ 128)) by lia. rewrite (proj2 (Z.ltb_ge _ 2048)) by lia. rewrite (proj2 (Z.ltb_lt _ 65536)) by lia. repeat f_equal; Z.div_mod_to_equations; lia. }
  assert (U4 : forall x y w, (240 <= z < 245 -> 128 <= x <= 191 -> 128 <= y <= 191 -> 128 <= w <= 191 -> (z = 240 -> 144 <= x) -> (z = 244 -> x <= 143) ->
    exists cp, 128 <= cp /\ unicode cp /\ utf8 cp = [byte z; byte x; byte y; byte w])%Z).
  { intros x y w Hz Hx Hy Hw H1 H2. exists (262144 * (z - 240) + 4096 * (x - 128) + 64 * (y - 128) + (w - 128))%Z. unfold unicode. split; [lia|]. split; [lia|]. unfold utf8.
    rewrite (proj2 (Z.ltb_ge _ 128)) by lia. rewrite (proj2 (Z.ltb_ge _ 2048)) by lia. rewrite (proj2 (Z.ltb_ge _ 65536)) by lia. repeat f_equal; Z.div_mod_to_equations; lia. }
  destruct (Z.to_N z <? 194)%N eqn:E1; [discriminate|].
  destruct (Z.to_N z <? 224)%N eqn:E2; [injection H as <-; apply T1 in F as (x & -> & X); cbn in X; apply U2; lia|].
  destruct (Z.to_N z =? 224)%N eqn:E3; [injection H as <-; apply T2 in F as (x & y & -> & X & Y); cbn in X, Y; apply U3; lia|].
  destruct (Z.to_N z =? 237)%N eqn:E4; [injection H as <-; apply T2 in F as (x & y & -> & X & Y); cbn in X, Y; apply U3; lia|].
  destruct (Z.to_N z <? 240)%N eqn:E5; [injection H as <-; apply T2 in F as (x & y & -> & X & Y); cbn in X, Y; apply U3; lia|].
  destruct (Z.to_N z =? 240)%N eqn:E6; [injection H as <-; apply T3 in F as (x & y & w & -> & X & Y & W); cbn in X, Y, W; apply U4; lia|].
  destruct (Z.to_N z <? 244)%N eqn:E7; [injection H as <-; apply T3 in F as (x & y & w & -> & X & Y & W); cbn in X, Y, W; apply U4; lia|].
  destruct (Z.to_N z =? 244)%N eqn:E8; [injection H as <-; apply T3 in F as (x & y & w & -> & X & Y & W); cbn in X, Y, W; apply U4; lia|discriminate].
Qed.

Lemma more_bytes_complete : forall cp, (128 <= cp)%Z -> unicode cp ->
  exists b bs due, utf8 cp = b :: bs /\ (128 <= N_of_ascii b)%N /\ more_bytes b = Some due /\ Forall2 ranged due bs.
Proof.
  intros cp L [Hr Hs]. unfold utf8. rewrite (proj2 (Z.ltb_ge _ 128)) by lia.
  assert (En : forall x, (0 <= x < 256)%Z -> N_of_ascii (byte x) = Z.to_N x) by (intros x Hx; pose proof (code_byte x Hx) as E; rewrite code_N in E; lia).
  assert (Rg : forall lo hi x, (0 <= x < 256 -> Z.of_N lo <= x <= Z.of_N hi -> ranged (lo, hi) (byte x))%Z) by (intros lo hi x Hx Hl; unfold ranged; rewrite code_byte; assumption).
  destruct (cp <? 2048)%Z eqn:E1; [|destruct (cp <? 65536)%Z eqn:E2].
  - assert (Z1 : (194 <= 192 + cp / 64 < 224)%Z) by (Z.div_mod_to_equations; lia). assert (X1 : (128 <= 128 + cp mod 64 <= 191)%Z) by (Z.div_mod_to_equations; lia).
    set (z := (192 + cp / 64)%Z) in *. set (x := (128 + cp mod 64)%Z) in *. clearbody x z.
    do 2 eexists. exists [(128, 191)%N]. split; [reflexivity|]. rewrite En by lia. split; [lia|]. split.
    + unfold more_bytes. cbv zeta. rewrite En by lia. replace (Z.to_N z <? 194)%N with false by lia. now replace (Z.to_N z <? 224)%N with true by lia.
    + constructor; [apply Rg; cbn; lia|constructor].
  - assert (Z1 : (224 <= 224 + cp / 4096 < 240)%Z) by (Z.div_mod_to_equations; lia).
    assert (X1 : (128 <= 128 + cp / 64 mod 64 <= 191)%Z) by (Z.div_mod_to_equations; lia). assert (Y1 : (128 <= 128 + cp mod 64 <= 191)%Z) by (Z.div_mod_to_equations; lia).
    assert (Z2 : (224 + cp / 4096 = 224 -> 160 <= 128 + cp / 64 mod 64)%Z) by (Z.div_mod_to_equations; lia).
    assert (Z3 : (224 + cp / 4096 = 237 -> 128 + cp / 64 mod 64 <= 159)%Z) by (Z.div_mod_to_equations; lia).
    set (z := (224 + cp / 4096)%Z) in *. set (x := (128 + cp / 64 mod 64)%Z) in *. set (y := (128 + cp mod 64)%Z) in *. clearbody x y z.
    assert (M : exists lo hi, more_bytes (byte z) = Some [(lo, hi); (128, 191)%N] /\ (Z.of_N lo <= x <= Z.of_N hi)%Z).
    { unfold more_bytes. cbv zeta. rewrite En by lia. replace (Z.to_N z <? 194)%N with false by lia. replace (Z.to_N z <? 224)%N with false by lia.
      destruct (Z.to_N z =? 224)%N eqn:A; [do 2 eexists; split; [reflexivity|cbn; lia]|]. destruct (Z.to_N z =? 237)%N eqn:B; [do 2 eexists; split; [reflexivity|cbn; lia]|].
      replace (Z.to_N z <? 240)%N with true by lia. do 2 eexists. split; [reflexivity|cbn; lia]. }
    destruct M as (lo & hi & M & R). do 3 eexists. split; [reflexivity|]. rewrite En by lia. split; [lia|]. split; [exact M|].
    constructor; [apply Rg; lia|]. constructor; [apply Rg; cbn; lia|constructor].
  - assert (Z1 : (240 <= 240 + cp / 262144 < 245)%Z) by (Z.div_mod_to_equations; lia).
    assert (X1 : (128 <= 128 + cp / 4096 mod 64 <= 191)%Z) by (Z.div_mod_to_equations; lia).
    assert (Y1 : (128 <= 128 + cp / 64 mod 64 <= 191)%Z) by (Z.div_mod_to_equations; lia). assert (W1 : (128 <= 128 + cp mod 64 <= 191)%Z) by (Z.div_mod_to_equations; lia).
    assert (Z2 : (240 + cp / 262144 = 240 -> 144 <= 128 + cp / 4096 mod 64)%Z) by (Z.div_mod_to_equations; lia).
    assert (Z3 : (240 + cp / 262144 = 244 -> 128 + cp / 4096 mod 64 <= 143)%Z) by (Z.div_mod_to_equations; lia).
    set (z := (240 + cp / 262144)%Z) in *. set (x := (128 + cp / 4096 mod 64)%Z) in *. set (y := (128 + cp / 64 mod 64)%Z) in *. set (w := (128 + cp mod 64)%Z) in *. clearbody x y z w.
    assert (M : exists lo hi, more_bytes (byte z) = Some [(lo, hi); (128, 191)%N; (128, 191)%N] /\ (Z.of_N lo <= x <= Z.of_N hi)%Z).
    { unfold more_bytes. cbv zeta. rewrite En by lia. replace (Z.to_N z <? 194)%N with false by lia. replace (Z.to_N z <? 224)%N with false by lia.
      replace (Z.to_N z =? 224)%N with false by lia. replace (Z.to_N z =? 237)%N with false by lia. replace (Z.to_N z <? 240)%N with false by lia.
      destruct (Z.to_N z =? 240)%N eqn:A; [do 2 eexists; split; [reflexivity|cbn; lia]|]. destruct (Z.to_N z <? 244)%N eqn:B; [do 2 eexists; split; [reflexivity|cbn; lia]|].
      replace (Z.to_N z =? 244)%N with true by lia. do 2 eexists. split; [reflexivity|cbn; lia]. }
    destruct M as (lo & hi & M & R). do 3 eexists. split; [reflexivity|]. rewrite En by lia. split; [lia|]. split; [exact M|].
    constructor; [apply Rg; lia|]. constructor; [apply Rg; cbn; lia|]. constructor; [apply Rg; cbn; lia|constructor].
Qed.

(** ** Names *)

Definition prefix (n : list ascii) (r : option (list ascii * list (list ascii))) : option (list ascii * list (list ascii)) :=
  match r with Some (t, ts) => Some (n ++ t, ts) | None => None end.

Lemma push_prefix : forall c n r, push_char c (prefix n r) = prefix (c :: n) r.
Proof. intros c n [[t ts]|]; reflexivity. Qed.

Lemma push_one : forall c r, push_char c r = prefix [c] r.
Proof. intros c [[t ts]|]; reflexivity. Qed.

Lemma prefix_app : forall n n' r, prefix n (prefix n' r) = prefix (n ++ n') r.
Proof. intros n n' [[t ts]|]; [cbn; now rewrite app_assoc|reflexivity]. Qed.

Lemma prefix_inv : forall n r t ts, prefix n r = Some (t, ts) -> exists t', t = n ++ t' /\ r = Some (t', ts).
Proof. intros n [[t' ts']|] t ts H; [injection H as <- <-; eauto|discriminate]. Qed.

Lemma fragment_unfold : forall due s, fragment_names due s =
  match s with
  | [] => match due with [] => Some ([], []) | _ => None end
  | c :: s1 =>
    if Ascii.eqb c "%" then
      match s1 with
      | h :: l :: s2 =>
        match percent_byte h l with
        | None => None
        | Some b =>
          match due with
          | (lo, hi) :: due' => if ((lo <=? N_of_ascii b) && (N_of_ascii b <=? hi))%N then push_char b (fragment_names due' s2) else None
          | [] =>
            if Ascii.eqb b "~" then
              match s2 with
              | d :: s3 =>
                if Ascii.eqb d "0" then push_char "~" (fragment_names [] s3)
                else if Ascii.eqb d "1" then push_char "/" (fragment_names [] s3)
                else None
              | [] => None
              end
            else if (N_of_ascii b <? 128)%N then push_char b (fragment_names [] s2)
            else match more_bytes b with Some due' => push_char b (fragment_names due' s2) | None => None end
          end
        end
      | _ => None
      end
    else
      match due with
      | _ :: _ => None
      | [] =>
        if Ascii.eqb c "/" then
          match fragment_names [] s1 with Some (t, ts) => Some ([], t :: ts) | None => None end
        else if need_percent c then None
        else if Ascii.eqb c "~" then
          match s1 with
          | d :: s3 =>
            if Ascii.eqb d "0" then push_char "~" (fragment_names [] s3)
            else if Ascii.eqb d "1" then push_char "/" (fragment_names [] s3)
            else None
          | [] => None
          end
        else push_char c (fragment_names [] s1)
      end
  end.
Proof. intros due [|c s]; reflexivity. Qed.

Lemma ranged_spec : forall lo hi b, ((lo <=? N_of_ascii b) && (N_of_ascii b <=? hi))%N = true <-> ranged (lo, hi) b.
Proof. intros lo hi b. unfold ranged. rewrite code_N. cbn [fst snd]. lia. Qed.

Lemma due_passes : forall due p bs s, percents p bs -> Forall2 ranged due bs -> fragment_names due (p ++ s) = prefix bs (fragment_names [] s).
Proof.
  intros due p bs s P F. revert due F. induction P as [|p c q b Hp P IH]; intros due F; inversion F as [|[lo hi] ? due' ? R F']; subst.
  - cbn [app]. now destruct (fragment_names [] s) as [[t ts]|].
  - apply percent_inv in Hp as (h & l & -> & Hb). rewrite <- app_assoc. cbn [app]. rewrite fragment_unfold. cbn [Ascii.eqb Bool.eqb]. rewrite Hb.
    rewrite (proj2 (ranged_spec lo hi c) R), (IH due' F'). apply push_prefix.
Qed.

Lemma due_inv : forall due s t ts, fragment_names due s = Some (t, ts) ->
  exists p bs s' t', s = p ++ s' /\ percents p bs /\ Forall2 ranged due bs /\ t = bs ++ t' /\ fragment_names [] s' = Some (t', ts).
Proof.
  induction due as [|[lo hi] due IH]; intros s t ts H.
  - exists [], [], s, t. repeat (split; [solve [auto|constructor]|]). exact H.
  - rewrite fragment_unfold in H. destruct s as [|c s1]; [discriminate|]. destruct (Ascii.eqb_spec c "%") as [->|_]; [|discriminate].
    destruct s1 as [|h [|l s2]]; try discriminate. destruct (percent_byte h l) as [b|] eqn:B; [|discriminate].
    destruct ((lo <=? N_of_ascii b) && (N_of_ascii b <=? hi))%N eqn:R; [|discriminate]. rewrite push_one in H. apply prefix_inv in H as (t1 & -> & H).
    apply IH in H as (p & bs & s' & t' & -> & P & F & -> & H). exists (["%"; h; l] ++ p), (b :: bs), s', t'.
    split; [reflexivity|]. split; [constructor; [now apply percent_byte_spec|exact P]|]. split; [constructor; [now apply ranged_spec|exact F]|]. now split.
Qed.

Lemma need_percent_spec : forall c, need_percent c = false <-> unreserved c.
Proof.
  intros c. unfold need_percent, unreserved. rewrite code_N. cbv zeta.
  assert (E : forall d, c = d <-> N_of_ascii c = N_of_ascii d) by (intros d; split; [congruence|intros X; rewrite <- (ascii_N_embedding c), <- (ascii_N_embedding d); congruence]).
  cbn [In]. assert (S : forall d, d = c <-> N_of_ascii c = N_of_ascii d) by (intros d; rewrite <- E; split; congruence). rewrite !S. cbn [N_of_ascii N_of_digits].
  change (N_of_ascii "-") with 45%N. change (N_of_ascii ".") with 46%N. change (N_of_ascii "_") with 95%N. change (N_of_ascii "~") with 126%N.
  set (n := N_of_ascii c). clearbody n. lia.
Qed.

Lemma percent_unreserved : ~ unreserved "%".
Proof. rewrite <- need_percent_spec. discriminate. Qed.

Lemma tilde_passes : forall p d z s, tilde p -> (d = "0" /\ z = "~") \/ (d = "1" /\ z = "/") -> fragment_names [] (p ++ d :: s) = prefix [z] (fragment_names [] s).
Proof.
  intros p d z s T D. assert (E : push_char z (fragment_names [] s) = prefix [z] (fragment_names [] s)) by apply push_one. rewrite <- E. clear E.
  destruct T as [->|T].
  - cbn [app]. rewrite fragment_unfold. destruct D as [[-> ->]|[-> ->]]; reflexivity.
  - apply percent_inv in T as (h & l & -> & B). cbn [app]. rewrite fragment_unfold. cbn [Ascii.eqb Bool.eqb]. rewrite B. destruct D as [[-> ->]|[-> ->]]; reflexivity.
Qed.

Lemma utf8_small : forall cp, (cp < 128)%Z -> utf8 cp = [byte cp].
Proof. intros cp H. unfold utf8. now rewrite (proj2 (Z.ltb_lt _ _) H). Qed.

Lemma encoded_passes : forall s n r, encoded s n -> fragment_names [] (s ++ r) = prefix n (fragment_names [] r).
Proof.
  intros s n r H. induction H as [|p s n T H IH|p s n T H IH|c s n U N H IH|cp p s n Sc N P H IH].
  - cbn [app]. now destruct (fragment_names [] r) as [[t ts]|].
  - rewrite <- app_assoc. cbn [app]. rewrite (tilde_passes p "0" "~") by tauto. rewrite IH. apply prefix_app.
  - rewrite <- app_assoc. cbn [app]. rewrite (tilde_passes p "1" "/") by tauto. rewrite IH. apply prefix_app.
  - cbn [app]. rewrite fragment_unfold. destruct (Ascii.eqb_spec c "%") as [->|_]; [now apply percent_unreserved in U|].
    destruct (Ascii.eqb_spec c "/") as [->|_]; [apply need_percent_spec in U; discriminate|]. rewrite (proj2 (need_percent_spec c) U).
    destruct (Ascii.eqb_spec c "~") as [->|_]; [contradiction|]. rewrite IH. apply push_prefix.
  - rewrite <- app_assoc. destruct (Z_lt_ge_dec cp 128) as [L|L].
    + rewrite utf8_small in * by assumption. inversion P as [|p' c q b Hp Hq]; subst. inversion Hq; subst. rewrite app_nil_r. apply percent_inv in Hp as (h & l & -> & B).
      cbn [app]. rewrite fragment_unfold. cbn [Ascii.eqb Bool.eqb]. rewrite B. destruct (Ascii.eqb_spec (byte cp) "~") as [X|_]; [now rewrite X in N|].
      pose proof (code_byte cp ltac:(destruct Sc; lia)) as C. rewrite code_N in C. replace (N_of_ascii (byte cp) <? 128)%N with true by lia. rewrite IH. apply push_prefix.
    + destruct (more_bytes_complete cp ltac:(lia) Sc) as (b & bs & due & E & Lb & M & F). rewrite E in *. inversion P as [|p' c q b' Hp Hq]; subst. apply percent_inv in Hp as (h & l & -> & B).
      rewrite <- !app_assoc. cbn [app]. rewrite fragment_unfold. cbn [Ascii.eqb Bool.eqb]. rewrite B. destruct (Ascii.eqb_spec b "~") as [->|_]; [vm_compute in Lb; congruence|].
      replace (N_of_ascii b <? 128)%N with false by lia. rewrite M, (due_passes due q bs) by assumption. rewrite IH, push_prefix. apply prefix_app.
Qed.

Lemma fragment_sound : forall k s t ts, List.length s < k -> fragment_names [] s = Some (t, ts) -> exists x r, s = x ++ r /\ encoded x t /\ steps encoded r ts.
Proof.
  induction k as [|k IH]; intros s t ts L H; [lia|].
  assert (Go : forall p n s' t', s = p ++ s' -> p <> [] -> (forall x m, encoded x m -> encoded (p ++ x) (n ++ m)) -> t = n ++ t' -> fragment_names [] s' = Some (t', ts) ->
    exists x r, s = x ++ r /\ encoded x t /\ steps encoded r ts).
  { intros p n s' t' -> Np X -> H'. destruct (IH s' t' ts) as (x & r & -> & Ex & Hr); [rewrite app_length in L; destruct p; [congruence|cbn in L; lia]|exact H'|].
    exists (p ++ x), r. split; [apply app_assoc|]. split; [now apply X|exact Hr]. }
  assert (Esc : forall p s2, tilde p -> p <> [] -> s = p ++ s2 ->
    match s2 with
    | d :: s3 =>
      if Ascii.eqb d "0" then push_char "~" (fragment_names [] s3)
      else if Ascii.eqb d "1" then push_char "/" (fragment_names [] s3)
      else None
    | [] => None
    end = Some (t, ts) -> exists x r, s = x ++ r /\ encoded x t /\ steps encoded r ts).
  { intros p s2 T Np Es E. destruct s2 as [|d s3]; [discriminate|].
    destruct (Ascii.eqb_spec d "0") as [->|_].
    - rewrite push_one in E. apply prefix_inv in E as (t' & -> & E). apply (Go (p ++ ["0"]) ["~"] s3 t'); [now rewrite <- app_assoc|now destruct p| |reflexivity|exact E].
      intros x m Hx. rewrite <- app_assoc. now apply encoded_tilde.
    - destruct (Ascii.eqb_spec d "1") as [->|_]; [|discriminate]. rewrite push_one in E. apply prefix_inv in E as (t' & -> & E).
      apply (Go (p ++ ["1"]) ["/"] s3 t'); [now rewrite <- app_assoc|now destruct p| |reflexivity|exact E]. intros x m Hx. rewrite <- app_assoc. now apply encoded_slash. }
  rewrite fragment_unfold in H. destruct s as [|c s1].
  { injection H as <- <-. exists [], []. repeat split; constructor. }
  destruct (Ascii.eqb_spec c "%") as [->|Nc].
  - destruct s1 as [|h [|l s2]]; try discriminate. destruct (percent_byte h l) as [b|] eqn:B; [|discriminate]. apply percent_byte_spec in B.
    destruct (Ascii.eqb_spec b "~") as [->|Nb]; [apply (Esc ["%"; h; l] s2); [now right|discriminate|reflexivity|exact H]|].
    destruct (N_of_ascii b <? 128)%N eqn:Lb.
    + rewrite push_one in H. apply prefix_inv in H as (t' & -> & H). apply (Go ["%"; h; l] [b] s2 t'); [reflexivity|discriminate| |reflexivity|exact H].
      intros x m Hx. assert (Eu : utf8 (code b) = [b]) by (rewrite utf8_small; [now rewrite byte_code|rewrite code_N; lia]). rewrite <- Eu.
      apply encoded_percent; [unfold unicode; rewrite code_N; lia|rewrite Eu; congruence| |exact Hx]. rewrite Eu. rewrite <- (app_nil_r ["%"; h; l]). constructor; [exact B|constructor].
    + destruct (more_bytes b) as [due|] eqn:M; [|discriminate]. rewrite push_one in H. apply prefix_inv in H as (t1 & -> & H).
      apply due_inv in H as (p & bs & s' & t' & -> & P & F & -> & H). destruct (more_bytes_sound _ _ _ M F) as (cp & Lc & Sc & Eu).
      apply (Go (["%"; h; l] ++ p) (b :: bs) s' t'); [now rewrite <- app_assoc|discriminate| |reflexivity|exact H].
      intros x m Hx. rewrite <- Eu. apply encoded_percent; [exact Sc|rewrite Eu; congruence| |exact Hx]. rewrite Eu. now constructor.
  - destruct (Ascii.eqb_spec c "/") as [->|Ns].
    + destruct (fragment_names [] s1) as [[t' ts']|] eqn:E; [|discriminate]. injection H as <- <-. destruct (IH s1 t' ts') as (x & r & -> & Ex & Hr); [cbn in L; lia|exact E|].
      exists [], ("/" :: x ++ r). split; [reflexivity|]. split; [constructor|now constructor].
    + destruct (need_percent c) eqn:Nd; [discriminate|]. apply need_percent_spec in Nd. destruct (Ascii.eqb_spec c "~") as [->|Nt].
      * apply (Esc ["~"] s1); [now left|discriminate|reflexivity|exact H].
      * rewrite push_one in H. apply prefix_inv in H as (t' & -> & H). apply (Go [c] [c] s1 t'); [reflexivity|discriminate| |reflexivity|exact H].
        intros x m Hx. now apply encoded_plain.
Qed.

(** A text of steps after the first slash. *)
Lemma steps_first : forall (P : list ascii -> list ascii -> Prop) s n ns, steps P ("/" :: s) (n :: ns) <-> exists x r, s = x ++ r /\ P x n /\ steps P r ns.
Proof.
  intros P s n ns. split.
  - intros H. inversion H; subst. eauto.
  - intros (x & r & -> & X & R). now constructor.
Qed.

Lemma fragment_complete : forall r ns, steps encoded r ns -> r = [] /\ ns = [] \/ exists s n ns', r = "/" :: s /\ ns = n :: ns' /\ fragment_names [] s = Some (n, ns').
Proof.
  intros r ns H. induction H as [|s n r ns Hs H IH]; [now left|]. right. exists (s ++ r), n, ns. split; [reflexivity|]. split; [reflexivity|].
  rewrite (encoded_passes s n r Hs). destruct IH as [[-> ->]|(s' & n' & ns' & -> & -> & E)].
  - cbn. now rewrite app_nil_r.
  - rewrite fragment_unfold. cbn [Ascii.eqb Bool.eqb]. rewrite E. cbn. now rewrite app_nil_r.
Qed.

Theorem parse_fragment_exactly : forall s ts, parse_fragment s = Some ts <-> exists ns, steps encoded s ns /\ ts = map make_token ns.
Proof.
  intros s ts. split.
  - intros H. destruct s as [|c s]; [injection H as <-; exists []; split; [constructor|reflexivity]|]. cbn [parse_fragment] in H. destruct (Ascii.eqb_spec c "/") as [->|_]; [|discriminate].
    destruct (fragment_names [] s) as [[n ns]|] eqn:E; [|discriminate]. injection H as <-. exists (n :: ns). split; [|reflexivity]. apply steps_first.
    now apply (fragment_sound (S (List.length s))) in E; [|lia].
  - intros (ns & H & ->). apply fragment_complete in H as [[-> ->]|(s' & n & ns' & -> & -> & E)]; [reflexivity|]. cbn [parse_fragment Ascii.eqb Bool.eqb]. now rewrite E.
Qed.

(** ** Plain pointers *)

Lemma plain_passes : forall s n r, plain s n -> pointer_names (s ++ r) = prefix n (pointer_names r).
Proof.
  intros s n r H. induction H as [|s n H IH|s n H IH|c s n N1 N2 H IH]; cbn [app pointer_names Ascii.eqb Bool.eqb].
  - now destruct (pointer_names r) as [[t ts]|].
  - rewrite IH. now destruct (pointer_names r) as [[t ts]|].
  - rewrite IH. now destruct (pointer_names r) as [[t ts]|].
  - destruct (Ascii.eqb_spec c "/"); [contradiction|]. destruct (Ascii.eqb_spec c "~"); [contradiction|]. rewrite IH. now destruct (pointer_names r) as [[t ts]|].
Qed.

Lemma plain_sound : forall k s t ts, List.length s < k -> pointer_names s = Some (t, ts) -> exists x r, s = x ++ r /\ plain x t /\ steps plain r ts.
Proof.
  induction k as [|k IH]; intros s t ts L H; [lia|]. destruct s as [|c s1].
  { injection H as <- <-. exists [], []. repeat split; constructor. }
  cbn [pointer_names] in H. cbn [List.length] in L. destruct (Ascii.eqb_spec c "/") as [->|Ns].
  - destruct (pointer_names s1) as [[t' ts']|] eqn:E; [|discriminate]. injection H as <- <-. destruct (IH s1 t' ts' ltac:(lia) E) as (x & r & -> & Ex & Hr).
    exists [], ("/" :: x ++ r). split; [reflexivity|]. split; [constructor|now constructor].
  - destruct (Ascii.eqb_spec c "~") as [->|Nt].
    + destruct s1 as [|d s2]; [discriminate|]. cbn [List.length] in L. destruct (Ascii.eqb_spec d "0") as [->|_].
      * destruct (pointer_names s2) as [[t' ts']|] eqn:E; [|discriminate]. injection H as <- <-. destruct (IH s2 t' ts' ltac:(lia) E) as (x & r & -> & Ex & Hr).
        exists ("~" :: "0" :: x), r. split; [reflexivity|]. split; [now constructor|exact Hr].
      * destruct (Ascii.eqb_spec d "1") as [->|_]; [|discriminate]. destruct (pointer_names s2) as [[t' ts']|] eqn:E; [|discriminate]. injection H as <- <-.
        destruct (IH s2 t' ts' ltac:(lia) E) as (x & r & -> & Ex & Hr). exists ("~" :: "1" :: x), r. split; [reflexivity|]. split; [now constructor|exact Hr].
    + destruct (pointer_names s1) as [[t' ts']|] eqn:E; [|discriminate]. injection H as <- <-. destruct (IH s1 t' ts' ltac:(lia) E) as (x & r & -> & Ex & Hr).
      exists (c :: x), r. split; [reflexivity|]. split; [now constructor|exact Hr].
Qed.

Lemma plain_complete : forall r ns, steps plain r ns -> r = [] /\ ns = [] \/ exists s n ns', r = "/" :: s /\ ns = n :: ns' /\ pointer_names s = Some (n, ns').
Proof.
  intros r ns H. induction H as [|s n r ns Hs H IH]; [now left|]. right. exists (s ++ r), n, ns. split; [reflexivity|]. split; [reflexivity|].
  rewrite (plain_passes s n r Hs). destruct IH as [[-> ->]|(s' & n' & ns' & -> & -> & E)].
  - cbn. now rewrite app_nil_r.
  - cbn [pointer_names Ascii.eqb Bool.eqb]. rewrite E. cbn. now rewrite app_nil_r.
Qed.

Theorem parse_pointer_exactly : forall s ts, parse_pointer s = Some ts <-> exists ns, steps plain s ns /\ ts = map make_token ns.
Proof.
  intros s ts. split.
  - intros H. destruct s as [|c s]; [injection H as <-; exists []; split; [constructor|reflexivity]|]. cbn [parse_pointer] in H. destruct (Ascii.eqb_spec c "/") as [->|_]; [|discriminate].
    destruct (pointer_names s) as [[n ns]|] eqn:E; [|discriminate]. injection H as <-. exists (n :: ns). split; [|reflexivity]. apply steps_first.
    now apply (plain_sound (S (List.length s))) in E; [|lia].
  - intros (ns & H & ->). apply plain_complete in H as [[-> ->]|(s' & n & ns' & -> & -> & E)]; [reflexivity|]. cbn [parse_pointer Ascii.eqb Bool.eqb]. now rewrite E.
Qed.

Lemma steps_head : forall P s ns, steps P s ns -> s = [] \/ exists r, s = "/" :: r.
Proof. intros P s ns []; eauto. Qed.

Theorem parse_reference_exactly : forall s ts, parse_reference s = Some ts <-> exists ns, refers s ns /\ ts = map make_token ns.
Proof.
  intros s ts. destruct s as [|c s].
  - cbn [parse_reference]. rewrite parse_pointer_exactly. split; intros (ns & H & ->); exists ns; (split; [|reflexivity]); [now constructor|]. now inversion H; subst.
  - cbn [parse_reference]. destruct (Ascii.eqb_spec c "#") as [->|N].
    + rewrite parse_fragment_exactly. split; intros (ns & H & ->); exists ns; (split; [|reflexivity]); [now constructor|]. inversion H as [? ? X|? ? X]; subst; [|exact X].
      apply steps_head in X as [X|[r X]]; discriminate.
    + rewrite parse_pointer_exactly. split; intros (ns & H & ->); exists ns; (split; [|reflexivity]); [now constructor|]. inversion H as [? ? X|? ? X]; subst; [exact X|contradiction].
Qed.

Theorem parse_reference_malformed : forall s, parse_reference s = None <-> ~ exists ns, refers s ns.
Proof.
  intros s. pose proof (parse_reference_exactly s) as H. destruct (parse_reference s) as [ts|]; split; try discriminate; auto.
  - intros N. exfalso. apply N. destruct (proj1 (H ts) eq_refl) as (ns & R & _). eauto.
  - intros _ (ns & R). enough (None = Some (map make_token ns)) by discriminate. apply H. eauto.
Qed.

Lemma tokens_names : forall ns ns', map make_token ns = map make_token ns' -> ns = ns'.
Proof. induction ns as [|n ns IH]; intros [|n' ns'] H; try discriminate; [reflexivity|]. injection H as <- H. f_equal. now apply IH. Qed.

Theorem refers_one : forall s ns ns', refers s ns -> refers s ns' -> ns = ns'.
Proof.
  intros s ns ns' H H'. apply tokens_names. assert (A : parse_reference s = Some (map make_token ns)) by (apply parse_reference_exactly; eauto).
  assert (B : parse_reference s = Some (map make_token ns')) by (apply parse_reference_exactly; eauto). congruence.
Qed.

(** A reference that the library writes is plain. *)
Lemma plain_reference : forall s, parse_reference ("/" :: s) = parse_pointer ("/" :: s).
Proof. reflexivity. Qed.
