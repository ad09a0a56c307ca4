(** Proofs about the base64 decoder. *)
From Coq Require Import List Arith NArith Ascii String Bool Lia ZifyBool ZifyNat ZifyN ZArith.
From Verif Require Import Base Base64Model Base64Spec Base64Proof.
Import ListNotations.

(** * Numbers below 64 *)

Definition all_64 : list N := map N.of_nat (seq 0 64).

Lemma in_all_64 : forall v, (v < 64)%N -> In v all_64.
Proof.
  intros v H. unfold all_64. apply in_map_iff. exists (N.to_nat v). split.
  - apply N2Nat.id.
  - apply in_seq. lia.
Qed.

Lemma all_64_1 : forall P : N -> bool, forallb P all_64 = true -> forall v, (v < 64)%N -> P v = true.
Proof. intros P H v Hv. rewrite forallb_forall in H. apply H, in_all_64, Hv. Qed.

Lemma all_64_2 : forall P : N -> N -> bool,
  forallb (fun a => forallb (P a) all_64) all_64 = true ->
  forall v w, (v < 64)%N -> (w < 64)%N -> P v w = true.
Proof.
  intros P H v w Hv Hw. rewrite forallb_forall in H.
  specialize (H v (in_all_64 v Hv)). rewrite forallb_forall in H. apply H, in_all_64, Hw.
Qed.

(** * The decode table *)

Lemma dec_val_alphabet : forall v, (v < 64)%N -> dec_val (alphabet v) = v.
Proof.
  intros v H. apply N.eqb_eq. revert v H. apply all_64_1. vm_compute. reflexivity.
Qed.

Lemma dec_val_cases : forall c,
  ((dec_val c < 64)%N /\ alphabet (dec_val c) = c) \/ dec_val c = 255%N.
Proof.
  intros c.
  assert (((dec_val c <? 64)%N && Ascii.eqb (alphabet (dec_val c)) c || (dec_val c =? 255)%N) = true) as H.
  { revert c. apply all_bytes_1. vm_compute. reflexivity. }
  apply orb_true_iff in H. destruct H as [H|H].
  - apply andb_true_iff in H. destruct H as [H1 H2]. left. split.
    + now apply N.ltb_lt.
    + now apply Ascii.eqb_eq.
  - right. now apply N.eqb_eq.
Qed.

Lemma char_value_dec : forall c v, char_value c v <-> ((v < 64)%N /\ dec_val c = v).
Proof.
  intros c v. split.
  - intros [H <-]. split; [assumption|]. now apply dec_val_alphabet.
  - intros [H <-]. destruct (dec_val_cases c) as [[H1 H2]|H1]; [|lia].
    split; assumption.
Qed.

Lemma eq_not_char : dec_val "=" = 255%N.
Proof. reflexivity. Qed.

Lemma small_mask : forall v, (v < 64)%N -> N.land v 192 = 0%N.
Proof. intros v H. apply N.eqb_eq. revert v H. apply all_64_1. vm_compute. reflexivity. Qed.

Lemma mask_spec : forall c, N.land (dec_val c) 192 = 0%N <-> (dec_val c < 64)%N.
Proof.
  intros c. split; intros H.
  - destruct (dec_val_cases c) as [[H1 _]|H1]; [assumption|].
    rewrite H1 in H. discriminate H.
  - now apply small_mask.
Qed.

Lemma mask4 : forall a b c d,
  negb (N.land (N.lor (N.lor (N.lor (dec_val a) (dec_val b)) (dec_val c)) (dec_val d)) 192 =? 0)%N
  = false <-> ((dec_val a < 64 /\ dec_val b < 64) /\ (dec_val c < 64 /\ dec_val d < 64))%N.
Proof.
  intros. rewrite negb_false_iff, N.eqb_eq, !N.land_lor_distr_l, !N.lor_eq_0_iff.
  rewrite !mask_spec. tauto.
Qed.

(** * Three bytes from four values *)

Definition dec3 (a b c d : N) : list byte :=
  [ to_byte (N.lor (N.shiftl a 2) (N.shiftr b 4));
    to_byte (N.lor (N.shiftl (N.land b 15) 4) (N.shiftr c 2));
    to_byte (N.lor (N.shiftl (N.land c 3) 6) d) ].

Lemma dec_b1 : forall a b, (a < 64)%N -> (b < 64)%N ->
  [to_byte (N.lor (N.shiftl a 2) (N.shiftr b 4))] = whole_bytes (bits6 a ++ firstn 2 (bits6 b)).
Proof.
  intros a b Ha Hb.
  assert (match whole_bytes (bits6 a ++ firstn 2 (bits6 b)) with
          | [x] => Ascii.eqb (to_byte (N.lor (N.shiftl a 2) (N.shiftr b 4))) x
          | _ => false end = true) as H.
  { revert a b Ha Hb. apply all_64_2. vm_compute. reflexivity. }
  destruct (whole_bytes _) as [|x [|]]; try discriminate.
  apply Ascii.eqb_eq in H. now rewrite H.
Qed.

Lemma dec_b2 : forall b c, (b < 64)%N -> (c < 64)%N ->
  [to_byte (N.lor (N.shiftl (N.land b 15) 4) (N.shiftr c 2))]
  = whole_bytes (skipn 2 (bits6 b) ++ firstn 4 (bits6 c)).
Proof.
  intros a b Ha Hb.
  assert (match whole_bytes (skipn 2 (bits6 a) ++ firstn 4 (bits6 b)) with
          | [x] => Ascii.eqb (to_byte (N.lor (N.shiftl (N.land a 15) 4) (N.shiftr b 2))) x
          | _ => false end = true) as H.
  { revert a b Ha Hb. apply all_64_2. vm_compute. reflexivity. }
  destruct (whole_bytes _) as [|x [|]]; try discriminate.
  apply Ascii.eqb_eq in H. now rewrite H.
Qed.

Lemma dec_b3 : forall c d, (c < 64)%N -> (d < 64)%N ->
  [to_byte (N.lor (N.shiftl (N.land c 3) 6) d)]
  = whole_bytes (skipn 4 (bits6 c) ++ bits6 d).
Proof.
  intros a b Ha Hb.
  assert (match whole_bytes (skipn 4 (bits6 a) ++ bits6 b) with
          | [x] => Ascii.eqb (to_byte (N.lor (N.shiftl (N.land a 3) 6) b)) x
          | _ => false end = true) as H.
  { revert a b Ha Hb. apply all_64_2. vm_compute. reflexivity. }
  destruct (whole_bytes _) as [|x [|]]; try discriminate.
  apply Ascii.eqb_eq in H. now rewrite H.
Qed.

Lemma dec3_spec : forall a b c d, (a < 64)%N -> (b < 64)%N -> (c < 64)%N -> (d < 64)%N ->
  dec3 a b c d = whole_bytes (bits6 a ++ bits6 b ++ bits6 c ++ bits6 d).
Proof.
  intros a b c d Ha Hb Hc Hd. unfold dec3.
  pose proof (dec_b1 a b Ha Hb) as H1. pose proof (dec_b2 b c Hb Hc) as H2.
  pose proof (dec_b3 c d Hc Hd) as H3. cbn [bits6 firstn skipn app whole_bytes] in H1, H2, H3.
  apply (f_equal (hd Ascii.zero)) in H1, H2, H3. cbn [hd] in H1, H2, H3.
  rewrite H1, H2, H3. reflexivity.
Qed.

Lemma list_ind8 : forall (A : Type) (P : list A -> Prop),
  (forall l, (List.length l < 8)%nat -> P l) ->
  (forall a b c d e f g h r, P r -> P (a :: b :: c :: d :: e :: f :: g :: h :: r)) ->
  forall l, P l.
Proof.
  intros A P H0 H1.
  fix IH 1. intros [|a [|b [|c [|d [|e [|f [|g [|h r]]]]]]]];
    try (apply H0; cbn; lia).
  apply H1, IH.
Qed.

Lemma list_ind6 : forall (A : Type) (P : list A -> Prop),
  (forall l, (List.length l < 6)%nat -> P l) ->
  (forall a b c d e f r, P r -> P (a :: b :: c :: d :: e :: f :: r)) ->
  forall l, P l.
Proof.
  intros A P H0 H1.
  fix IH 1. intros [|a [|b [|c [|d [|e [|f r]]]]]];
    try (apply H0; cbn; lia).
  apply H1, IH.
Qed.

Lemma whole_bytes_short : forall l, (List.length l < 8)%nat -> whole_bytes l = [].
Proof.
  intros l H. do 8 (destruct l as [|? l]; [reflexivity|]). cbn in H. lia.
Qed.

Lemma left_over_short : forall l, (List.length l < 8)%nat -> left_over l = l.
Proof.
  intros l H. do 8 (destruct l as [|? l]; [reflexivity|]). cbn in H. lia.
Qed.

Lemma whole_bytes_app : forall l r, (List.length l mod 8 = 0)%nat ->
  whole_bytes (l ++ r) = whole_bytes l ++ whole_bytes r.
Proof.
  induction l as [l H|b7 b6 b5 b4 b3 b2 b1 b0 l IH] using list_ind8; intros r Hl.
  - destruct l; [reflexivity|]. cbn [List.length] in *. lia.
  - cbn [app whole_bytes]. rewrite IH; [reflexivity|]. cbn [List.length] in Hl. lia.
Qed.

Lemma bits_split : forall l, l = flat_map bits8 (whole_bytes l) ++ left_over l.
Proof.
  induction l as [l H|b7 b6 b5 b4 b3 b2 b1 b0 l IH] using list_ind8.
  - rewrite whole_bytes_short, left_over_short by assumption. reflexivity.
  - cbn [whole_bytes left_over flat_map bits8 app]. rewrite <- IH. reflexivity.
Qed.

Lemma left_over_lt : forall l, (List.length (left_over l) < 8)%nat.
Proof.
  induction l as [l H|b7 b6 b5 b4 b3 b2 b1 b0 l IH] using list_ind8.
  - now rewrite left_over_short.
  - exact IH.
Qed.

Lemma left_over_mod : forall l, (List.length (left_over l) = List.length l mod 8)%nat.
Proof.
  induction l as [l H|b7 b6 b5 b4 b3 b2 b1 b0 l IH] using list_ind8.
  - rewrite left_over_short by assumption. lia.
  - cbn [left_over List.length]. rewrite IH. lia.
Qed.

Lemma whole_bytes_bits8 : forall d l, (List.length l < 8)%nat ->
  whole_bytes (flat_map bits8 d ++ l) = d.
Proof.
  induction d as [|[b0 b1 b2 b3 b4 b5 b6 b7] d IH]; intros l H.
  - now apply whole_bytes_short.
  - cbn [flat_map bits8 app whole_bytes]. rewrite IH; [reflexivity|assumption].
Qed.

Lemma left_over_bits8 : forall d l, (List.length l < 8)%nat ->
  left_over (flat_map bits8 d ++ l) = l.
Proof.
  induction d as [|[b0 b1 b2 b3 b4 b5 b6 b7] d IH]; intros l H.
  - now apply left_over_short.
  - cbn [flat_map bits8 app left_over]. now rewrite IH.
Qed.

Lemma length_bits8 : forall d, List.length (flat_map bits8 d) = (8 * List.length d)%nat.
Proof.
  induction d as [|[] d IH]; [reflexivity|]. cbn [flat_map bits8 app List.length]. rewrite IH. lia.
Qed.

Lemma length_bits6 : forall v, List.length (flat_map bits6 v) = (6 * List.length v)%nat.
Proof.
  induction v as [|x v IH]; [reflexivity|]. cbn [flat_map bits6 app List.length]. rewrite IH. lia.
Qed.

(** * One quadruplet *)

Lemma quad_ok : forall a b c d va vb vc vd pre z rest r,
  char_value a va -> char_value b vb -> char_value c vc -> char_value d vd ->
  List.length z = 3%nat -> r = List.length pre ->
  decode_quadruplet a b c d (pre ++ z ++ rest) r
  = Some (true, pre ++ whole_bytes (flat_map bits6 [va; vb; vc; vd]) ++ rest).
Proof.
  intros a b c d va vb vc vd pre z rest r Ha Hb Hc Hd Hz Hr.
  apply char_value_dec in Ha, Hb, Hc, Hd.
  destruct Ha as [Ha Ea], Hb as [Hb Eb], Hc as [Hc Ec], Hd as [Hd Ed].
  unfold decode_quadruplet. cbv zeta.
  replace (negb _) with false.
  2:{ symmetry. apply mask4. rewrite Ea, Eb, Ec, Ed. tauto. }
  rewrite Ea, Eb, Ec, Ed.
  fold (dec3 va vb vc vd).
  rewrite store_all_app' by assumption. cbn [bind].
  rewrite dec3_spec by assumption. cbn [flat_map]. rewrite app_nil_r. reflexivity.
Qed.

Lemma quad_fail : forall a b c d buf r,
  ~ (((dec_val a < 64 /\ dec_val b < 64) /\ (dec_val c < 64 /\ dec_val d < 64))%N) ->
  decode_quadruplet a b c d buf r = Some (false, buf).
Proof.
  intros a b c d buf r H. unfold decode_quadruplet. cbv zeta.
  destruct (negb _) eqn:E; [reflexivity|]. apply mask4 in E. contradiction.
Qed.

(** * The loop *)

Lemma load4 : forall pre a b c d rest p, p = List.length pre ->
  load (pre ++ a :: b :: c :: d :: rest) p = Some a /\
  load (pre ++ a :: b :: c :: d :: rest) (p + 1) = Some b /\
  load (pre ++ a :: b :: c :: d :: rest) (p + 2) = Some c /\
  load (pre ++ a :: b :: c :: d :: rest) (p + 3) = Some d.
Proof.
  intros. subst. unfold load.
  rewrite !nth_error_app2 by lia.
  replace (List.length pre - List.length pre)%nat with 0%nat by lia.
  replace (List.length pre + 1 - List.length pre)%nat with 1%nat by lia.
  replace (List.length pre + 2 - List.length pre)%nat with 2%nat by lia.
  replace (List.length pre + 3 - List.length pre)%nat with 3%nat by lia.
  repeat split.
Qed.

Lemma quad_loop_ok : forall k pre body vals rest bpre z brest p r,
  List.length body = (4 * k)%nat -> Forall2 char_value body vals ->
  List.length z = (3 * k)%nat -> p = List.length pre -> r = List.length bpre ->
  quad_loop (pre ++ body ++ rest) k p r (bpre ++ z ++ brest)
  = Some (true, bpre ++ whole_bytes (flat_map bits6 vals) ++ brest).
Proof.
  induction k as [|k IH]; intros pre body vals rest bpre z brest p r Hb Hv Hz Hp Hr.
  - destruct body; [|cbn in Hb; lia]. destruct z; [|cbn in Hz; lia].
    inversion Hv; subst. reflexivity.
  - destruct body as [|a [|b [|c [|d body]]]]; cbn [List.length] in Hb; try lia.
    inversion Hv as [|? va ? v1 Ha Hv1]; subst. inversion Hv1 as [|? vb ? v2 Hb2 Hv2]; subst.
    inversion Hv2 as [|? vc ? v3 Hc Hv3]; subst. inversion Hv3 as [|? vd ? v4 Hd Hv4]; subst.
    cbn [quad_loop app].
    destruct (load4 pre a b c d (body ++ rest) _ eq_refl) as (E1 & E2 & E3 & E4).
    rewrite E1, E2, E3, E4. cbn [bind].
    replace z with (firstn 3 z ++ skipn 3 z) by apply firstn_skipn.
    rewrite <- (app_assoc (firstn 3 z)).
    rewrite (quad_ok a b c d va vb vc vd) by (auto; rewrite firstn_length_le; lia).
    cbn [bind fst snd].
    replace (pre ++ a :: b :: c :: d :: body ++ rest) with ((pre ++ [a; b; c; d]) ++ body ++ rest)
      by (rewrite <- app_assoc; reflexivity).
    rewrite (app_assoc bpre).
    rewrite IH with (vals := v4).
    + rewrite <- app_assoc. reflexivity.
    + lia.
    + assumption.
    + rewrite skipn_length. lia.
    + rewrite app_length. cbn [List.length]. lia.
    + rewrite app_length. cbn [List.length flat_map bits6 app whole_bytes]. lia.
Qed.

Lemma quad_loop_fail : forall k pre body rest bpre z brest p r,
  List.length body = (4 * k)%nat -> ~ Forall (fun c => (dec_val c < 64)%N) body ->
  List.length z = (3 * k)%nat -> p = List.length pre -> r = List.length bpre ->
  exists o, quad_loop (pre ++ body ++ rest) k p r (bpre ++ z ++ brest) = Some (false, o).
Proof.
  induction k as [|k IH]; intros pre body rest bpre z brest p r Hb Hv Hz Hp Hr.
  - destruct body; [|cbn in Hb; lia]. exfalso. apply Hv. constructor.
  - destruct body as [|a [|b [|c [|d body]]]]; cbn [List.length] in Hb; try lia.
    cbn [quad_loop app].
    destruct (load4 pre a b c d (body ++ rest) _ Hp) as (E1 & E2 & E3 & E4).
    rewrite E1, E2, E3, E4. cbn [bind].
    destruct (negb (N.land (N.lor (N.lor (N.lor (dec_val a) (dec_val b)) (dec_val c)) (dec_val d)) 192 =? 0)%N) eqn:E.
    + rewrite quad_fail.
      * cbn [bind fst snd]. eauto.
      * intros H. apply mask4 in H. congruence.
    + apply mask4 in E. destruct E as ((Ha & Hb') & (Hc & Hd)).
      replace z with (firstn 3 z ++ skipn 3 z) by apply firstn_skipn.
      rewrite <- (app_assoc (firstn 3 z)).
      rewrite (quad_ok a b c d (dec_val a) (dec_val b) (dec_val c) (dec_val d))
        by (try (apply char_value_dec; auto); auto; rewrite firstn_length_le; lia).
      cbn [bind fst snd].
      replace (pre ++ a :: b :: c :: d :: body ++ rest) with ((pre ++ [a; b; c; d]) ++ body ++ rest)
        by (rewrite <- app_assoc; reflexivity).
      rewrite (app_assoc bpre).
      apply IH.
      * lia.
      * intros HF. apply Hv. repeat (constructor; [assumption|]). assumption.
      * rewrite skipn_length. lia.
      * rewrite app_length. cbn [List.length]. lia.
      * rewrite app_length. cbn [List.length flat_map bits6 app whole_bytes]. lia.
Qed.

(** * The whole decoder *)

Definition last_quad (c4 c3 c2 c1 : byte) (pre : list byte) (r : nat) : option (bool * list byte) :=
      if Ascii.eqb c2 "=" then
        if negb (Ascii.eqb c1 "=") then Some (false, pre ++ repeat Ascii.zero 3)
        else
          do! res2 <- decode_quadruplet c4 c3 "A" "A" (pre ++ repeat Ascii.zero 3) r;
          if fst res2 then
            do! o1 <- pop_back (snd res2);
            do! o2 <- pop_back o1;
            Some (true, o2)
          else Some (false, snd res2)
      else if Ascii.eqb c1 "=" then
        do! res2 <- decode_quadruplet c4 c3 c2 "A" (pre ++ repeat Ascii.zero 3) r;
        if fst res2 then
          do! o1 <- pop_back (snd res2);
          Some (true, o1)
        else Some (false, snd res2)
      else decode_quadruplet c4 c3 c2 c1 (pre ++ repeat Ascii.zero 3) r.

Lemma forall_dec_vals : forall body, Forall (fun c => (dec_val c < 64)%N) body ->
  Forall2 char_value body (map dec_val body).
Proof.
  induction 1 as [|c body H _ IH]; cbn; constructor; auto.
  apply char_value_dec. auto.
Qed.

Lemma forall2_vals : forall body vals, Forall2 char_value body vals ->
  Forall (fun c => (dec_val c < 64)%N) body /\ vals = map dec_val body.
Proof.
  induction 1 as [|c v body vals H _ [IH1 IH2]]; cbn [map]; split; auto.
  - constructor; auto. apply char_value_dec in H. destruct H as [H E]. now rewrite E.
  - apply char_value_dec in H. destruct H as [_ <-]. now f_equal.
Qed.

Lemma forall_dec_b : forall body,
  {Forall (fun c => (dec_val c < 64)%N) body} + {~ Forall (fun c => (dec_val c < 64)%N) body}.
Proof.
  intros. apply Forall_dec. intros x. destruct (N.ltb (dec_val x) 64) eqn:E; [left|right]; lia.
Qed.

(** Splitting an input whose length is a positive multiple of four. *)
Lemma split_last4 : forall s : list byte, s <> [] -> (List.length s mod 4 = 0)%nat ->
  exists body c4 c3 c2 c1, s = body ++ [c4; c3; c2; c1] /\
    (List.length body mod 4 = 0)%nat.
Proof.
  intros s Hne Hm.
  pose (k := (List.length s - 4)%nat).
  assert (List.length s >= 4)%nat by (destruct s; [congruence|]; cbn [List.length] in *; lia).
  exists (firstn k s).
  destruct (skipn k s) as [|c4 [|c3 [|c2 [|c1 [|]]]]] eqn:E;
    pose proof (f_equal (@List.length _) E) as L; rewrite skipn_length in L; unfold k in L;
    cbn [List.length] in L; try lia.
  exists c4, c3, c2, c1. split.
  - rewrite <- E. symmetry. apply firstn_skipn.
  - rewrite firstn_length_le by (unfold k; lia). unfold k. lia.
Qed.

Lemma decode_unfold : forall body c4 c3 c2 c1, (List.length body mod 4 = 0)%nat ->
  Forall (fun c => (dec_val c < 64)%N) body ->
  let pre := whole_bytes (flat_map bits6 (map dec_val body)) in
  base64_decode (body ++ [c4; c3; c2; c1]) = last_quad c4 c3 c2 c1 pre (List.length pre).
Proof.
  intros body c4 c3 c2 c1 Hm HF pre.
  assert (exists k, List.length body = 4 * k)%nat as [k Hk]
    by (exists (Nat.div (List.length body) 4); lia).
  unfold base64_decode. cbv zeta. rewrite app_length, Hk. cbn [List.length].
  replace (Nat.eqb _ 0) with false by (symmetry; apply Nat.eqb_neq; lia).
  replace (Nat.modulo (4 * k + 4) 4) with 0%nat by lia. cbn [negb Nat.eqb].
  replace (Nat.div (4 * k + 4) 4) with (S k) by lia.
  replace (S k - 1)%nat with k by lia.
  replace (S k * 3)%nat with (3 * k + 3)%nat by lia.
  rewrite repeat_split.
  assert (List.length pre = 3 * k)%nat as Lpre.
  { unfold pre.
    pose proof (f_equal (@List.length _) (bits_split (flat_map bits6 (map dec_val body)))) as L.
    rewrite app_length, length_bits8, length_bits6, map_length, left_over_mod, length_bits6, map_length, Hk in L.
    lia. }
  pose proof (quad_loop_ok k [] body (map dec_val body) [c4; c3; c2; c1] []
    (repeat Ascii.zero (3 * k)) (repeat Ascii.zero 3) 0 0 Hk (forall_dec_vals _ HF)
    (repeat_length _ _) eq_refl eq_refl) as E.
  cbn [app] in E. rewrite E. cbn [bind fst snd negb]. clear E.
  destruct (load4 body c4 c3 c2 c1 [] (4 * k) (eq_sym Hk)) as (E1 & E2 & E3 & E4).
  replace (4 * k + 4 - 4)%nat with (4 * k)%nat by lia.
  replace (4 * k + 4 - 3)%nat with (4 * k + 1)%nat by lia.
  replace (4 * k + 4 - 2)%nat with (4 * k + 2)%nat by lia.
  replace (4 * k + 4 - 1)%nat with (4 * k + 3)%nat by lia.
  rewrite E1, E2, E3, E4. cbn [bind].
  replace (k * 3)%nat with (List.length pre) by lia.
  fold pre. reflexivity.
Qed.

Lemma decode_unfold_fail : forall body c4 c3 c2 c1, (List.length body mod 4 = 0)%nat ->
  ~ Forall (fun c => (dec_val c < 64)%N) body ->
  exists o, base64_decode (body ++ [c4; c3; c2; c1]) = Some (false, o).
Proof.
  intros body c4 c3 c2 c1 Hm HF.
  assert (exists k, List.length body = 4 * k)%nat as [k Hk]
    by (exists (Nat.div (List.length body) 4); lia).
  unfold base64_decode. cbv zeta. rewrite app_length, Hk. cbn [List.length].
  replace (Nat.eqb _ 0) with false by (symmetry; apply Nat.eqb_neq; lia).
  replace (Nat.modulo (4 * k + 4) 4) with 0%nat by lia. cbn [negb Nat.eqb].
  replace (Nat.div (4 * k + 4) 4) with (S k) by lia.
  replace (S k - 1)%nat with k by lia.
  replace (S k * 3)%nat with (3 * k + 3)%nat by lia.
  rewrite repeat_split.
  destruct (quad_loop_fail k [] body [c4; c3; c2; c1] []
    (repeat Ascii.zero (3 * k)) (repeat Ascii.zero 3) 0 0 Hk HF
    (repeat_length _ _) eq_refl eq_refl) as [o E].
  cbn [app] in E. rewrite E. cbn [bind fst snd negb]. eauto.
Qed.

Lemma pop_back_app : forall l x, pop_back (l ++ [x]) = Some l.
Proof.
  intros. unfold pop_back. rewrite removelast_last. destruct l; reflexivity.
Qed.

Lemma char_A : char_value "A" 0.
Proof. split; [reflexivity|reflexivity]. Qed.

Lemma whole1 : forall a b, exists x, whole_bytes (flat_map bits6 [a; b; 0%N; 0%N]) =
  whole_bytes (flat_map bits6 [a; b]) ++ [x; Ascii.zero] /\ True.
Proof. intros. cbn. eexists. split; reflexivity. Qed.

Lemma whole2 : forall a b c, exists x, whole_bytes (flat_map bits6 [a; b; c; 0%N]) =
  whole_bytes (flat_map bits6 [a; b; c]) ++ [x].
Proof. intros. cbn. eexists. reflexivity. Qed.

(** The last quadruplet, all outcomes. *)
Lemma last_quad_spec : forall c4 c3 c2 c1 pre,
  (exists tail vals, tail ++ repeat "="%char (4 - List.length tail) = [c4; c3; c2; c1] /\
     (2 <= List.length tail <= 4)%nat /\ Forall2 char_value tail vals /\
     last_quad c4 c3 c2 c1 pre (List.length pre)
     = Some (true, pre ++ whole_bytes (flat_map bits6 vals)))
  \/ ((exists o, last_quad c4 c3 c2 c1 pre (List.length pre) = Some (false, o)) /\
      ~ (exists tail k, tail ++ repeat "="%char k = [c4; c3; c2; c1] /\ (k <= 2)%nat /\
           Forall (fun c => (dec_val c < 64)%N) tail)).
Proof.
  intros c4 c3 c2 c1 pre. unfold last_quad.
  assert (Hinv : forall tail k, tail ++ repeat "="%char k = [c4; c3; c2; c1] -> (k <= 2)%nat ->
           Forall (fun c => (dec_val c < 64)%N) tail ->
           (k = 0%nat /\ tail = [c4; c3; c2; c1]) \/
           (k = 1%nat /\ tail = [c4; c3; c2] /\ c1 = "="%char) \/
           (k = 2%nat /\ tail = [c4; c3] /\ c2 = "="%char /\ c1 = "="%char)).
  { intros tail k E Hk _.
    destruct k as [|[|[|]]]; [| | |lia].
    - cbn [repeat] in E. rewrite app_nil_r in E. auto.
    - right; left. cbn [repeat] in E.
      change [c4; c3; c2; c1] with ([c4; c3; c2] ++ [c1]) in E. apply app_inj_tail in E.
      destruct E; subst; auto.
    - right; right. cbn [repeat] in E.
      change [c4; c3; c2; c1] with (([c4; c3] ++ [c2]) ++ [c1]) in E.
      change ["="%char; "="%char] with (["="%char] ++ ["="%char]) in E.
      rewrite app_assoc in E. apply app_inj_tail in E. destruct E as [E <-].
      apply app_inj_tail in E. destruct E as [E <-]. auto. }
  destruct (Ascii.eqb_spec c2 "=") as [->|N2].
  - destruct (Ascii.eqb_spec c1 "=") as [->|N1]; cbn [negb].
    + destruct (forall_dec_b [c4; c3]) as [HF|HF].
      * left. exists [c4; c3], (map dec_val [c4; c3]). split; [reflexivity|].
        split; [cbn; lia|]. split; [now apply forall_dec_vals|].
        pose proof (forall_dec_vals _ HF) as H2. cbn [map] in H2.
        inversion H2 as [|? ? ? ? Ha H3]; subst. inversion H3 as [|? ? ? ? Hb _]; subst.
        replace (pre ++ repeat Ascii.zero 3) with (pre ++ repeat Ascii.zero 3 ++ [])
          by (rewrite app_nil_r; reflexivity).
        rewrite (quad_ok c4 c3 "A" "A" (dec_val c4) (dec_val c3) 0 0) by auto using char_A.
        cbn [bind fst snd]. rewrite app_nil_r.
        destruct (whole1 (dec_val c4) (dec_val c3)) as (x & -> & _).
        change [x; Ascii.zero] with ([x] ++ [Ascii.zero]). rewrite !app_assoc.
        rewrite pop_back_app. cbn [bind]. rewrite pop_back_app. reflexivity.
      * right. split.
        { rewrite quad_fail.
          - cbn [bind fst snd]. eauto.
          - intros ((Ha & Hb) & _). apply HF. repeat constructor; assumption. }
        intros (tail & k & E & Hk & Ht).
        destruct (Hinv tail k E Hk Ht) as [[_ ->]|[(_ & -> & _)|(_ & -> & _)]].
        -- inversion Ht as [|? ? ? H']; subst. inversion H' as [|? ? ? H'']; subst.
           inversion H'' as [|? ? H3 ?]; subst. rewrite eq_not_char in H3. lia.
        -- inversion Ht as [|? ? ? H']; subst. inversion H' as [|? ? ? H'']; subst.
           inversion H'' as [|? ? H3 ?]; subst. rewrite eq_not_char in H3. lia.
        -- contradiction.
    + right. split; [eauto|].
      intros (tail & k & E & Hk & Ht).
      destruct (Hinv tail k E Hk Ht) as [[_ ->]|[(_ & -> & ->)|(_ & _ & _ & ->)]]; [|congruence|congruence].
      inversion Ht as [|? ? ? H']; subst. inversion H' as [|? ? ? H'']; subst.
      inversion H'' as [|? ? H3 ?]; subst. rewrite eq_not_char in H3. lia.
  - destruct (Ascii.eqb_spec c1 "=") as [->|N1].
    + destruct (forall_dec_b [c4; c3; c2]) as [HF|HF].
      * left. exists [c4; c3; c2], (map dec_val [c4; c3; c2]). split; [reflexivity|].
        split; [cbn; lia|]. split; [now apply forall_dec_vals|].
        pose proof (forall_dec_vals _ HF) as H2. cbn [map] in H2.
        inversion H2 as [|? ? ? ? Ha H3]; subst. inversion H3 as [|? ? ? ? Hb H4]; subst.
        inversion H4 as [|? ? ? ? Hc _]; subst.
        replace (pre ++ repeat Ascii.zero 3) with (pre ++ repeat Ascii.zero 3 ++ [])
          by (rewrite app_nil_r; reflexivity).
        rewrite (quad_ok c4 c3 c2 "A" (dec_val c4) (dec_val c3) (dec_val c2) 0) by auto using char_A.
        cbn [bind fst snd]. rewrite app_nil_r.
        destruct (whole2 (dec_val c4) (dec_val c3) (dec_val c2)) as (x & ->).
        rewrite !app_assoc. rewrite pop_back_app. reflexivity.
      * right. split.
        { rewrite quad_fail.
          - cbn [bind fst snd]. eauto.
          - intros ((Ha & Hb) & (Hc & _)). apply HF. repeat constructor; assumption. }
        intros (tail & k & E & Hk & Ht).
        destruct (Hinv tail k E Hk Ht) as [[_ ->]|[(_ & -> & _)|(_ & _ & -> & _)]].
        -- inversion Ht as [|? ? ? H']; subst. inversion H' as [|? ? ? H'']; subst.
           inversion H'' as [|? ? ? H3]; subst. inversion H3 as [|? ? H4 ?]; subst.
           rewrite eq_not_char in H4. lia.
        -- contradiction.
        -- congruence.
    + destruct (forall_dec_b [c4; c3; c2; c1]) as [HF|HF].
      * left. exists [c4; c3; c2; c1], (map dec_val [c4; c3; c2; c1]). split; [reflexivity|].
        split; [cbn; lia|]. split; [now apply forall_dec_vals|].
        pose proof (forall_dec_vals _ HF) as H2. cbn [map] in H2.
        inversion H2 as [|? ? ? ? Ha H3]; subst. inversion H3 as [|? ? ? ? Hb H4]; subst.
        inversion H4 as [|? ? ? ? Hc H5]; subst. inversion H5 as [|? ? ? ? Hd _]; subst.
        replace (pre ++ repeat Ascii.zero 3) with (pre ++ repeat Ascii.zero 3 ++ [])
          by (rewrite app_nil_r; reflexivity).
        rewrite (quad_ok c4 c3 c2 c1 (dec_val c4) (dec_val c3) (dec_val c2) (dec_val c1)) by auto.
        rewrite app_nil_r. reflexivity.
      * right. split.
        { rewrite quad_fail.
          - eauto.
          - intros ((Ha & Hb) & (Hc & Hd)). apply HF. repeat constructor; assumption. }
        intros (tail & k & E & Hk & Ht).
        destruct (Hinv tail k E Hk Ht) as [[_ ->]|[(_ & _ & ->)|(_ & _ & -> & _)]];
          [contradiction|congruence|congruence].
Qed.

Lemma decode_cases : forall s,
  (exists vals d, decodes s vals d /\ base64_decode s = Some (true, d))
  \/ ((forall vals d, ~ decodes s vals d) /\ exists o, base64_decode s = Some (false, o)).
Proof.
  intros s. destruct s as [|s0 s'].
  { left. exists [], []. split; [|reflexivity].
    exists [], 0%nat. repeat split; auto; lia. }
  set (s := s0 :: s'). assert (s <> []) as Hne by discriminate. clearbody s. clear s0 s'.
  destruct (Nat.eq_dec (List.length s mod 4) 0) as [Hm|Hm].
  2:{ right. split.
      - intros vals d (body & pads & -> & _ & H & _). contradiction.
      - unfold base64_decode. cbv zeta.
        destruct (Nat.eqb_spec (List.length s) 0) as [H0|H0]; [rewrite H0 in Hm; cbn in Hm; lia|].
        apply Nat.eqb_neq in Hm. rewrite Hm. cbn [negb]. eauto. }
  destruct (split_last4 s Hne Hm) as (body & c4 & c3 & c2 & c1 & -> & Hb). clear Hne.
  (* what a decoding of the whole text says about the parts *)
  assert (Hinv : forall vals d, decodes (body ++ [c4; c3; c2; c1]) vals d ->
    Forall (fun c => (dec_val c < 64)%N) body /\
    exists tail k, tail ++ repeat "="%char k = [c4; c3; c2; c1] /\ (k <= 2)%nat /\
      Forall (fun c => (dec_val c < 64)%N) tail).
  { intros vals d (b & pads & E & Hp & _ & HF & _).
    apply forall2_vals in HF. destruct HF as [HF _].
    assert (List.length b + pads = List.length body + 4)%nat as L.
    { apply (f_equal (@List.length _)) in E. rewrite !app_length, repeat_length in E. cbn in E. lia. }
    assert (b = body ++ skipn (List.length body) b) as Eb.
    { assert (firstn (List.length body) (b ++ repeat "="%char pads) = body) as E1.
      { rewrite <- E. rewrite firstn_app, firstn_all, Nat.sub_diag. cbn. apply app_nil_r. }
      rewrite firstn_app in E1.
      replace (List.length body - List.length b)%nat with 0%nat in E1 by lia.
      cbn [firstn] in E1. rewrite app_nil_r in E1.
      rewrite <- E1 at 1. symmetry. apply firstn_skipn. }
    rewrite Eb in HF. apply Forall_app in HF. destruct HF as [HF1 HF2].
    split; [assumption|]. exists (skipn (List.length body) b), pads.
    split; [|split; assumption].
    rewrite Eb in E at 1. rewrite <- app_assoc in E. apply app_inv_head in E. symmetry. exact E. }
  destruct (forall_dec_b body) as [HF|HF].
  - rewrite decode_unfold by assumption.
    set (pre := whole_bytes (flat_map bits6 (map dec_val body))).
    destruct (last_quad_spec c4 c3 c2 c1 pre) as [(tail & vals & E & Hl & HF2 & ER)|[[o ER] HN]].
    + left. exists (map dec_val body ++ vals), (pre ++ whole_bytes (flat_map bits6 vals)).
      split; [|exact ER].
      exists (body ++ tail), (4 - List.length tail)%nat.
      split; [rewrite <- app_assoc, E; reflexivity|].
      split; [lia|]. split; [exact Hm|].
      split; [apply Forall2_app; [now apply forall_dec_vals|assumption]|].
      rewrite flat_map_app, whole_bytes_app; [reflexivity|].
      rewrite length_bits6, map_length. lia.
    + right. split; [|eauto].
      intros vals d Hd. apply HN. apply (Hinv vals d Hd).
  - right. split.
    + intros vals d Hd. apply HF. apply (Hinv vals d Hd).
    + now apply decode_unfold_fail.
Qed.

(** Text determines body and values. *)
Lemma decodes_fun : forall s v1 d1 v2 d2, decodes s v1 d1 -> decodes s v2 d2 -> v1 = v2 /\ d1 = d2.
Proof.
  intros s v1 d1 v2 d2 (b1 & p1 & E1 & _ & _ & F1 & D1) (b2 & p2 & E2 & _ & _ & F2 & D2).
  apply forall2_vals in F1, F2. destruct F1 as [F1 ->], F2 as [F2 ->].
  assert (b1 = b2) as ->.
  { clear D1 D2. rewrite E1 in E2. clear E1 s. revert b2 F2 E2.
    induction F1 as [|c b1 Hc F1 IH]; intros b2 F2 E2.
    - destruct F2 as [|c2 b2 Hc2 F2]; [reflexivity|]. cbn in E2. exfalso.
      destruct p1; cbn in E2; [discriminate|]. injection E2 as <- _.
      rewrite eq_not_char in Hc2. lia.
    - destruct F2 as [|c2 b2 Hc2 F2].
      + exfalso. cbn in E2. destruct p2; cbn in E2; [discriminate|]. injection E2 as -> _.
        rewrite eq_not_char in Hc. lia.
      + cbn in E2. injection E2 as -> E2. f_equal. now apply IH. }
  subst. split; reflexivity.
Qed.

Lemma decode_iff : forall s d, base64_decode s = Some (true, d) <-> exists vals, decodes s vals d.
Proof.
  intros s d. destruct (decode_cases s) as [(vals & d' & H & E)|[HN [o E]]].
  - rewrite E. split.
    + intros H'. injection H' as <-. eauto.
    + intros (v & Hv). destruct (decodes_fun _ _ _ _ _ H Hv) as [_ ->]. reflexivity.
  - rewrite E. split; [discriminate|]. intros (v & Hv). exfalso. exact (HN _ _ Hv).
Qed.

Lemma decode_total : forall s, exists b o, base64_decode s = Some (b, o).
Proof.
  intros s. destruct (decode_cases s) as [(vals & d' & _ & E)|[_ [o E]]]; eauto.
Qed.

(** * Encoding is decodable *)

Lemma sextets_concat : forall bs, exists k, (k < 6)%nat /\
  List.concat (sextets bs) = bs ++ repeat false k.
Proof.
  induction bs as [l H|a b c d e f r IH] using list_ind6.
  - destruct l as [|a [|b [|c [|d [|e [|]]]]]]; cbn in H; try lia.
    + exists 0%nat. split; [lia|reflexivity].
    + exists 5%nat. split; [lia|reflexivity].
    + exists 4%nat. split; [lia|reflexivity].
    + exists 3%nat. split; [lia|reflexivity].
    + exists 2%nat. split; [lia|reflexivity].
    + exists 1%nat. split; [lia|reflexivity].
  - destruct IH as (k & Hk & E). exists k. split; [assumption|].
    cbn [sextets List.concat app]. rewrite E. reflexivity.
Qed.

Lemma sextets_six : forall bs, Forall (fun g => List.length g = 6%nat) (sextets bs).
Proof.
  induction bs as [l H|a b c d e f r IH] using list_ind6.
  - destruct l as [|a [|b [|c [|d [|e [|]]]]]]; cbn in H; try lia; cbn; repeat constructor.
  - cbn [sextets]. constructor; [reflexivity|assumption].
Qed.

Lemma sextets_length : forall bs, List.length (sextets bs) = ((List.length bs + 5) / 6)%nat.
Proof.
  induction bs as [l H|a b c d e f r IH] using list_ind6.
  - destruct l as [|a [|b [|c [|d [|e [|]]]]]]; cbn in H; try lia; cbn; reflexivity.
  - cbn [sextets List.length]. rewrite IH. lia.
Qed.

Lemma six_bits : forall g, List.length g = 6%nat ->
  bits6 (bits_val g) = g /\ (bits_val g < 64)%N.
Proof.
  intros g H. destruct g as [|a [|b [|c [|d [|e [|f [|]]]]]]]; cbn in H; try lia.
  destruct a, b, c, d, e, f; split; reflexivity.
Qed.

Lemma bits6_val : forall v, (v < 64)%N -> bits_val (bits6 v) = v.
Proof. intros v H. apply N.eqb_eq. revert v H. apply all_64_1. vm_compute. reflexivity. Qed.

Lemma flat_bits6 : forall gs, Forall (fun g => List.length g = 6%nat) gs ->
  flat_map bits6 (map bits_val gs) = List.concat gs.
Proof.
  induction 1 as [|g gs H _ IH]; [reflexivity|].
  cbn [map flat_map List.concat]. rewrite IH. f_equal. now apply six_bits.
Qed.

Lemma rfc_decodes : forall d,
  decodes (rfc4648 d) (map bits_val (sextets (flat_map bits8 d))) d.
Proof.
  intros d. unfold rfc4648, decodes. cbv zeta.
  set (gs := sextets (flat_map bits8 d)).
  assert (Forall (fun g => List.length g = 6%nat) gs) as H6 by apply sextets_six.
  exists (map (fun g => alphabet (bits_val g)) gs).
  eexists. split; [reflexivity|].
  rewrite app_length, repeat_length, map_length.
  assert (List.length gs = (8 * List.length d + 5) / 6)%nat as L.
  { unfold gs. rewrite sextets_length, length_bits8. reflexivity. }
  split; [lia|]. split; [lia|].
  split.
  - clear L. induction H6 as [|g gs' H _ IH]; cbn; constructor; auto.
    split; [apply six_bits; assumption|reflexivity].
  - rewrite flat_bits6 by assumption.
    destruct (sextets_concat (flat_map bits8 d)) as (k & Hk & E).
    fold gs in E. rewrite E. symmetry. apply whole_bytes_bits8. rewrite repeat_length. lia.
Qed.

Lemma encode_decode : forall d, base64_decode (rfc4648 d) = Some (true, d).
Proof. intros d. apply decode_iff. eexists. apply rfc_decodes. Qed.

(** * Canonical texts *)

Lemma sextets_unique : forall gs bs k, Forall (fun g => List.length g = 6%nat) gs -> (k < 6)%nat ->
  bs ++ repeat false k = List.concat gs -> sextets bs = gs.
Proof.
  induction gs as [|g gs IH]; intros bs k HF Hk E.
  - cbn in E. destruct bs; [reflexivity|discriminate].
  - inversion HF as [|? ? Hg HF']; subst.
    destruct g as [|a [|b [|c [|d [|e [|f [|]]]]]]]; cbn in Hg; try lia.
    cbn [List.concat app] in E.
    destruct bs as [|a' [|b' [|c' [|d' [|e' [|f' bs]]]]]].
    + cbn in E. destruct k as [|[|[|[|[|[|]]]]]]; cbn in E; try lia; discriminate.
    + destruct k as [|[|[|[|[|[|]]]]]]; cbn in E; try lia; try discriminate.
      injection E as <- <- <- <- <- <- E. destruct gs as [|g gs]; [reflexivity|].
      exfalso. inversion HF'; subst. destruct g; cbn in *; [lia|discriminate].
    + destruct k as [|[|[|[|[|[|]]]]]]; cbn in E; try lia; try discriminate.
      * injection E as <- <- <- <- <- <- E. destruct gs as [|g gs]; [reflexivity|].
        exfalso. inversion HF'; subst. destruct g; cbn in *; [lia|discriminate].
      * exfalso. injection E as <- <- <- <- <- <- E. destruct gs as [|g gs]; [discriminate|].
        inversion HF'; subst. cbn in E. apply (f_equal (@List.length _)) in E. rewrite app_length in E. cbn in E. lia.
    + destruct k as [|[|[|[|[|[|]]]]]]; cbn in E; try lia; try discriminate.
      * injection E as <- <- <- <- <- <- E. destruct gs as [|g gs]; [reflexivity|].
        exfalso. inversion HF'; subst. destruct g; cbn in *; [lia|discriminate].
      * exfalso. injection E as <- <- <- <- <- <- E. destruct gs as [|g gs]; [discriminate|].
        inversion HF'; subst. cbn in E. apply (f_equal (@List.length _)) in E. rewrite app_length in E. cbn in E. lia.
      * exfalso. injection E as <- <- <- <- <- <- E. destruct gs as [|g gs]; [discriminate|].
        inversion HF'; subst. cbn in E. apply (f_equal (@List.length _)) in E. rewrite app_length in E. cbn in E. lia.
    + destruct k as [|[|[|[|[|[|]]]]]]; cbn in E; try lia; try discriminate;
        injection E as <- <- <- <- <- <- E;
        (destruct gs as [|g gs];
         [first [reflexivity|discriminate]
         |exfalso; inversion HF'; subst; cbn in E; apply (f_equal (@List.length _)) in E;
          rewrite app_length in E; cbn in E; lia]).
    + destruct k as [|[|[|[|[|[|]]]]]]; cbn in E; try lia; try discriminate;
        injection E as <- <- <- <- <- <- E;
        (destruct gs as [|g gs];
         [first [reflexivity|discriminate]
         |exfalso; inversion HF'; subst; cbn in E; apply (f_equal (@List.length _)) in E;
          rewrite app_length in E; cbn in E; lia]).
    + cbn [app] in E. injection E as -> -> -> -> -> -> E. cbn [sextets]. f_equal.
      now apply IH with k.
Qed.

Lemma canonical : forall s vals d, decodes s vals d ->
  (rfc4648 d = s <-> Forall (fun b => b = false) (left_over (flat_map bits6 vals))).
Proof.
  intros s vals d H. split.
  - intros E. subst s.
    destruct (decodes_fun _ _ _ _ _ H (rfc_decodes d)) as [-> _].
    rewrite flat_bits6 by apply sextets_six.
    destruct (sextets_concat (flat_map bits8 d)) as (k & Hk & ->).
    rewrite left_over_bits8 by (rewrite repeat_length; lia).
    clear. induction k; cbn; constructor; auto.
  - intros HF. destruct H as (body & pads & E & Hp & Hm & HV & Hd).
    apply forall2_vals in HV as HV'. destruct HV' as [HC Hvals].
    pose proof (bits_split (flat_map bits6 vals)) as HS. rewrite <- Hd in HS.
    assert (exists k, left_over (flat_map bits6 vals) = repeat false k) as [k Hk].
    { clear -HF. induction HF as [|x l -> _ [k IH]]; [exists 0%nat; reflexivity|].
      exists (S k). rewrite IH. reflexivity. }
    assert (k < 6)%nat as Hk6.
    { pose proof (left_over_mod (flat_map bits6 vals)) as L. rewrite Hk, repeat_length, length_bits6 in L.
      assert (List.length vals = List.length body) as Lv by (rewrite Hvals; apply map_length).
      apply (f_equal (@List.length _)) in E. rewrite app_length, repeat_length in E.
      assert (exists q, List.length s = 4 * q)%nat as [q Hq] by (exists (Nat.div (List.length s) 4); lia).
      lia. }
    assert (sextets (flat_map bits8 d) = map bits6 vals) as HX.
    { apply sextets_unique with k.
      - clear. induction vals; cbn; constructor; auto.
      - assumption.
      - rewrite <- Hk, <- HS. clear. induction vals as [|v vals IH]; [reflexivity|].
        cbn [flat_map map List.concat]. rewrite IH. reflexivity. }
    unfold rfc4648. cbv zeta. rewrite HX, map_map.
    assert (map (fun x => alphabet (bits_val (bits6 x))) vals = body) as ->.
    { clear -HV. induction HV as [|c v body vals [H1 H2] _ IH]; [reflexivity|].
      cbn [map]. rewrite IH, bits6_val, H2 by assumption. reflexivity. }
    rewrite E. f_equal. f_equal.
    assert (List.length body + pads = List.length s)%nat by (subst s; rewrite app_length, repeat_length; lia).
    lia.
Qed.

Lemma encode_after_decode : forall e text data tail,
  base64_decode text = Some (true, data) ->
  (over_read (List.length data) <= List.length tail)%nat ->
  (base64_encode e data tail = Some text <-> trailing_zero text).
Proof.
  intros e text data tail Hd Ho. rewrite encode_ok by assumption.
  apply decode_iff in Hd. destruct Hd as [values Hd]. split.
  - intros E. injection E as E. exists values, data. split; [assumption|].
    now apply (canonical text values data Hd).
  - intros (v & d & H & HF). destruct (decodes_fun _ _ _ _ _ Hd H) as [-> ->].
    f_equal. now apply (canonical text v d H).
Qed.

Lemma canonical_injective : forall t1 t2 data,
  base64_decode t1 = Some (true, data) -> base64_decode t2 = Some (true, data) ->
  trailing_zero t1 -> trailing_zero t2 -> t1 = t2.
Proof.
  intros t1 t2 data H1 H2 (v1 & d1 & D1 & F1) (v2 & d2 & D2 & F2).
  apply decode_iff in H1, H2. destruct H1 as [w1 H1], H2 as [w2 H2].
  destruct (decodes_fun _ _ _ _ _ D1 H1) as [_ ->].
  destruct (decodes_fun _ _ _ _ _ D2 H2) as [_ ->].
  apply (canonical _ _ _ D1) in F1. apply (canonical _ _ _ D2) in F2. congruence.
Qed.

Lemma reads_past_end : forall e input tail,
  base64_encode e input tail = None <-> (List.length tail < over_read (List.length input))%nat.
Proof.
  intros e input tail. split.
  - intros E. destruct (le_lt_dec (over_read (List.length input)) (List.length tail)) as [H|H]; [|assumption].
    rewrite encode_ok in E by assumption. discriminate.
  - apply encode_over.
Qed.

Lemma round_trip : forall e input tail,
  (over_read (List.length input) <= List.length tail)%nat ->
  exists text, base64_encode e input tail = Some text /\
               base64_decode text = Some (true, input).
Proof. intros. exists (rfc4648 input). split; [now apply encode_ok|apply encode_decode]. Qed.

Lemma reads_24 : exists e input, base64_encode e input [] = None.
Proof. exists little, (repeat "a"%char 24). vm_compute. reflexivity. Qed.
