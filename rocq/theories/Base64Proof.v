(** Proofs about the base64 model. *)
From Coq Require Import List Arith NArith Ascii String Bool Lia ZifyBool ZifyNat ZifyN ZArith.
From Verif Require Import Base Base64Model Base64Spec.
Import ListNotations.

Ltac Zify.zify_post_hook ::= Z.div_mod_to_equations.

(** * Finite enumeration of bytes *)

Definition all_bool := [false; true].

Definition all_bytes : list byte :=
  flat_map (fun b0 => flat_map (fun b1 => flat_map (fun b2 => flat_map (fun b3 =>
  flat_map (fun b4 => flat_map (fun b5 => flat_map (fun b6 => map (fun b7 =>
    Ascii b0 b1 b2 b3 b4 b5 b6 b7)
  all_bool) all_bool) all_bool) all_bool) all_bool) all_bool) all_bool) all_bool.

Lemma in_all_bool : forall b, In b all_bool.
Proof. destruct b; simpl; auto. Qed.

Lemma in_all_bytes : forall b, In b all_bytes.
Proof.
  intros [b0 b1 b2 b3 b4 b5 b6 b7]. unfold all_bytes.
  apply in_flat_map; exists b0; split; [apply in_all_bool|].
  apply in_flat_map; exists b1; split; [apply in_all_bool|].
  apply in_flat_map; exists b2; split; [apply in_all_bool|].
  apply in_flat_map; exists b3; split; [apply in_all_bool|].
  apply in_flat_map; exists b4; split; [apply in_all_bool|].
  apply in_flat_map; exists b5; split; [apply in_all_bool|].
  apply in_flat_map; exists b6; split; [apply in_all_bool|].
  apply in_map, in_all_bool.
Qed.

Lemma all_bytes_1 : forall (P : byte -> bool),
  forallb P all_bytes = true -> forall b, P b = true.
Proof. intros P H b. rewrite forallb_forall in H. apply H, in_all_bytes. Qed.

Lemma all_bytes_2 : forall (P : byte -> byte -> bool),
  forallb (fun a => forallb (P a) all_bytes) all_bytes = true -> forall a b, P a b = true.
Proof.
  intros P H a b. rewrite forallb_forall in H.
  specialize (H a (in_all_bytes a)). rewrite forallb_forall in H. apply H, in_all_bytes.
Qed.

Lemma byte_val_lt : forall b, (byte_val b < 256)%N.
Proof.
  intros b. apply N.ltb_lt. revert b. apply all_bytes_1. vm_compute. reflexivity.
Qed.

(** * The four characters of a triplet *)

Definition enc3 (a b c : N) : list byte :=
  [ enc_char (N.shiftr a 2);
    enc_char (N.lor (N.shiftl (N.land a 3) 4) (N.shiftr b 4));
    enc_char (N.lor (N.shiftl (N.land b 15) 2) (N.shiftr c 6));
    enc_char (N.land c 63) ].

Definition A6 (g : list bool) := alphabet (bits_val g).

Lemma enc_c1 : forall a, enc_char (N.shiftr (byte_val a) 2) = A6 (firstn 6 (bits8 a)).
Proof.
  intros a. apply Ascii.eqb_eq. revert a. apply all_bytes_1. vm_compute. reflexivity.
Qed.

Lemma enc_c2 : forall a b,
  enc_char (N.lor (N.shiftl (N.land (byte_val a) 3) 4) (N.shiftr (byte_val b) 4))
  = A6 (skipn 6 (bits8 a) ++ firstn 4 (bits8 b)).
Proof.
  intros a b. apply Ascii.eqb_eq. revert a b. apply all_bytes_2. vm_compute. reflexivity.
Qed.

Lemma enc_c3 : forall b c,
  enc_char (N.lor (N.shiftl (N.land (byte_val b) 15) 2) (N.shiftr (byte_val c) 6))
  = A6 (skipn 4 (bits8 b) ++ firstn 2 (bits8 c)).
Proof.
  intros b c. apply Ascii.eqb_eq. revert b c. apply all_bytes_2. vm_compute. reflexivity.
Qed.

Lemma enc_c4 : forall c, enc_char (N.land (byte_val c) 63) = A6 (skipn 2 (bits8 c)).
Proof.
  intros c. apply Ascii.eqb_eq. revert c. apply all_bytes_1. vm_compute. reflexivity.
Qed.

(** * The specification in chunks *)

Lemma rfc_nil : rfc4648 [] = [].
Proof. reflexivity. Qed.

Lemma rfc_one : forall a,
  rfc4648 [a] = firstn 2 (enc3 (byte_val a) 0 0) ++ ["="; "="]%char.
Proof.
  intros a. change 0%N with (byte_val Ascii.zero) at 1.
  unfold enc3, firstn. rewrite enc_c1, enc_c2. destruct a. reflexivity.
Qed.

Lemma rfc_two : forall a b,
  rfc4648 [a; b] = firstn 3 (enc3 (byte_val a) (byte_val b) 0) ++ ["="]%char.
Proof.
  intros a b. change 0%N with (byte_val Ascii.zero).
  unfold enc3, firstn. rewrite enc_c1, enc_c2, enc_c3. destruct a, b. reflexivity.
Qed.

Lemma rfc_cons3 : forall a b c r,
  rfc4648 (a :: b :: c :: r) = enc3 (byte_val a) (byte_val b) (byte_val c) ++ rfc4648 r.
Proof.
  intros a b c r. unfold enc3. rewrite enc_c1, enc_c2, enc_c3, enc_c4.
  unfold rfc4648, A6. destruct a as [a0 a1 a2 a3 a4 a5 a6 a7], b as [b0 b1 b2 b3 b4 b5 b6 b7],
    c as [c0 c1 c2 c3 c4 c5 c6 c7].
  cbn [flat_map bits8 app firstn skipn].
  set (rest := flat_map bits8 r).
  change (sextets
     (a7 :: a6 :: a5 :: a4 :: a3 :: a2 :: a1 :: a0 ::
      b7 :: b6 :: b5 :: b4 :: b3 :: b2 :: b1 :: b0 ::
      c7 :: c6 :: c5 :: c4 :: c3 :: c2 :: c1 :: c0 :: rest))
  with ([a7; a6; a5; a4; a3; a2] :: [a1; a0; b7; b6; b5; b4] ::
        [b3; b2; b1; b0; c7; c6] :: [c5; c4; c3; c2; c1; c0] :: sextets rest).
  cbn [map app]. set (m := map _ (sextets rest)).
  replace ((4 - List.length (_ :: _ :: _ :: _ :: m) mod 4) mod 4)%nat
    with ((4 - List.length m mod 4) mod 4)%nat; [reflexivity|].
  cbn [List.length]. lia.
Qed.

(** Encoding of whole triplets only. *)
Fixpoint enc3s (d : list byte) : list byte :=
  match d with
  | a :: b :: c :: r => enc3 (byte_val a) (byte_val b) (byte_val c) ++ enc3s r
  | _ => []
  end.

Lemma list_ind3 : forall (A : Type) (P : list A -> Prop),
  P [] -> (forall a, P [a]) -> (forall a b, P [a; b]) ->
  (forall a b c r, P r -> P (a :: b :: c :: r)) -> forall l, P l.
Proof.
  intros A P H0 H1 H2 H3.
  fix IH 1. intros [|a [|b [|c r]]].
  - exact H0.
  - apply H1.
  - apply H2.
  - apply H3, IH.
Qed.

Lemma rfc_app : forall d r, (List.length d mod 3 = 0)%nat ->
  rfc4648 (d ++ r) = enc3s d ++ rfc4648 r.
Proof.
  induction d as [|a|a b|a b c d IH] using list_ind3; intros r H.
  - reflexivity.
  - cbn in H. lia.
  - cbn in H. lia.
  - cbn [app enc3s]. rewrite rfc_cons3, IH, app_assoc; [reflexivity|].
    cbn [List.length] in H. lia.
Qed.

Lemma enc3s_app : forall d r, (List.length d mod 3 = 0)%nat ->
  enc3s (d ++ r) = enc3s d ++ enc3s r.
Proof.
  induction d as [|a|a b|a b c d IH] using list_ind3; intros r H.
  - reflexivity.
  - cbn in H. lia.
  - cbn in H. lia.
  - cbn [app enc3s]. rewrite IH, app_assoc; [reflexivity|].
    cbn [List.length] in H. lia.
Qed.

(** * Buffers *)

Lemma store_app : forall pre x rest c,
  store (pre ++ x :: rest) (List.length pre) c = Some (pre ++ c :: rest).
Proof.
  intros. unfold store. rewrite app_length. cbn [List.length].
  replace (Nat.ltb _ _) with true by (symmetry; apply Nat.ltb_lt; lia).
  rewrite firstn_app, firstn_all, Nat.sub_diag. cbn [firstn]. rewrite app_nil_r.
  rewrite skipn_app, skipn_all2 by lia.
  replace (S (List.length pre) - List.length pre)%nat with 1%nat by lia. reflexivity.
Qed.

Lemma store_app' : forall pre x rest c i, i = List.length pre ->
  store (pre ++ x :: rest) i c = Some (pre ++ c :: rest).
Proof. intros; subst; apply store_app. Qed.

Lemma store_all_app : forall cs pre z rest, List.length z = List.length cs ->
  store_all (pre ++ z ++ rest) (List.length pre) cs = Some (pre ++ cs ++ rest).
Proof.
  induction cs as [|c cs IH]; intros pre z rest H.
  - destruct z; [reflexivity|discriminate].
  - destruct z as [|x z]; [discriminate|]. cbn [store_all app].
    rewrite store_app. cbn [bind].
    replace (S (List.length pre)) with (List.length (pre ++ [c])) by (rewrite app_length; cbn [List.length]; lia).
    replace (pre ++ c :: z ++ rest) with ((pre ++ [c]) ++ z ++ rest) by (rewrite <- app_assoc; reflexivity).
    rewrite IH by (cbn in H; lia). rewrite <- app_assoc. reflexivity.
Qed.

Lemma store_all_app' : forall cs pre z rest r, List.length z = List.length cs ->
  r = List.length pre ->
  store_all (pre ++ z ++ rest) r cs = Some (pre ++ cs ++ rest).
Proof. intros; subst; now apply store_all_app. Qed.

(** * Eight characters from a 64-bit word *)

Lemma lor_shift : forall a b k, (b < 2 ^ k)%N -> N.lor (N.shiftl a k) b = (a * 2 ^ k + b)%N.
Proof.
  intros a b k H. rewrite <- N.shiftl_mul_pow2.
  assert (N.land (N.shiftl a k) b = 0)%N as D.
  { apply N.bits_inj. intros n. rewrite N.land_spec, N.bits_0.
    destruct (N.lt_ge_cases n k).
    - rewrite N.shiftl_spec_low by assumption. reflexivity.
    - destruct (N.eq_dec b 0) as [->|Hb]; [rewrite N.bits_0; apply andb_false_r|].
      rewrite (N.bits_above_log2 b n).
      + apply andb_false_r.
      + apply N.lt_le_trans with k; [|assumption]. apply N.log2_lt_pow2; lia. }
  rewrite N.add_nocarry_lxor by exact D. rewrite N.lxor_lor by exact D. reflexivity.
Qed.

Ltac n_arith :=
  rewrite ?N.shiftr_div_pow2;
  repeat match goal with
  | |- context [N.land ?x 3] => change (N.land x 3) with (N.land x (N.ones 2))
  | |- context [N.land ?x 15] => change (N.land x 15) with (N.land x (N.ones 4))
  | |- context [N.land ?x 63] => change (N.land x 63) with (N.land x (N.ones 6))
  end;
  rewrite ?N.land_ones.

Lemma sextet_little : forall b0 b1 b2 b3 b4 b5 b6 b7 buf r,
  encode_sextet_little_endian (le_value [b0; b1; b2; b3; b4; b5; b6; b7]) buf r
  = store_all buf r (enc3 (byte_val b0) (byte_val b1) (byte_val b2) ++
                     enc3 (byte_val b3) (byte_val b4) (byte_val b5)).
Proof.
  intros. unfold encode_sextet_little_endian, enc3. cbn [app le_value].
  pose proof (byte_val_lt b0). pose proof (byte_val_lt b1). pose proof (byte_val_lt b2).
  pose proof (byte_val_lt b3). pose proof (byte_val_lt b4). pose proof (byte_val_lt b5).
  pose proof (byte_val_lt b6). pose proof (byte_val_lt b7).
  set (v0 := byte_val b0) in *. set (v1 := byte_val b1) in *. set (v2 := byte_val b2) in *.
  set (v3 := byte_val b3) in *. set (v4 := byte_val b4) in *. set (v5 := byte_val b5) in *.
  set (v6 := byte_val b6) in *. set (v7 := byte_val b7) in *.
  clearbody v0 v1 v2 v3 v4 v5 v6 v7. clear b0 b1 b2 b3 b4 b5 b6 b7.
  n_arith.
  change (2 ^ 2)%N with 4%N. change (2 ^ 4)%N with 16%N. change (2 ^ 6)%N with 64%N.
  change (2 ^ 8)%N with 256%N. change (2 ^ 12)%N with 4096%N. change (2 ^ 16)%N with 65536%N.
  change (2 ^ 22)%N with 4194304%N. change (2 ^ 24)%N with 16777216%N.
  change (2 ^ 26)%N with 67108864%N. change (2 ^ 32)%N with 4294967296%N.
  change (2 ^ 36)%N with 68719476736%N. change (2 ^ 40)%N with 1099511627776%N.
  change (2 ^ 46)%N with 70368744177664%N.
  repeat (f_equal; [f_equal; [ repeat f_equal; lia | ] | ]).
  all: repeat (f_equal; try lia).
Qed.

Lemma sextet_big : forall b0 b1 b2 b3 b4 b5 b6 b7 buf r,
  encode_sextet_big_endian (be_value [b0; b1; b2; b3; b4; b5; b6; b7]) buf r
  = store_all buf r (enc3 (byte_val b0) (byte_val b1) (byte_val b2) ++
                     enc3 (byte_val b3) (byte_val b4) (byte_val b5)).
Proof.
  intros. unfold encode_sextet_big_endian, enc3, be_value. cbn [rev app le_value].
  pose proof (byte_val_lt b0). pose proof (byte_val_lt b1). pose proof (byte_val_lt b2).
  pose proof (byte_val_lt b3). pose proof (byte_val_lt b4). pose proof (byte_val_lt b5).
  pose proof (byte_val_lt b6). pose proof (byte_val_lt b7).
  set (v0 := byte_val b0) in *. set (v1 := byte_val b1) in *. set (v2 := byte_val b2) in *.
  set (v3 := byte_val b3) in *. set (v4 := byte_val b4) in *. set (v5 := byte_val b5) in *.
  set (v6 := byte_val b6) in *. set (v7 := byte_val b7) in *.
  clearbody v0 v1 v2 v3 v4 v5 v6 v7. clear b0 b1 b2 b3 b4 b5 b6 b7.
  n_arith.
  rewrite !lor_shift
    by (change (2 ^ 6)%N with 64%N; change (2 ^ 4)%N with 16%N; change (2 ^ 2)%N with 4%N; lia).
  change (2 ^ 2)%N with 4%N. change (2 ^ 4)%N with 16%N. change (2 ^ 6)%N with 64%N.
  change (2 ^ 16)%N with 65536%N.
  change (2 ^ 22)%N with 4194304%N. change (2 ^ 28)%N with 268435456%N.
  change (2 ^ 34)%N with 17179869184%N. change (2 ^ 40)%N with 1099511627776%N.
  change (2 ^ 46)%N with 70368744177664%N. change (2 ^ 52)%N with 4503599627370496%N.
  change (2 ^ 58)%N with 288230376151711744%N.
  repeat match goal with |- store_all _ _ (?x :: _) = store_all _ _ (?y :: _) => idtac end.
  apply f_equal.
  repeat (apply f_equal2; [apply f_equal; lia|]).
  reflexivity.
Qed.

Lemma load64_ok : forall e pre b0 b1 b2 b3 b4 b5 b6 b7 rest p, p = List.length pre ->
  load64 e (pre ++ b0 :: b1 :: b2 :: b3 :: b4 :: b5 :: b6 :: b7 :: rest) p
  = Some (match e with
          | little => le_value [b0; b1; b2; b3; b4; b5; b6; b7]
          | big => be_value [b0; b1; b2; b3; b4; b5; b6; b7] end).
Proof.
  intros. subst. unfold load64. rewrite app_length. cbn [List.length].
  replace (Nat.leb _ _) with true by (symmetry; apply Nat.leb_le; lia).
  rewrite skipn_app, skipn_all, Nat.sub_diag. reflexivity.
Qed.

Lemma load64_none : forall e mem p, (List.length mem < p + 8)%nat -> load64 e mem p = None.
Proof.
  intros. unfold load64.
  replace (Nat.leb _ _) with false by (symmetry; apply Nat.leb_gt; lia). reflexivity.
Qed.

Lemma encode_sextet_ok : forall e b0 b1 b2 b3 b4 b5 b6 b7 buf r,
  encode_sextet e (match e with
          | little => le_value [b0; b1; b2; b3; b4; b5; b6; b7]
          | big => be_value [b0; b1; b2; b3; b4; b5; b6; b7] end) buf r
  = store_all buf r (enc3s [b0; b1; b2; b3; b4; b5]).
Proof.
  intros. cbn [enc3s]. rewrite app_nil_r. destruct e; cbn [encode_sextet].
  - apply sextet_little.
  - apply sextet_big.
Qed.

Lemma split6 : forall (A : Type) (l : list A) k, List.length l = (6 * S k)%nat ->
  exists b0 b1 b2 b3 b4 b5 l', l = b0 :: b1 :: b2 :: b3 :: b4 :: b5 :: l' /\ List.length l' = (6 * k)%nat.
Proof.
  intros A l k H.
  destruct l as [|b0 [|b1 [|b2 [|b3 [|b4 [|b5 l']]]]]]; cbn in H; try lia.
  exists b0, b1, b2, b3, b4, b5, l'. split; [reflexivity|lia].
Qed.

Lemma fast_loop_ok : forall e k pre data rest bpre z brest p r,
  List.length data = (6 * k)%nat -> (k = 0 \/ 2 <= List.length rest)%nat ->
  List.length z = (8 * k)%nat -> p = List.length pre -> r = List.length bpre ->
  fast_loop e (pre ++ data ++ rest) k p r (bpre ++ z ++ brest)
  = Some (bpre ++ enc3s data ++ brest).
Proof.
  induction k as [|k IH]; intros pre data rest bpre z brest p r Hd Hr Hz Hp Hr2.
  - destruct data; [|cbn in Hd; lia]. destruct z; [|cbn in Hz; lia]. reflexivity.
  - destruct Hr as [Hr|Hr]; [lia|].
    destruct (split6 _ _ _ Hd) as (b0 & b1 & b2 & b3 & b4 & b5 & d' & -> & Hd').
    cbn [fast_loop].
    assert (exists b6 b7 t, d' ++ rest = b6 :: b7 :: t) as (b6 & b7 & t & Ht).
    { destruct (d' ++ rest) as [|b6 [|b7 t]] eqn:E.
      - apply (f_equal (@List.length _)) in E. rewrite app_length in E. cbn in E. lia.
      - apply (f_equal (@List.length _)) in E. rewrite app_length in E. cbn in E. lia.
      - now exists b6, b7, t. }
    cbn [app]. rewrite Ht. rewrite load64_ok by exact Hp. cbn [bind].
    rewrite encode_sextet_ok.
    replace z with (firstn 8 z ++ skipn 8 z) by apply firstn_skipn.
    rewrite <- (app_assoc (firstn 8 z)).
    rewrite store_all_app' with (cs := enc3s [b0; b1; b2; b3; b4; b5]);
      [|rewrite firstn_length_le by lia; reflexivity|exact Hr2].
    cbn [bind]. rewrite <- Ht.
    replace (pre ++ b0 :: b1 :: b2 :: b3 :: b4 :: b5 :: d' ++ rest)
      with ((pre ++ [b0; b1; b2; b3; b4; b5]) ++ d' ++ rest)
      by (rewrite <- app_assoc; reflexivity).
    replace (bpre ++ enc3s [b0; b1; b2; b3; b4; b5] ++ skipn 8 z ++ brest)
      with ((bpre ++ enc3s [b0; b1; b2; b3; b4; b5]) ++ skipn 8 z ++ brest)
      by (rewrite <- app_assoc; reflexivity).
    rewrite IH.
    + rewrite <- app_assoc. reflexivity.
    + exact Hd'.
    + right; exact Hr.
    + rewrite skipn_length. lia.
    + rewrite app_length. cbn. lia.
    + rewrite app_length. cbn. lia.
Qed.

Lemma fast_loop_none : forall e k pre data rest bpre z brest p r,
  List.length data = (6 * S k)%nat -> (List.length rest < 2)%nat ->
  List.length z = (8 * S k)%nat -> p = List.length pre -> r = List.length bpre ->
  fast_loop e (pre ++ data ++ rest) (S k) p r (bpre ++ z ++ brest) = None.
Proof.
  induction k as [|k IH]; intros pre data rest bpre z brest p r Hd Hr Hz Hp Hr2.
  - cbn [fast_loop]. rewrite load64_none; [reflexivity|].
    rewrite !app_length. lia.
  - destruct (split6 _ _ _ Hd) as (b0 & b1 & b2 & b3 & b4 & b5 & d' & -> & Hd').
    replace (fast_loop e (pre ++ (b0 :: b1 :: b2 :: b3 :: b4 :: b5 :: d') ++ rest) (S (S k)) p r
              (bpre ++ z ++ brest))
      with (do! value <- load64 e (pre ++ (b0 :: b1 :: b2 :: b3 :: b4 :: b5 :: d') ++ rest) p;
            do! buf' <- encode_sextet e value (bpre ++ z ++ brest) r;
            fast_loop e (pre ++ (b0 :: b1 :: b2 :: b3 :: b4 :: b5 :: d') ++ rest) (S k) (p + 6) (r + 8) buf')
      by reflexivity.
    assert (exists b6 b7 t, d' ++ rest = b6 :: b7 :: t) as (b6 & b7 & t & Ht).
    { destruct d' as [|b6 [|b7 t]]; cbn in Hd'; try lia. exists b6, b7, (t ++ rest). reflexivity. }
    cbn [app]. rewrite Ht. rewrite load64_ok by exact Hp. cbn [bind].
    rewrite encode_sextet_ok.
    replace z with (firstn 8 z ++ skipn 8 z) by apply firstn_skipn.
    rewrite <- (app_assoc (firstn 8 z)).
    rewrite store_all_app' with (cs := enc3s [b0; b1; b2; b3; b4; b5]);
      [|rewrite firstn_length_le by lia; reflexivity|exact Hr2].
    cbn [bind]. rewrite <- Ht.
    replace (pre ++ b0 :: b1 :: b2 :: b3 :: b4 :: b5 :: d' ++ rest)
      with ((pre ++ [b0; b1; b2; b3; b4; b5]) ++ d' ++ rest)
      by (rewrite <- app_assoc; reflexivity).
    replace (bpre ++ enc3s [b0; b1; b2; b3; b4; b5] ++ skipn 8 z ++ brest)
      with ((bpre ++ enc3s [b0; b1; b2; b3; b4; b5]) ++ skipn 8 z ++ brest)
      by (rewrite <- app_assoc; reflexivity).
    apply IH.
    + exact Hd'.
    + exact Hr.
    + rewrite skipn_length. lia.
    + rewrite app_length. cbn. lia.
    + rewrite app_length. cbn. lia.
Qed.

Lemma load_app : forall pre x rest p, p = List.length pre -> load (pre ++ x :: rest) p = Some x.
Proof.
  intros. subst. unfold load. rewrite nth_error_app2 by lia. rewrite Nat.sub_diag. reflexivity.
Qed.

Lemma triplet_loop_ok : forall k pre data rest bpre z brest p r,
  List.length data = (3 * k)%nat -> List.length z = (4 * k)%nat ->
  p = List.length pre -> r = List.length bpre ->
  triplet_loop (pre ++ data ++ rest) k p r (bpre ++ z ++ brest)
  = Some (bpre ++ enc3s data ++ brest).
Proof.
  induction k as [|k IH]; intros pre data rest bpre z brest p r Hd Hz Hp Hr.
  - destruct data; [|cbn in Hd; lia]. destruct z; [|cbn in Hz; lia]. reflexivity.
  - destruct data as [|a [|b [|c d']]]; cbn in Hd; try lia.
    cbn [triplet_loop app]. rewrite load_app by exact Hp. cbn [bind].
    replace (pre ++ a :: b :: c :: d' ++ rest) with ((pre ++ [a]) ++ b :: c :: d' ++ rest)
      by (rewrite <- app_assoc; reflexivity).
    rewrite load_app by (rewrite app_length; cbn [List.length]; lia). cbn [bind].
    replace ((pre ++ [a]) ++ b :: c :: d' ++ rest) with ((pre ++ [a; b]) ++ c :: d' ++ rest)
      by (rewrite <- !app_assoc; reflexivity).
    rewrite load_app by (rewrite app_length; cbn [List.length]; lia). cbn [bind].
    unfold encode_triplet.
    change [enc_char _; _; _; _] with (enc3 (byte_val a) (byte_val b) (byte_val c)).
    replace z with (firstn 4 z ++ skipn 4 z) by apply firstn_skipn.
    rewrite <- (app_assoc (firstn 4 z)).
    rewrite store_all_app'; [|rewrite firstn_length_le by lia; reflexivity|exact Hr].
    cbn [bind].
    replace ((pre ++ [a; b]) ++ c :: d' ++ rest) with ((pre ++ [a; b; c]) ++ d' ++ rest)
      by (rewrite <- !app_assoc; reflexivity).
    rewrite app_assoc with (l := bpre).
    rewrite IH.
    + rewrite <- app_assoc. cbn [enc3s]. rewrite <- app_assoc. reflexivity.
    + lia.
    + rewrite skipn_length. lia.
    + rewrite app_length. cbn. lia.
    + rewrite app_length. cbn. lia.
Qed.

Lemma repeat_split : forall (A : Type) (x : A) n m, repeat x (n + m) = repeat x n ++ repeat x m.
Proof. intros. apply repeat_app. Qed.

(** * The encoder *)

Lemma encode_ok : forall e input tail, (over_read (List.length input) <= List.length tail)%nat ->
  base64_encode e input tail = Some (rfc4648 input).
Proof.
  intros e input tail H. unfold base64_encode. cbv zeta.
  destruct (Nat.eqb_spec (List.length input) 0) as [H0|H0].
  { destruct input; [reflexivity|discriminate]. }
  set (n := List.length input) in *.
  set (f := (Nat.div n 24 * 4)%nat).
  set (t := (Nat.div n 3 - f * 2)%nat).
  assert (6 * f + 3 * t + n mod 3 = n)%nat as Hn by (unfold t, f; lia).
  pose (d1 := firstn (6 * f) input).
  pose (d2 := firstn (3 * t) (skipn (6 * f) input)).
  pose (d3 := skipn (3 * t) (skipn (6 * f) input)).
  assert (input = d1 ++ d2 ++ d3) as Hin.
  { unfold d1, d2, d3. rewrite (firstn_skipn (3 * t)), (firstn_skipn (6 * f)). reflexivity. }
  assert (List.length d1 = 6 * f)%nat as L1.
  { unfold d1. rewrite firstn_length_le; [reflexivity|]. fold n. lia. }
  assert (List.length d2 = 3 * t)%nat as L2.
  { unfold d2. rewrite firstn_length_le; [reflexivity|]. rewrite skipn_length. fold n. lia. }
  assert (List.length d3 = n mod 3)%nat as L3.
  { unfold d3. rewrite !skipn_length. fold n. lia. }
  clearbody d1 d2 d3.
  set (q := (Nat.div n 3 * 4 + (if Nat.ltb 0 (n mod 3) then 4 else 0))%nat).
  set (w := if Nat.ltb 0 (n mod 3) then 4%nat else 0%nat) in q.
  assert (q = 8 * f + (4 * t + w))%nat as Hq by (unfold q, t, f; lia).
  rewrite Hq, !repeat_split.
  assert (f = 0 \/ 2 <= List.length (d2 ++ d3 ++ tail))%nat as Hov.
  { rewrite !app_length, L2, L3. unfold over_read in H.
    destruct (Nat.ltb_spec n 24) as [H1|H1].
    - left. unfold f. lia.
    - right. fold n in H. destruct (Nat.modulo n 24) as [|[|]] eqn:E; unfold t, f; lia. }
  clearbody n. subst input.
  replace ((d1 ++ d2 ++ d3) ++ tail) with ([] ++ d1 ++ d2 ++ d3 ++ tail)
    by (cbn [app]; rewrite <- !app_assoc; reflexivity).
  change (repeat Ascii.zero (8 * f) ++ repeat Ascii.zero (4 * t) ++ repeat Ascii.zero w)
    with ([] ++ repeat Ascii.zero (8 * f) ++ repeat Ascii.zero (4 * t) ++ repeat Ascii.zero w).
  rewrite (fast_loop_ok e f [] d1 (d2 ++ d3 ++ tail) [] (repeat Ascii.zero (8 * f)))
    by (try rewrite repeat_length; auto).
  cbn [bind app].
  assert (Lenc : List.length (enc3s d1) = (8 * f)%nat).
  { assert (forall d k, List.length d = (3 * k)%nat -> List.length (enc3s d) = (4 * k)%nat) as HL.
    { intros d. induction d as [|a|a b|a b c d IH] using list_ind3; intros k Hk;
        cbn [List.length] in Hk; try lia.
      - cbn. lia.
      - cbn [enc3s]. rewrite app_length. rewrite (IH (k - 1)%nat) by lia. cbn. lia. }
    rewrite (HL d1 (2 * f)%nat) by lia. lia. }
  assert (Lenc2 : List.length (enc3s d2) = (4 * t)%nat).
  { assert (forall d k, List.length d = (3 * k)%nat -> List.length (enc3s d) = (4 * k)%nat) as HL.
    { intros d. induction d as [|a|a b|a b c d IH] using list_ind3; intros k Hk;
        cbn [List.length] in Hk; try lia.
      - cbn. lia.
      - cbn [enc3s]. rewrite app_length. rewrite (IH (k - 1)%nat) by lia. cbn. lia. }
    apply HL. lia. }
  rewrite (triplet_loop_ok t d1 d2 (d3 ++ tail) (enc3s d1) (repeat Ascii.zero (4 * t)))
    by (try rewrite repeat_length; auto).
  cbn [bind].
  rewrite rfc_app by (rewrite L1; lia).
  rewrite rfc_app by (rewrite L2; lia).
  assert (List.length (d1 ++ d2) = n - n mod 3)%nat as L12 by (rewrite app_length, L1, L2; lia).
  rewrite app_assoc with (l := d1).
  destruct d3 as [|x [|y [|]]]; cbn [List.length] in L3; try lia.
  - rewrite <- L3. cbn [Nat.eqb]. unfold w. rewrite <- L3. cbn [Nat.ltb Nat.leb repeat].
    rewrite rfc_nil. reflexivity.
  - rewrite <- L3. cbn [Nat.eqb]. unfold w. rewrite <- L3.
    rewrite load_app by (rewrite L12; lia). cbn [bind].
    rewrite rfc_one. unfold encode_triplet.
    change [enc_char _; _; _; _] with (enc3 (byte_val x) 0 0).
    rewrite app_assoc with (l := enc3s d1). rewrite app_assoc with (l := enc3s d1).
    set (pre := enc3s d1 ++ enc3s d2).
    assert (List.length pre = 8 * f + 4 * t)%nat as Lp by (unfold pre; rewrite app_length; lia).
    change (repeat Ascii.zero (if Nat.ltb 0 1 then 4 else 0)) with (repeat Ascii.zero 4 ++ []).
    rewrite store_all_app' by (auto; reflexivity).
    cbn [bind]. set (E := enc3 (byte_val x) 0 0).
    assert (exists c0 c1 c2 c3, E = [c0; c1; c2; c3]) as (c0 & c1 & c2 & c3 & HE)
      by (unfold E, enc3; eauto).
    rewrite HE. cbn [app firstn].
    replace (pre ++ [c0; c1; c2; c3]) with ((pre ++ [c0; c1]) ++ c2 :: [c3])
      by (rewrite <- app_assoc; reflexivity).
    rewrite store_app' by (rewrite app_length; cbn [List.length]; lia). cbn [bind].
    replace ((pre ++ [c0; c1]) ++ "="%char :: [c3]) with ((pre ++ [c0; c1; "="%char]) ++ c3 :: [])
      by (rewrite <- !app_assoc; reflexivity).
    rewrite store_app' by (rewrite app_length; cbn [List.length]; lia).
    rewrite <- !app_assoc. reflexivity.
  - rewrite <- L3. cbn [Nat.eqb]. unfold w. rewrite <- L3.
    rewrite load_app by (rewrite L12; lia). cbn [bind].
    replace ((d1 ++ d2) ++ [x; y]) with ((d1 ++ d2 ++ [x]) ++ y :: []) by (rewrite <- !app_assoc; reflexivity).
    rewrite load_app by (rewrite app_assoc, app_length, L12; cbn [List.length]; lia). cbn [bind].
    rewrite rfc_two. unfold encode_triplet.
    change [enc_char _; _; _; _] with (enc3 (byte_val x) (byte_val y) 0).
    rewrite app_assoc with (l := enc3s d1). rewrite app_assoc with (l := enc3s d1).
    set (pre := enc3s d1 ++ enc3s d2).
    assert (List.length pre = 8 * f + 4 * t)%nat as Lp by (unfold pre; rewrite app_length; lia).
    change (repeat Ascii.zero (if Nat.ltb 0 2 then 4 else 0)) with (repeat Ascii.zero 4 ++ []).
    rewrite store_all_app' by (auto; reflexivity).
    cbn [bind]. set (E := enc3 (byte_val x) (byte_val y) 0).
    assert (exists c0 c1 c2 c3, E = [c0; c1; c2; c3]) as (c0 & c1 & c2 & c3 & HE)
      by (unfold E, enc3; eauto).
    rewrite HE. cbn [app firstn].
    replace (pre ++ [c0; c1; c2; c3]) with ((pre ++ [c0; c1; c2]) ++ c3 :: [])
      by (rewrite <- app_assoc; reflexivity).
    rewrite store_app' by (rewrite app_length; cbn [List.length]; lia).
    rewrite <- !app_assoc. reflexivity.
Qed.

Lemma encode_over : forall e input tail, (List.length tail < over_read (List.length input))%nat ->
  base64_encode e input tail = None.
Proof.
  intros e input tail H. unfold base64_encode. cbv zeta.
  destruct (Nat.eqb_spec (List.length input) 0) as [H0|H0].
  { rewrite H0 in H. cbn in H. lia. }
  set (n := List.length input) in *.
  assert (24 <= n /\ n mod 24 + List.length tail < 2)%nat as [Hn Ht].
  { unfold over_read in H. destruct (Nat.ltb_spec n 24); [lia|].
    split; [assumption|]. destruct (Nat.modulo n 24) as [|[|]]; lia. }
  set (f := (Nat.div n 24 * 4)%nat).
  assert (exists f', f = S f') as [f' Hf'] by (exists (f - 1)%nat; unfold f; lia).
  set (q := (Nat.div n 3 * 4 + (if Nat.ltb 0 (n mod 3) then 4 else 0))%nat).
  assert (q = 8 * f + (q - 8 * f))%nat as Hq by (unfold q, f; lia).
  rewrite Hq, repeat_split.
  pose proof (fast_loop_none e f' [] (firstn (6 * S f') input) (skipn (6 * S f') input ++ tail) []
    (repeat Ascii.zero (8 * S f')) (repeat Ascii.zero (q - 8 * f)) 0 0) as E.
  cbn [app] in E. rewrite app_assoc, firstn_skipn in E. rewrite Hf' at 1 2.
  rewrite E; [reflexivity| | | | |]; auto.
  - rewrite firstn_length_le; [reflexivity|]. fold n. unfold f in Hf'. lia.
  - rewrite app_length, skipn_length. fold n. unfold f in Hf'. lia.
  - rewrite repeat_length. reflexivity.
Qed.
