(** Proofs about paths. *)
From Coq Require Import List ZArith NArith Ascii String Bool Lia ZifyBool ZifyNat ZifyN.
From Verif Require Import Decimal10 Json PathModel PathSpec.
Import ListNotations.

Definition name_of (s : step) : list ascii :=
  match s with
  | Member n => list_ascii_of_string n
  | Element i => dec (N.of_nat i)
  end.

Lemma length_ascii : forall s, List.length (list_ascii_of_string s) = String.length s.
Proof. induction s; cbn; congruence. Qed.

Lemma segment_text_of : forall s, plain_step s -> segment_text (segment_of s) = "/"%char :: name_of s.
Proof.
  intros [n|i] H; cbn in H; unfold segment_text, segment_of, name_of; cbn [name_segment index_segment is_named seg_name seg_index].
  - destruct H as [NE _]. unfold is_named. cbn [seg_name name_segment]. rewrite length_ascii.
    destruct n; [congruence|]. reflexivity.
  - unfold is_named. cbn [seg_name List.length Nat.eqb negb].
    assert (List.length (dec (N.of_nat i)) <= 10) as L by (apply (dec_length_le 9); lia).
    unfold max_len. destruct (Nat.leb_spec (List.length (dec (N.of_nat i))) 19); [reflexivity|lia].
Qed.

Lemma digit_plain : forall c, is_digit c = true -> plain_char c.
Proof. intros c H. split; intros ->; discriminate. Qed.

Lemma name_plain : forall s, plain_step s -> Forall plain_char (name_of s).
Proof.
  intros [n|i] H; cbn in *; [tauto|].
  pose proof (dec_digits (N.of_nat i)) as D. rewrite forallb_forall in D.
  apply Forall_forall. intros c IN. apply digit_plain. auto.
Qed.

Lemma pointer_names_plain : forall name s, Forall plain_char name ->
  pointer_names (name ++ s) =
  match pointer_names s with Some (t, ts) => Some (name ++ t, ts) | None => None end.
Proof.
  induction name as [|c name IH]; intros s H; cbn [app pointer_names].
  - now destruct (pointer_names s) as [[t ts]|].
  - inversion H as [|? ? [N1 N2] HF]; subst.
    destruct (Ascii.eqb_spec c "/"%char); [congruence|].
    destruct (Ascii.eqb_spec c "~"%char); [congruence|].
    rewrite IH by assumption. now destruct (pointer_names s) as [[t ts]|].
Qed.

Lemma pointer_names_steps : forall ss, Forall plain_step ss ->
  pointer_names (List.concat (map (fun s => "/"%char :: name_of s) ss)) = Some ([], map name_of ss).
Proof.
  induction ss as [|s ss IH]; intros H; [reflexivity|].
  inversion H as [|? ? HS HF]; subst. cbn [map List.concat app pointer_names Ascii.eqb].
  change (Ascii.eqb "/"%char "/"%char) with true. cbn match.
  rewrite pointer_names_plain by now apply name_plain. rewrite IH by assumption. cbn.
  now rewrite app_nil_r.
Qed.

Lemma path_text : forall ss, ss <> [] -> Forall plain_step ss ->
  path_str (rev (map segment_of ss)) = List.concat (map (fun s => "/"%char :: name_of s) ss).
Proof.
  intros ss NE H. unfold path_str. rewrite rev_involutive.
  destruct (rev (map segment_of ss)) as [|x l] eqn:E.
  { apply (f_equal (@List.length segment)) in E. rewrite rev_length, map_length in E.
    destruct ss; [congruence|discriminate]. }
  f_equal. rewrite map_map. apply map_ext_in. intros s IN. apply segment_text_of.
  rewrite Forall_forall in H. auto.
Qed.

Lemma parse_path : forall ss, ss <> [] -> Forall plain_step ss ->
  parse_pointer (path_str (rev (map segment_of ss))) = Some (map (fun s => make_token (name_of s)) ss).
Proof.
  intros ss NE H. rewrite path_text by assumption.
  destruct ss as [|s ss]; [congruence|]. cbn [map List.concat app parse_pointer].
  change (Ascii.eqb "/"%char "/"%char) with true. cbn match.
  inversion H as [|? ? HS HF]; subst.
  rewrite pointer_names_plain by now apply name_plain. rewrite pointer_names_steps by assumption.
  rewrite app_nil_r. now rewrite map_map.
Qed.

Lemma token_number_val : forall s n, forallb is_digit s = true ->
  (fold_left (fun a c => 10 * a + digit_val c) s n < two32)%N ->
  token_number n s = Some (fold_left (fun a c => 10 * a + digit_val c) s n)%N.
Proof.
  induction s as [|c s IH]; intros n D L; [reflexivity|].
  cbn [forallb] in D. apply andb_true_iff in D. destruct D as [D1 D2]. cbn [fold_left token_number] in *.
  assert (forall s a b, (a <= b)%N -> (fold_left (fun a c => 10 * a + digit_val c) s a <=
     fold_left (fun a c => 10 * a + digit_val c) s b)%N) as M.
  { clear. induction s as [|c s IH]; intros a b H; [exact H|]. cbn [fold_left]. apply IH. lia. }
  assert (forall s a, (a <= fold_left (fun a c => 10 * a + digit_val c) s a)%N) as G.
  { clear -M. induction s as [|c s IH]; intros a; cbn [fold_left]; [lia|].
    eapply N.le_trans; [|apply IH]. lia. }
  pose proof (G s (10 * n + digit_val c)%N).
  replace (n * 10 + digit_val c)%N with (10 * n + digit_val c)%N by lia.
  rewrite N.mod_small by lia.
  destruct (N.ltb_spec (10 * n + digit_val c) n); [lia|]. apply IH; assumption.
Qed.

Lemma token_index_dec : forall i, (i < 2 ^ 32 - 1)%N -> tok_index (make_token (dec i)) = Some i.
Proof.
  intros i H. unfold make_token, tok_index, token_index. rewrite dec_digits.
  assert (token_number 0 (dec i) = Some i) as T.
  { rewrite token_number_val; [|apply dec_digits|].
    - f_equal. exact (digits_val_dec i).
    - change (digits_val (dec i) < two32)%N. rewrite digits_val_dec. unfold two32. lia. }
  assert ((if (i =? invalid_index)%N then None else Some i) = Some i) as K.
  { unfold invalid_index, two32. destruct (N.eqb_spec i (2 ^ 32 - 1)); [lia|reflexivity]. }
  destruct (dec i) as [|c [|c2 l]] eqn:E; [now apply dec_nonempty in E| |].
  - now rewrite T.
  - destruct (Ascii.eqb_spec c "0"%char) as [->|N].
    + pose proof (dec_no_leading_zero i) as Z. rewrite E in Z. specialize (Z eq_refl). subst i.
      rewrite dec_small in E by lia. discriminate.
    + now rewrite T.
Qed.

Lemma find_index_app : forall l1 n v l2, ~ In n (map fst l1) ->
  find_index (l1 ++ (n, v) :: l2) n = Some (List.length l1).
Proof.
  induction l1 as [|[m w] l1 IH]; intros n v l2 H; cbn.
  - now rewrite String.eqb_refl.
  - cbn in H. destruct (String.eqb_spec m n) as [->|]; [tauto|]. rewrite IH by tauto. reflexivity.
Qed.

Lemma nth_error_mid : forall A (l1 : list A) x l2, nth_error (l1 ++ x :: l2) (List.length l1) = Some x.
Proof. induction l1; intros; cbn; auto. Qed.

Lemma resolve_steps : forall j ss r, leads j ss r -> Forall plain_step ss ->
  exists loc, pointer_get j (map (fun s => make_token (name_of s)) ss) = Some (loc, r) /\ at_place j loc = Some r.
Proof.
  intros j ss r H. induction H as [j|l1 n v l2 ss r NI HL IH|l1 v l2 ss r HL IH]; intros P.
  - exists []. split; reflexivity.
  - inversion P as [|? ? PS PF]; subst. destruct (IH PF) as (loc & E & A).
    exists (List.length l1 :: loc). cbn [map pointer_get name_of make_token tok_name].
    rewrite string_of_list_ascii_of_string, find_index_app by assumption.
    rewrite nth_error_mid. cbn [at_place]. rewrite E, nth_error_mid. split; [reflexivity|assumption].
  - inversion P as [|? ? PS PF]; subst. destruct (IH PF) as (loc & E & A).
    exists (List.length l1 :: loc). cbn [map pointer_get].
    cbn [plain_step] in PS. cbn [name_of]. rewrite token_index_dec by assumption.
    rewrite app_length. cbn [List.length].
    destruct (N.leb_spec (N.of_nat (List.length l1 + S (List.length l2))) (N.of_nat (List.length l1))); [lia|].
    rewrite Nat2N.id, nth_error_mid, E. cbn [at_place]. rewrite nth_error_mid. split; [reflexivity|assumption].
Qed.

Theorem path_resolves : forall j ss r, ss <> [] -> Forall plain_step ss -> leads j ss r ->
  exists ts loc, parse_pointer (path_str (rev (map segment_of ss))) = Some ts /\
    pointer_get j ts = Some (loc, r) /\ at_place j loc = Some r.
Proof.
  intros j ss r NE P L. destruct (resolve_steps j ss r L P) as (loc & E & A).
  exists (map (fun s => make_token (name_of s)) ss), loc. rewrite parse_path by assumption. auto.
Qed.

(** Different paths in a document lead to different places: the text determines the place. *)
Lemma path_place : forall j ss r ts loc, ss <> [] -> Forall plain_step ss -> leads j ss r ->
  parse_pointer (path_str (rev (map segment_of ss))) = Some ts -> pointer_get j ts = Some loc ->
  snd loc = r.
Proof.
  intros j ss r ts [loc v] NE P L E G. destruct (path_resolves j ss r NE P L) as (ts' & loc' & E' & G' & _).
  assert (ts' = ts) by congruence. subst. rewrite G in G'. injection G' as -> ->. reflexivity.
Qed.
