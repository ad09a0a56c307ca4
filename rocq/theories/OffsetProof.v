(** The positions of errors. *)
From Coq Require Import List Arith ZArith NArith Ascii String Bool Lia.
From Verif Require Import Base Float Decimal10 Json Events Types DeserializeModel ParseModel TextModel TextSpec TextChars TextProof ReaderModel
  ReaderProof DepthProof OffsetSpec.
Import ListNotations.
Local Open Scope char_scope.

(** ** Before the position *)

Lemma value_any : forall nearest, (forall s j, value nearest s j -> exists j', value any_number s j') /\
  (forall s j, spaced nearest s j -> exists j', spaced any_number s j') /\
  (forall s l, items nearest s l -> exists l', items any_number s l') /\ (forall s l, fields nearest s l -> exists l', fields any_number s l').
Proof.
  intros nearest. apply grammar_ind; intros; repeat match goal with H : exists _, _ |- _ => destruct H end;
    eexists; try (econstructor; eassumption).
  apply value_number; [assumption|assumption|reflexivity].
Qed.

Lemma scan_string_unfold : forall c s1, scan_string (c :: s1) =
    if Ascii.eqb c quote then inl ([], s1)
    else if Ascii.eqb c backslash then
      match s1 with
      | [] => inr (EscapeInvalid, c :: s1)
      | x :: s2 =>
        if Ascii.eqb x quote || Ascii.eqb x backslash || Ascii.eqb x "/" then prepend [x] (scan_string s2)
        else if Ascii.eqb x "b" then prepend ["008"] (scan_string s2)
        else if Ascii.eqb x "f" then prepend ["012"] (scan_string s2)
        else if Ascii.eqb x "n" then prepend ["010"] (scan_string s2)
        else if Ascii.eqb x "r" then prepend ["013"] (scan_string s2)
        else if Ascii.eqb x "t" then prepend ["009"] (scan_string s2)
        else if Ascii.eqb x "u" then
          match s2 with
          | h1 :: h2 :: h3 :: h4 :: s3 =>
            match hex4 h1 h2 h3 h4 with
            | None => inr (InvalidHex, c :: s1)
            | Some cp =>
              if ((55296 <=? cp) && (cp <=? 57343))%N then
                if (cp <=? 56319)%N then
                  match s3 with
                  | y :: z :: s4 =>
                    if Ascii.eqb y backslash && Ascii.eqb z "u" then
                      match s4 with
                      | k1 :: k2 :: k3 :: k4 :: s5 =>
                        match hex4 k1 k2 k3 k4 with
                        | None => inr (InvalidHex, c :: s1)
                        | Some cp2 =>
                          if ((cp2 <? 56320) || (57343 <? cp2))%N then inr (SurrogateInvalid, c :: s1)
                          else prepend (utf8_bytes (N.lor (N.shiftl (cp - 55296) 10) (cp2 - 56320) + 65536)) (scan_string s5)
                        end
                      | _ => inr (InvalidHex, c :: s1)
                      end
                    else inr (SurrogateInvalid, c :: s1)
                  | _ => inr (SurrogateInvalid, c :: s1)
                  end
                else inr (SurrogateInvalid, c :: s1)
              else prepend (utf8_bytes cp) (scan_string s3)
            end
          | _ => inr (InvalidHex, c :: s1)
          end
        else inr (EscapeInvalid, c :: s1)
      end
    else if (N_of_ascii c <? 32)%N then inr (InvalidEncoding, c :: s1)
    else prepend [c] (scan_string s1).
Proof. reflexivity. Qed.

Ltac known E := rewrite E; cbv beta iota.
Ltac scanned := rewrite scan_string_unfold; cbv beta iota.

(** A string up to the error. *)
Lemma scan_string_before : forall n s f p, List.length s <= n -> scan_string s = inr (f, p) ->
  exists q b, s = q ++ p /\ forall r, scan_string (q ++ quote :: r) = inl (b, r).
Proof.
  assert (Stop : forall s, exists q b, s = q ++ s /\ forall r, scan_string (q ++ quote :: r) = inl (b, r)) by (intros s; now exists [], []).
  assert (Pre : forall l f p x, prepend l x = inr (f, p) -> x = inr (f, p)) by (intros l f p [[b r]|]; [discriminate|auto]).
  induction n as [|n IH]; intros s f p L H; [destruct s; [|cbn in L; lia]; injection H as <- <-; apply (Stop [])|].
  destruct s as [|c s1]; [injection H as <- <-; apply (Stop [])|]. cbn [List.length] in L.
  assert (Go : forall l w r, List.length r <= n -> prepend l (scan_string r) = inr (f, p) -> (forall x, scan_string (w ++ x) = prepend l (scan_string x)) ->
    exists q b, w ++ r = q ++ p /\ forall r, scan_string (q ++ quote :: r) = inl (b, r)).
  { intros l w r Lr Hr W. apply Pre in Hr. apply IH in Hr as (q & b & -> & Q); [|assumption]. exists (w ++ q), (l ++ b). split; [now rewrite app_assoc|].
    intros r'. rewrite <- app_assoc, W, Q. reflexivity. }
  rewrite scan_string_unfold in H; cbv beta iota in H. destruct (Ascii.eqb c quote) eqn:Eq; [discriminate|]. destruct (Ascii.eqb c backslash) eqn:Eb.
  - destruct s1 as [|x s2]; [injection H as <- <-; apply Stop|]. cbn [List.length] in L.
    destruct (Ascii.eqb x quote || Ascii.eqb x backslash || Ascii.eqb x "/") eqn:E1; [apply (Go [x] [c; x] s2); [lia|exact H|intros y; cbn [app]; scanned; known Eq; known Eb; known E1; reflexivity]|].
    destruct (Ascii.eqb x "b") eqn:E2; [apply (Go ["008"] [c; x] s2); [lia|exact H|intros y; cbn [app]; scanned; known Eq; known Eb; known E1; known E2; reflexivity]|].
    destruct (Ascii.eqb x "f") eqn:E3; [apply (Go ["012"] [c; x] s2); [lia|exact H|intros y; cbn [app]; scanned; known Eq; known Eb; known E1; known E2; known E3; reflexivity]|].
    destruct (Ascii.eqb x "n") eqn:E4; [apply (Go ["010"] [c; x] s2); [lia|exact H|intros y; cbn [app]; scanned; known Eq; known Eb; known E1; known E2; known E3; known E4; reflexivity]|].
    destruct (Ascii.eqb x "r") eqn:E5; [apply (Go ["013"] [c; x] s2); [lia|exact H|intros y; cbn [app]; scanned; known Eq; known Eb; known E1; known E2; known E3; known E4; known E5; reflexivity]|].
    destruct (Ascii.eqb x "t") eqn:E6; [apply (Go ["009"] [c; x] s2); [lia|exact H|intros y; cbn [app]; scanned; known Eq; known Eb; known E1; known E2; known E3; known E4; known E5; known E6; reflexivity]|].
    destruct (Ascii.eqb x "u") eqn:E7; [|injection H as <- <-; apply Stop].
    destruct s2 as [|h1 [|h2 [|h3 [|h4 s3]]]]; try (injection H as <- <-; apply Stop). cbn [List.length] in L.
    destruct (hex4 h1 h2 h3 h4) as [cp|] eqn:E8; [|injection H as <- <-; apply Stop].
    destruct ((55296 <=? cp) && (cp <=? 57343))%N eqn:E9.
    + destruct (cp <=? 56319)%N eqn:E10; [|injection H as <- <-; apply Stop].
      destruct s3 as [|y [|z s4]]; try (injection H as <- <-; apply Stop).
      destruct (Ascii.eqb y backslash && Ascii.eqb z "u") eqn:E11; [|injection H as <- <-; apply Stop].
      destruct s4 as [|k1 [|k2 [|k3 [|k4 s5]]]]; try (injection H as <- <-; apply Stop). cbn [List.length] in L.
      destruct (hex4 k1 k2 k3 k4) as [cp2|] eqn:E12; [|injection H as <- <-; apply Stop].
      destruct ((cp2 <? 56320) || (57343 <? cp2))%N eqn:E13; [injection H as <- <-; apply Stop|].
      apply (Go (utf8_bytes (N.lor (N.shiftl (cp - 55296) 10) (cp2 - 56320) + 65536)) [c; x; h1; h2; h3; h4; y; z; k1; k2; k3; k4] s5); [lia|exact H|].
      intros t. cbn [app]; scanned; known Eq; known Eb; known E1; known E2; known E3; known E4; known E5; known E6; known E7; known E8; known E9; known E10; known E11; known E12; known E13; reflexivity.
    + apply (Go (utf8_bytes cp) [c; x; h1; h2; h3; h4] s3); [lia|exact H|].
      intros t. cbn [app]; scanned; known Eq; known Eb; known E1; known E2; known E3; known E4; known E5; known E6; known E7; known E8; known E9; reflexivity.
  - destruct (N_of_ascii c <? 32)%N eqn:E1; [injection H as <- <-; apply Stop|].
    apply (Go [c] [c] s1); [lia|exact H|intros y; cbn [app]; scanned; known Eq; known Eb; known E1; reflexivity].
Qed.

Lemma scan_string_chars : forall s f p, scan_string s = inr (f, p) -> exists q b, s = q ++ p /\ chars q b.
Proof.
  intros s f p H. apply scan_string_before with (n := List.length s) in H as (q & b & -> & Q); [|lia]. specialize (Q []).
  assert (R : read_string (q ++ [quote]) = Some (b, [])) by (rewrite <- (scan_string_plain (List.length (q ++ [quote]))) by lia; now rewrite Q).
  apply read_string_sound in R as (k & Hk & E). apply app_inj_tail in E as [-> _]. now exists k, b.
Qed.

Lemma scan_string_sound : forall s b r, scan_string s = inl (b, r) -> exists k, chars k b /\ s = k ++ quote :: r.
Proof. intros s b r H. apply read_string_sound. rewrite <- (scan_string_plain (List.length s)) by lia. now rewrite H. Qed.

(** ** Texts that agree on some characters *)

Definition look (k : nat) (t t' : list ascii) : Prop := firstn k t = firstn k t'.

Lemma look_less : forall k m t t', m <= k -> look k t t' -> look m t t'.
Proof. unfold look. intros k m t t' L H. replace m with (Nat.min m k) by lia. rewrite <- !firstn_firstn. now f_equal. Qed.

Lemma look_app : forall w k t t', look k t t' -> look k (w ++ t) (w ++ t').
Proof.
  unfold look. intros w k t t' H. rewrite !firstn_app. f_equal. apply (look_less k); [lia|assumption].
Qed.

Lemma look_short : forall k t t', look k t t' -> List.length t < k -> t' = t.
Proof.
  unfold look. intros k t t' H L. rewrite (firstn_all2 t) in H by lia.
  pose proof (f_equal (@List.length ascii) H) as E. rewrite firstn_length in E. rewrite firstn_all2 in H by lia. now symmetry.
Qed.

Lemma look_head : forall t t', look 1 t t' -> match t, t' with c :: _, c' :: _ => c = c' | [], [] => True | _, _ => False end.
Proof. unfold look. intros [|c t] [|c' t'] H; cbn in H; try discriminate; [exact I|]. now injection H. Qed.

Lemma look_same : forall c t t', look 1 (c :: t) (c :: t').
Proof. reflexivity. Qed.

Lemma look_prefix : forall w c t t', look 1 (w ++ c :: t) (w ++ c :: t').
Proof. intros w c t t'. now apply look_app. Qed.

Lemma look_dark : forall t t', look 1 t t' -> dark t -> dark t'.
Proof. intros t t' H D. apply look_head in H. destruct t, t'; try contradiction; [exact D|now subst]. Qed.

Lemma look_undigit : forall t t', look 1 t t' -> undigit t -> undigit t'.
Proof. intros t t' H D. apply look_head in H. destruct t, t'; try contradiction; [exact D|now subst]. Qed.

Lemma look_starts : forall c t t', look 1 t t' -> starts c t = None -> starts c t' = None.
Proof. intros c t t' H D. apply look_head in H. destruct t, t'; try contradiction; [exact D|]. subst. cbn in *. now destruct (Ascii.eqb c a0). Qed.

Lemma fault_eq_dec : forall f g : fault, {f = g} + {f <> g}.
Proof. decide equality. Defined.

Lemma window_pos : forall f, 1 <= window f.
Proof. destruct f; cbn; lia. Qed.

(** ** Strings *)

Lemma scan_string_again : forall n s f p, List.length s <= n -> scan_string s = inr (f, p) ->
  exists q, s = q ++ p /\ forall p', look (window f) p p' -> exists x, scan_string (q ++ p') = inr x.
Proof.
  assert (Pre : forall l f p x, prepend l x = inr (f, p) -> x = inr (f, p)) by (intros l f p [[b r]|]; [discriminate|auto]).
  assert (Pre' : forall l x, (exists y, x = inr y) -> exists y, prepend l x = inr y) by (intros l x [y ->]; now exists y).
  induction n as [|n IH]; intros s f p L H.
  { destruct s; [|cbn in L; lia]. injection H as <- <-. exists []. split; [reflexivity|]. intros p' Lp. apply look_head in Lp. destruct p'; [|contradiction]. now eexists. }
  destruct s as [|c s1].
  { injection H as <- <-. exists []. split; [reflexivity|]. intros p' Lp. apply look_head in Lp. destruct p'; [|contradiction]. now eexists. }
  cbn [List.length] in L.
  assert (Go : forall l w r, List.length r <= n -> prepend l (scan_string r) = inr (f, p) -> (forall x, scan_string (w ++ x) = prepend l (scan_string x)) ->
    exists q, w ++ r = q ++ p /\ forall p', look (window f) p p' -> exists x, scan_string (q ++ p') = inr x).
  { intros l w r Lr Hr W. apply Pre in Hr. apply IH in Hr as (q & -> & Q); [|assumption]. exists (w ++ q). split; [now rewrite app_assoc|].
    intros p' Lp. rewrite <- app_assoc, W. apply Pre', Q, Lp. }
  assert (Here : (f, p) = (f, c :: s1) -> (forall p', look (window f) (c :: s1) p' -> List.length (c :: s1) >= window f -> exists x, scan_string p' = inr x) ->
    exists q, c :: s1 = q ++ p /\ forall p', look (window f) p p' -> exists x, scan_string (q ++ p') = inr x).
  { intros E W. injection E as ->. exists []. split; [reflexivity|]. intros p' Lp. cbn [app].
    destruct (le_lt_dec (window f) (List.length (c :: s1))) as [G|G]; [now apply W|]. apply look_short in Lp; [subst p'; eexists; exact H|assumption]. }
  pose proof H as H0. rewrite scan_string_unfold in H; cbv beta iota in H. destruct (Ascii.eqb c quote) eqn:Eq; [discriminate|]. destruct (Ascii.eqb c backslash) eqn:Eb.
  - destruct s1 as [|x s2].
    { injection H as <- <-. apply Here; [reflexivity|]. cbn. lia. }
    cbn [List.length] in L.
    destruct (Ascii.eqb x quote || Ascii.eqb x backslash || Ascii.eqb x "/") eqn:E1; [apply (Go [x] [c; x] s2); [lia|exact H|intros y; cbn [app]; scanned; known Eq; known Eb; known E1; reflexivity]|].
    destruct (Ascii.eqb x "b") eqn:E2; [apply (Go ["008"] [c; x] s2); [lia|exact H|intros y; cbn [app]; scanned; known Eq; known Eb; known E1; known E2; reflexivity]|].
    destruct (Ascii.eqb x "f") eqn:E3; [apply (Go ["012"] [c; x] s2); [lia|exact H|intros y; cbn [app]; scanned; known Eq; known Eb; known E1; known E2; known E3; reflexivity]|].
    destruct (Ascii.eqb x "n") eqn:E4; [apply (Go ["010"] [c; x] s2); [lia|exact H|intros y; cbn [app]; scanned; known Eq; known Eb; known E1; known E2; known E3; known E4; reflexivity]|].
    destruct (Ascii.eqb x "r") eqn:E5; [apply (Go ["013"] [c; x] s2); [lia|exact H|intros y; cbn [app]; scanned; known Eq; known Eb; known E1; known E2; known E3; known E4; known E5; reflexivity]|].
    destruct (Ascii.eqb x "t") eqn:E6; [apply (Go ["009"] [c; x] s2); [lia|exact H|intros y; cbn [app]; scanned; known Eq; known Eb; known E1; known E2; known E3; known E4; known E5; known E6; reflexivity]|].
    destruct (Ascii.eqb x "u") eqn:E7.
    2: { injection H as <- <-. apply Here; [reflexivity|]. intros [|a [|b p']] Lp _; try discriminate Lp. unfold look in Lp. cbn in Lp. injection Lp as <- <-.
         scanned; known Eq; known Eb; known E1; known E2; known E3; known E4; known E5; known E6; known E7. now eexists. }
    destruct s2 as [|h1 [|h2 [|h3 [|h4 s3]]]]; try (injection H as <- <-; apply Here; [reflexivity|cbn; lia]). cbn [List.length] in L.
    destruct (hex4 h1 h2 h3 h4) as [cp|] eqn:E8.
    2: { injection H as <- <-. apply Here; [reflexivity|]. intros p' Lp _. apply (look_less _ 6) in Lp; [|cbn; lia].
         destruct p' as [|a0 [|a1 [|a2 [|a3 [|a4 [|a5 p']]]]]]; try discriminate Lp. unfold look in Lp. cbn in Lp. injection Lp as <- <- <- <- <- <-.
         scanned; known Eq; known Eb; known E1; known E2; known E3; known E4; known E5; known E6; known E7; known E8. now eexists. }
    destruct ((55296 <=? cp) && (cp <=? 57343))%N eqn:E9.
    + assert (Near : forall g, window g = 12 -> (f, p) = (g, c :: x :: h1 :: h2 :: h3 :: h4 :: s3) ->
        exists q, c :: x :: h1 :: h2 :: h3 :: h4 :: s3 = q ++ p /\ forall p', look (window f) p p' -> exists x, scan_string (q ++ p') = inr x).
      { intros g Wg E. injection E as Ef Ep. subst f p. apply Here; [reflexivity|]. rewrite Wg. intros p' Lp Ll. cbn [List.length] in Ll.
        destruct s3 as [|y [|z [|k1 [|k2 [|k3 [|k4 s5]]]]]]; try (cbn [List.length] in Ll; lia).
        destruct p' as [|a0 [|a1 [|a2 [|a3 [|a4 [|a5 [|a6 [|a7 [|a8 [|a9 [|a10 [|a11 p']]]]]]]]]]]]; try discriminate Lp. unfold look in Lp. cbn in Lp.
        injection Lp as <- <- <- <- <- <- <- <- <- <- <- <-.
        scanned; known Eq; known Eb; known E1; known E2; known E3; known E4; known E5; known E6; known E7; known E8; known E9. clear - H Pre.
        destruct (cp <=? 56319)%N; [|now eexists]. destruct (Ascii.eqb y backslash && Ascii.eqb z "u"); [|now eexists].
        destruct (hex4 k1 k2 k3 k4) as [cp2|]; [|now eexists]. destruct ((cp2 <? 56320) || (57343 <? cp2))%N; [now eexists|].
        exfalso. apply Pre, (scan_string_before (List.length s5)) in H as (q & b & H & _); [|lia].
        apply (f_equal (@List.length ascii)) in H. rewrite app_length in H. cbn [List.length] in H. lia. }
      destruct (cp <=? 56319)%N eqn:E10; [|injection H as <- <-; now apply (Near SurrogateInvalid)].
      destruct s3 as [|y [|z s4]]; try (injection H as <- <-; now apply (Near SurrogateInvalid)).
      destruct (Ascii.eqb y backslash && Ascii.eqb z "u") eqn:E11; [|injection H as <- <-; now apply (Near SurrogateInvalid)].
      destruct s4 as [|k1 [|k2 [|k3 [|k4 s5]]]]; try (injection H as <- <-; now apply (Near InvalidHex)). cbn [List.length] in L.
      destruct (hex4 k1 k2 k3 k4) as [cp2|] eqn:E12; [|injection H as <- <-; now apply (Near InvalidHex)].
      destruct ((cp2 <? 56320) || (57343 <? cp2))%N eqn:E13; [injection H as <- <-; now apply (Near SurrogateInvalid)|].
      apply (Go (utf8_bytes (N.lor (N.shiftl (cp - 55296) 10) (cp2 - 56320) + 65536)) [c; x; h1; h2; h3; h4; y; z; k1; k2; k3; k4] s5); [lia|exact H|].
      intros t. cbn [app]; scanned; known Eq; known Eb; known E1; known E2; known E3; known E4; known E5; known E6; known E7; known E8; known E9; known E10; known E11; known E12; known E13; reflexivity.
    + apply (Go (utf8_bytes cp) [c; x; h1; h2; h3; h4] s3); [lia|exact H|].
      intros t. cbn [app]; scanned; known Eq; known Eb; known E1; known E2; known E3; known E4; known E5; known E6; known E7; known E8; known E9; reflexivity.
  - destruct (N_of_ascii c <? 32)%N eqn:E1.
    { injection H as <- <-. apply Here; [reflexivity|]. intros [|a p'] Lp _; try discriminate Lp. unfold look in Lp. cbn in Lp. injection Lp as <-.
      scanned; known Eq; known Eb; known E1. now eexists. }
    apply (Go [c] [c] s1); [lia|exact H|intros y; cbn [app]; scanned; known Eq; known Eb; known E1; reflexivity].
Qed.

(** ** Numbers *)

(** The same next character, or none. *)
Definition near (t t' : list ascii) : Prop := look 1 t t' \/ t' = [].

Lemma near_app : forall w t t', near t t' -> near (w ++ t) (w ++ t').
Proof. intros [|c w] t t' H; [exact H|]. left. reflexivity. Qed.

Lemma near_undigit : forall t t', near t t' -> undigit t -> undigit t'.
Proof. intros t t' [H| ->] D; [now apply (look_undigit t)|exact I]. Qed.

Lemma near_starts : forall c t t', near t t' -> starts c t = None -> starts c t' = None.
Proof. intros c t t' [H| ->] D; [now apply (look_starts c t)|reflexivity]. Qed.

Lemma span_again : forall s ds r, span_digits s = (ds, r) -> forall t, near r t -> span_digits (ds ++ t) = (ds, t).
Proof. intros s ds r H t N. apply span_sound in H as (_ & D & U). apply span_complete; [assumption|now apply (near_undigit r)]. Qed.

Lemma int_part_again : forall s ds r, read_int_part s = Some (ds, r) -> forall t, near r t -> read_int_part (ds ++ t) = Some (ds, t).
Proof.
  intros [|c s] ds r H t N; [discriminate|]. cbn [read_int_part] in H. destruct (Ascii.eqb_spec c "0") as [->|Z].
  - injection H as <- <-. reflexivity.
  - destruct (is_digit c) eqn:E; [|discriminate]. assert (H' : span_digits (c :: s) = (ds, r)) by congruence. clear H. rename H' into H.
    pose proof (span_again _ _ _ H t N) as A.
    assert (F : exists ds', ds = c :: ds') by (cbn [span_digits] in H; rewrite E in H; destruct (span_digits s); injection H as <- <-; eauto).
    destruct F as [ds' ->]. cbn [app read_int_part]. destruct (Ascii.eqb_spec c "0"); [contradiction|]. rewrite E. now f_equal.
Qed.

Lemma int_part_never : forall s, read_int_part s = None -> forall t, near s t -> read_int_part t = None.
Proof.
  intros s H t [N| ->]; [|reflexivity]. apply look_head in N. destruct s, t; try contradiction; [reflexivity|]. subst. cbn [read_int_part] in *.
  destruct (Ascii.eqb a0 "0"); [discriminate|]. now destruct (is_digit a0).
Qed.

Lemma fraction_again : forall s fr r, read_fraction s = Some (fr, r) -> forall t, near r t -> read_fraction (fr ++ t) = Some (fr, t).
Proof.
  intros s fr r H t N. unfold read_fraction in H. destruct (starts "." s) as [s'|] eqn:E.
  - destruct (span_digits s') as [[|d ds] r'] eqn:Ed; [discriminate|]. injection H as <- <-. unfold read_fraction.
    change (("." :: d :: ds) ++ t) with ("." :: (d :: ds) ++ t). now rewrite starts_same, (span_again _ _ _ Ed t N).
  - injection H as <- <-. unfold read_fraction. cbn [app]. now rewrite (near_starts "." s t).
Qed.

Lemma exponent_again : forall s ex r, read_exponent s = Some (ex, r) -> forall t, near r t -> read_exponent (ex ++ t) = Some (ex, t).
Proof.
  intros s ex r H t N. destruct s as [|c s]; cbn [read_exponent] in H.
  { injection H as <- <-. destruct N as [N| ->]; [|reflexivity]. apply look_head in N. destruct t; [reflexivity|contradiction]. }
  destruct (Ascii.eqb c "e" || Ascii.eqb c "E") eqn:Ec.
  - destruct (match s with d :: r0 => if Ascii.eqb d "+" || Ascii.eqb d "-" then ([d], r0) else ([], s) | [] => ([], []) end) as [sign s'] eqn:Es.
    destruct (span_digits s') as [[|d ds] r'] eqn:Ed; [discriminate|]. injection H as <- <-. pose proof (span_again _ _ _ Ed t N) as A.
    change ((c :: sign ++ d :: ds) ++ t) with (c :: (sign ++ d :: ds) ++ t). rewrite <- app_assoc.
    remember (sign ++ (d :: ds) ++ t) as z eqn:Hz. cbn [read_exponent]. rewrite Ec.
    assert (E : match z with d :: r0 => if Ascii.eqb d "+" || Ascii.eqb d "-" then ([d], r0) else ([], z) | [] => ([], []) end = (sign, (d :: ds) ++ t)).
    { subst z. apply span_sound in Ed as (-> & D & _). inversion D as [|? ? Hd _]; subst.
      destruct s as [|a s]; [discriminate Es|]. destruct (Ascii.eqb a "+" || Ascii.eqb a "-") eqn:Ea.
      - injection Es as <- ->. cbn [app]. now rewrite Ea.
      - injection Es as <- -> ->. cbn [app]. now rewrite Ea. }
    rewrite E. now rewrite A.
  - injection H as <- <-. cbn [app]. destruct N as [N| ->]; [|reflexivity]. apply look_head in N. destruct t; [contradiction|]. subst. cbn [read_exponent]. now rewrite Ec.
Qed.

(** A sign, and what follows. *)
Lemma minus_again : forall s sign r, split_minus s = (sign, r) -> forall t, near r t -> split_minus (sign ++ t) = (sign, t).
Proof.
  intros s sign r H t N. unfold split_minus in *. destruct (starts "-" s) as [s'|] eqn:E; injection H as <- <-.
  - reflexivity.
  - cbn [app]. now rewrite (near_starts "-" s t).
Qed.

Lemma scan_number_unfold : forall nearest s, scan_number nearest s =
  let '(sign, s1) := split_minus s in
  match read_int_part s1 with
  | None => inr (ValueInvalid, s1)
  | Some (ds, s2) =>
    match starts "." s2, read_fraction s2 with
    | Some s', None => inr (MissFraction, s')
    | _, None => inr (ValueInvalid, s2)
    | _, Some (frac, s3) =>
      match read_exponent s3 with
      | None =>
        let s' := tl s3 in
        inr (MissExponent, match s' with d :: r => if Ascii.eqb d "+" || Ascii.eqb d "-" then r else s' | [] => s' end)
      | Some (ex, s4) =>
        match frac, ex, kept_b (signed sign ds) with
        | [], [], true => inl (JInt (signed sign ds), s4)
        | _, _, _ => match nearest (sign ++ ds ++ frac ++ ex) with Some f => inl (JDbl f, s4) | None => inr (TooBig, s) end
        end
      end
    end
  end.
Proof. reflexivity. Qed.

(** With numbers of every size, the sign, the digits, the fraction and the exponent decide. *)
Lemma any_number_reads : forall s, read_number any_number s =
  let '(sign, s1) := split_minus s in
  match read_int_part s1 with
  | None => None
  | Some (ds, s2) =>
    match read_fraction s2 with
    | None => None
    | Some (frac, s3) =>
      match read_exponent s3 with
      | None => None
      | Some (ex, s4) => Some (match frac, ex, kept_b (signed sign ds) with [], [], true => JInt (signed sign ds) | _, _, _ => JDbl (FZero false) end, s4)
      end
    end
  end.
Proof.
  intros s. rewrite read_number_unfold. destruct (split_minus s) as [sign s1]. destruct (read_int_part s1) as [[ds s2]|]; [|reflexivity].
  destruct (read_fraction s2) as [[[|a fr] s3]|]; [| |reflexivity]; (destruct (read_exponent s3) as [[[|b ex] s4]|]; [| |reflexivity]); cbn [any_number];
    try destruct (kept_b (signed sign ds)); reflexivity.
Qed.

Lemma scan_number_passed : forall nearest s j r, scan_number nearest s = inl (j, r) -> exists x, s = x ++ r /\ value nearest x j /\ number x /\
  forall t, near r t -> exists j', read_number any_number (x ++ t) = Some (j', t).
Proof.
  intros nearest s j r H. assert (R : read_number nearest s = Some (j, r)) by (rewrite <- scan_number_plain; now rewrite H).
  pose proof R as R0. apply read_number_sound in R0 as (x & Es & V). exists x. split; [exact Es|]. split; [exact V|].
  rewrite read_number_unfold in R. destruct (split_minus s) as [sign s1] eqn:E1. destruct (read_int_part s1) as [[ds s2]|] eqn:E2; [|discriminate].
  destruct (read_fraction s2) as [[fr s3]|] eqn:E3; [|discriminate]. destruct (read_exponent s3) as [[ex s4]|] eqn:E4; [|discriminate].
  assert (s4 = r) as -> by (destruct fr, ex, (kept_b (signed sign ds)); try destruct (nearest _); congruence).
  pose proof (split_minus_sound _ _ _ E1) as [F1 G1]. pose proof (int_part_sound _ _ _ E2) as [F2 G2].
  pose proof (fraction_sound _ _ _ E3) as [F3 G3]. pose proof (exponent_sound _ _ _ E4) as [F4 G4].
  assert (x = sign ++ ds ++ fr ++ ex) as ->.
  { rewrite F1, F2, F3, F4 in Es. rewrite !app_assoc in Es. apply app_inv_tail in Es. now rewrite <- Es, !app_assoc. }
  split; [exists sign, ds, fr, ex; tauto|]. intros t N. eexists. rewrite any_number_reads, <- !app_assoc.
  pose proof (near_app ex _ _ N) as N4. rewrite <- F4 in N4. pose proof (near_app fr _ _ N4) as N3. rewrite <- F3 in N3.
  pose proof (near_app ds _ _ N3) as N2. rewrite <- F2 in N2.
  rewrite (minus_again _ _ _ E1 _ N2), (int_part_again _ _ _ E2 _ N3), (fraction_again _ _ _ E3 _ N4), (exponent_again _ _ _ E4 _ N). reflexivity.
Qed.

(** A number up to the error. *)
Lemma scan_number_fault : forall nearest s f p, scan_number nearest s = inr (f, p) -> f <> TooBig -> window f = 1 /\ exists q, s = q ++ p /\
  (exists y, number (q ++ y)) /\ forall t, near p t -> read_number any_number (q ++ t) = None.
Proof.
  intros nearest s f p H B. rewrite scan_number_unfold in H. destruct (split_minus s) as [sign s1] eqn:E1.
  pose proof (split_minus_sound _ _ _ E1) as [F1 G1].
  assert (D0 : digits ["0"]) by (split; [discriminate|constructor; [unfold digit; codes; lia|constructor]]).
  assert (Z : integer_part ["0"]) by (split; [exact D0|reflexivity]).
  destruct (read_int_part s1) as [[ds s2]|] eqn:E2.
  2: { injection H as <- <-. split; [reflexivity|]. exists sign. split; [exact F1|]. split.
       - exists ["0"], sign, ["0"], [], []. cbn [app]. repeat split; try assumption; try (now left); try apply Z.
       - intros t N. now rewrite any_number_reads, (minus_again _ _ _ E1 _ N), (int_part_never _ E2 _ N). }
  pose proof (int_part_sound _ _ _ E2) as [F2 G2]. destruct (read_fraction s2) as [[fr s3]|] eqn:E3.
  2: { unfold read_fraction in E3. destruct (starts "." s2) as [s'|] eqn:Ed; [|discriminate]. injection H as <- <-. apply starts_spec in Ed as ->. split; [reflexivity|].
       exists (sign ++ ds ++ ["."]). split; [rewrite F1, F2, <- !app_assoc; reflexivity|]. split.
       - exists ["0"], sign, ds, ["."; "0"], []. repeat split; try assumption; try (now left); try apply G2; [right; now exists ["0"]|rewrite app_nil_r, <- !app_assoc; reflexivity].
       - intros t N. assert (N3 : near ("." :: s') ("." :: t)) by (left; reflexivity). pose proof (near_app ds _ _ N3) as N2. rewrite <- F2 in N2.
         rewrite any_number_reads, <- !app_assoc. cbn [app]. rewrite (minus_again _ _ _ E1 _ N2), (int_part_again _ _ _ E2 _ N3).
         destruct (span_digits s') as [[|d l] r'] eqn:Es; [|discriminate]. pose proof (span_sound _ _ _ Es) as [-> _]. unfold read_fraction. rewrite starts_same.
         pose proof (span_again _ _ _ Es t N) as A. cbn [app] in A. now rewrite A. }
  pose proof (fraction_sound _ _ _ E3) as [F3 G3]. destruct (read_exponent s3) as [[ex s4]|] eqn:E4.
  { exfalso. destruct (starts "." s2), fr, ex, (kept_b (signed sign ds)); try discriminate; destruct (nearest _); try discriminate; now injection H as <- <-. }
  assert (H' : f = MissExponent /\ p = match tl s3 with d :: r => if Ascii.eqb d "+" || Ascii.eqb d "-" then r else tl s3 | [] => tl s3 end)
    by (destruct (starts "." s2); now injection H as <- <-). clear H. destruct H' as [-> Hp]. split; [reflexivity|].
  destruct s3 as [|c s3]; [discriminate|]. cbn [read_exponent] in E4. cbn [tl] in Hp. destruct (Ascii.eqb c "e" || Ascii.eqb c "E") eqn:Ec; [|discriminate].
  assert (He : In c ["e"; "E"]) by (apply orb_true_iff in Ec; rewrite !Ascii.eqb_eq in Ec; cbn; intuition).
  assert (Sg : exists sg, In sg [[]; ["+"]; ["-"]] /\ s3 = sg ++ p /\ span_digits p = ([], p) /\ forall t, near p t -> read_exponent (c :: sg ++ t) = None).
  { assert (Sp : forall r, match span_digits r with ([], _) => None | (d :: ds0, r0) => Some (c :: [] ++ d :: ds0, r0) end = None -> span_digits r = ([], r)).
    { intros r Hr. destruct (span_digits r) as [[|d l] r'] eqn:Es; [|discriminate]. now pose proof (span_sound _ _ _ Es) as [-> _]. }
    destruct s3 as [|d s3].
    - subst p. exists []. split; [now left|]. split; [reflexivity|]. split; [reflexivity|]. intros t [N| ->]; [apply look_head in N; destruct t; [|contradiction]|]; cbn; now rewrite Ec.
    - destruct (Ascii.eqb d "+" || Ascii.eqb d "-") eqn:Ed; subst p.
      + exists [d]. split; [apply orb_true_iff in Ed; rewrite !Ascii.eqb_eq in Ed; destruct Ed as [-> | ->]; cbn; tauto|]. split; [reflexivity|].
        assert (X : span_digits s3 = ([], s3)) by (destruct (span_digits s3) as [[|a l] r'] eqn:Es; [now pose proof (span_sound _ _ _ Es) as [-> _]|discriminate]).
        split; [exact X|]. intros t N. pose proof (span_again _ _ _ X t N) as A. cbn [app] in A |- *. cbn [read_exponent]. now rewrite Ec, Ed, A.
      + assert (X : span_digits (d :: s3) = ([], d :: s3)) by (destruct (span_digits (d :: s3)) as [[|a l] r'] eqn:Es; [now pose proof (span_sound _ _ _ Es) as [-> _]|discriminate]).
        exists []. split; [now left|]. split; [reflexivity|]. split; [exact X|]. intros t N. pose proof (span_again _ _ _ X t N) as A. cbn [app] in A |- *.
        cbn [read_exponent]. rewrite Ec. destruct N as [N| ->]; [|reflexivity]. apply look_head in N. destruct t as [|d' t]; [contradiction|]. subst d'. now rewrite Ed, A. }
  destruct Sg as (sg & Hs & -> & _ & Never). exists (sign ++ ds ++ fr ++ c :: sg).
  split; [rewrite F1, F2, F3, <- !app_assoc; reflexivity|]. split.
  - exists ["0"], sign, ds, fr, (c :: sg ++ ["0"]). repeat split; try assumption; try apply G2.
    + right. exists c, sg, ["0"]. tauto.
    + rewrite <- !app_assoc. reflexivity.
  - intros t N. assert (N4 : near (c :: sg ++ p) (c :: sg ++ t)) by (left; reflexivity). pose proof (near_app fr _ _ N4) as N3. rewrite <- F3 in N3.
    pose proof (near_app ds _ _ N3) as N2. rewrite <- F2 in N2. rewrite any_number_reads, <- !app_assoc. cbn [app].
    now rewrite (minus_again _ _ _ E1 _ N2), (int_part_again _ _ _ E2 _ N3), (fraction_again _ _ _ E3 _ N4), (Never _ N).
Qed.

(** A number that is too big. *)
Lemma scan_number_big : forall nearest s p, scan_number nearest s = inr (TooBig, p) -> p = s /\ exists q r, s = q ++ r /\ number q /\ nearest q = None /\ forall z, integer q z -> ~ kept z.
Proof.
  intros nearest s p H. rewrite scan_number_unfold in H. destruct (split_minus s) as [sign s1] eqn:E1.
  pose proof (split_minus_sound _ _ _ E1) as [F1 G1]. destruct (read_int_part s1) as [[ds s2]|] eqn:E2; [|discriminate].
  pose proof (int_part_sound _ _ _ E2) as [F2 G2]. destruct (read_fraction s2) as [[fr s3]|] eqn:E3; [|now destruct (starts "." s2)].
  pose proof (fraction_sound _ _ _ E3) as [F3 G3]. destruct (read_exponent s3) as [[ex s4]|] eqn:E4; [|now destruct (starts "." s2)].
  pose proof (exponent_sound _ _ _ E4) as [F4 G4].
  assert (X : p = s /\ nearest (sign ++ ds ++ fr ++ ex) = None /\ ((fr = [] /\ ex = [] /\ kept_b (signed sign ds) = false) \/ fr <> [] \/ ex <> [])).
  { destruct (starts "." s2), fr, ex, (kept_b (signed sign ds)); try discriminate; destruct (nearest _); try discriminate; injection H as <-;
      (split; [reflexivity|]; split; [reflexivity|]); (now left) || (right; left; discriminate) || (right; right; discriminate). }
  destruct X as (-> & En & K). split; [reflexivity|]. exists (sign ++ ds ++ fr ++ ex), s4. split; [now rewrite F1, F2, F3, F4, <- !app_assoc|].
  split; [exists sign, ds, fr, ex; tauto|]. split; [exact En|]. intros z Hz Kz.
  assert (Odd : forall c, In c (fr ++ ex) -> ~ digit c -> c <> "-" -> False).
  { intros c Hc Nd Nm. apply integer_chars in Hz. rewrite Forall_forall in Hz. destruct (Hz c); [|contradiction|contradiction].
    apply in_or_app. right. apply in_or_app. now right. }
  destruct K as [(-> & -> & K)|[K|K]].
  - cbn [app] in Hz. rewrite app_nil_r in Hz. apply integer_inv in Hz as (sign' & ds' & Hs' & Hd' & E & ->).
    apply signed_unique in E as [<- <-]; try assumption. apply kept_spec in Kz. congruence.
  - destruct G3 as [->|(es & _ & ->)]; [congruence|]. apply (Odd "."); [now left|unfold digit; codes; lia|discriminate].
  - destruct G4 as [->|(e & sg & es & He & _ & _ & ->)]; [congruence|].
    apply (Odd e); [apply in_or_app; right; now left| |]; destruct He as [<-|[<-|[]]]; try discriminate; unfold digit; codes; lia.
Qed.
