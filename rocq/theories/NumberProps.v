(** Property C52: number literals. *)
From Coq Require Import List Arith ZArith NArith Ascii String Bool Lia.
From Verif Require Import Base Float NumericModel NumericSpec TextSpec NumberModel NumberSpec NumberProof.
Import ListNotations.
Local Open Scope Z_scope.

(** C52: for integers, parse_number accepts exactly the decimal numerals in the range of the
    type, and gives their values. *)
Theorem C52_accepts_exactly : forall k l v z, parse_integer k l v = (true, z) <-> integer_numeral (is_signed k) l z /\ in_range k z.
Proof.
  intros k l v z. rewrite <- (parse_integer_iff k l v z). split; [eauto|]. intros (w & A & <-). exact A.
Qed.
Print Assumptions C52_accepts_exactly.

(** When it fails, the variable keeps its value, or receives the numeral in range that another
    character follows. *)
Theorem C52_failure : forall k l v w, parse_integer k l v = (false, w) ->
  w = v \/ exists p c rest, l = p ++ c :: rest /\ integer_numeral (is_signed k) p w /\ in_range k w /\ forall d, ~ digit_value c d.
Proof.
  intros k l v w H. destruct (parse_integer_false k l v w H) as [A|(p & c & rest & A & B & C & D)]; [now left|]. right. exists p, c, rest.
  split; [exact A|]. split; [exact B|]. split; [exact C|]. intros d E. apply digit_iff in E. destruct E. congruence.
Qed.
Print Assumptions C52_failure.

Definition chars (s : string) : list ascii := list_ascii_of_string s.

Definition int8 : ity := {| width := 8; is_signed := true |}.
Definition uint8 : ity := {| width := 8; is_signed := false |}.

Example C52_example : parse_integer int8 (chars "-128") 7 = (true, -128) /\ parse_integer int8 (chars "128") 7 = (false, 7) /\ parse_integer uint8 (chars "0255") 7 = (true, 255) /\
  parse_integer uint8 (chars "-1") 7 = (false, 7) /\ parse_integer int8 (chars "12e1") 7 = (false, 12) /\ parse_integer int8 (chars "+1") 7 = (false, 7) /\
  parse_integer int8 [] 7 = (false, 7) /\ integer_numeral true (chars "-128") (-128) /\ in_range int8 (-128).
Proof.
  repeat (split; [vm_compute; reflexivity|]). split; [|cbn; lia]. apply (numeral_minus true (chars "128") 128); [reflexivity|].
  apply (decimal_more (chars "12") 12 "8" 8); [|split; [lia|reflexivity]]. apply (decimal_more (chars "1") 1 "2" 2); [|split; [lia|reflexivity]]. constructor. split; [lia|reflexivity].
Qed.

(** For signed types these are, among the numbers of JSON, the ones without fraction and
    exponent. *)
Theorem C52_json_literals : forall k s v z, is_signed k = true -> number s -> parse_integer k s v = (true, z) <-> integer s z /\ in_range k z.
Proof.
  intros k s v z Sg N. rewrite C52_accepts_exactly, Sg. split; intros [A B]; (split; [|exact B]); [now apply numeral_is_integer|now apply integer_is_numeral].
Qed.
Print Assumptions C52_json_literals.

(** "-0" is a JSON number whose value every integer type has, but not a literal of unsigned
    types. *)
Theorem C52_minus_zero_refuted : exists k l z v, number l /\ integer l z /\ in_range k z /\ fst (parse_integer k l v) = false.
Proof.
  exists uint8, (chars "-0"), 0, 7. assert (P : integer_part ["0"%char]).
  { split; [|auto]. split; [discriminate|]. constructor; [|constructor]. vm_compute. split; discriminate. }
  split; [|split; [|split; [cbn; lia|reflexivity]]].
  - exists ["-"%char], ["0"%char], [], []. split; [right; now left|]. split; [exact P|]. split; [now left|]. split; [now left|reflexivity].
  - apply (integer_minus ["0"%char] P).
Qed.
Print Assumptions C52_minus_zero_refuted.

(** C52: floating-point literals, with a library function that reads the longest numeral: the
    result is true exactly if the text is the longest numeral of all that is in memory from
    there on, or is empty and no numeral follows. *)
Theorem C52_floats_exactly : forall (numeral : list ascii -> fl -> Prop) strto l beyond v, (forall s x y, numeral s x -> numeral s y -> x = y) -> reads_numerals numeral strto ->
  parse_floating strto l beyond = (true, v) <->
  (forall m w, (List.length l < m <= List.length (l ++ beyond))%nat -> ~ numeral (firstn m (l ++ beyond)) w) /\
  (l <> [] /\ numeral l v \/ l = [] /\ v = FZero false).
Proof.
  intros numeral strto l beyond v F R. unfold parse_floating. destruct (strto (l ++ beyond)) as [n x] eqn:E. apply R in E as [B C].
  assert (Fl : firstn (List.length l) (l ++ beyond) = l) by (rewrite firstn_app, Nat.sub_diag, firstn_all, firstn_O; apply app_nil_r). split.
  - intros H. injection H as H <-. apply Nat.eqb_eq in H. subst n. destruct l as [|c l]; cbn [List.length] in *.
    + destruct C as [-> C]. split; [|now right]. intros m w. apply C.
    + destruct C as [C D]. split; [exact D|]. left. split; [discriminate|]. cbn [firstn app] in Fl, C. now rewrite Fl in C.
  - intros [N [[H V]|[-> ->]]].
    + assert (L : (0 < List.length l)%nat) by (destruct l; [congruence|cbn; lia]). assert (L' : (List.length l <= List.length (l ++ beyond))%nat) by (rewrite app_length; lia).
      destruct n as [|n]; [destruct C as [_ C]; destruct (C (List.length l) v); [lia|now rewrite Fl]|]. destruct C as [C D].
      destruct (Nat.lt_trichotomy (S n) (List.length l)) as [Q|[Q|Q]]; [destruct (D (List.length l) v); [lia|now rewrite Fl]| |destruct (N (S n) x); [lia|exact C]].
      rewrite Q, Fl in C. rewrite Q, Nat.eqb_refl. now rewrite (F _ _ _ C V).
    + destruct n as [|n]; [destruct C as [-> _]; reflexivity|]. destruct C as [C _]. destruct (N (S n) x); [cbn in *; lia|exact C].
Qed.
Print Assumptions C52_floats_exactly.

(** With one-digit numerals: the second of two digits is refused, and one digit is accepted
    before something else only if it is not looked at. *)
Example C52_floats_example : let numeral := fun s x => s = chars "1" /\ x = FFin false 1 0 in
  let strto := fun s => match s with "1"%char :: _ => (1%nat, FFin false 1 0) | _ => (0%nat, FZero false) end in
  reads_numerals numeral strto /\ parse_floating strto (chars "1") (chars "x") = (true, FFin false 1 0) /\ parse_floating strto (chars "1x") [] = (false, FFin false 1 0).
Proof.
  cbv zeta. split; [|split; reflexivity]. intros [|c s] n v H.
  - injection H as <- <-. cbn. split; [lia|split; [reflexivity|]]. intros m w L. cbn in L. lia.
  - destruct (Ascii.eqb_spec c "1") as [->|N].
    + injection H as <- <-. cbn. split; [lia|]. split; [split; reflexivity|]. intros m w L [E _]. apply (f_equal (@List.length ascii)) in E. rewrite firstn_length in E. cbn in E, L. lia.
    + assert (E : (n, v) = (0%nat, FZero false)) by (rewrite <- H; destruct c as [[|] [|] [|] [|] [|] [|] [|] [|]]; try reflexivity; now destruct N). injection E as -> ->.
      cbn. split; [lia|split; [reflexivity|]]. intros [|m] w L [Q _]; [lia|]. cbn in Q. injection Q as Q _. congruence.
Qed.

(** The library functions for floating-point numbers are not told where the literal ends: the
    result depends on what follows in memory, whatever these functions do with numerals. *)
Theorem C52_floats_refuted : forall strto v w, strto (chars "12") = (2%nat, v) -> strto (chars "123") = (3%nat, w) -> strto [] = (0%nat, FZero false) ->
  parse_floating strto (chars "12") [] = (true, v) /\ parse_floating strto (chars "12") (chars "3") = (false, w) /\ parse_floating strto [] [] = (true, FZero false).
Proof. intros strto v w A B C. unfold parse_floating. cbn [app chars list_ascii_of_string] in *. rewrite A, B, C. auto. Qed.
Print Assumptions C52_floats_refuted.
