(** The reader reads exactly the texts of the grammar; the writer prints such texts. *)
From Coq Require Import List Arith ZArith NArith Ascii String Bool Lia ZifyBool ZifyN ZifyNat.
From Verif Require Import Base Float Decimal10 Json Events DeserializeModel TextModel TextSpec TextChars.
Import ListNotations.
Local Open Scope char_scope.

(** The codes of characters that are given. *)
Ltac codes :=
  repeat match goal with
  | |- context [code (Ascii ?a ?b ?c ?d ?e ?f ?g ?h)] => let v := eval vm_compute in (code (Ascii a b c d e f g h)) in change (code (Ascii a b c d e f g h)) with v
  | H : context [code (Ascii ?a ?b ?c ?d ?e ?f ?g ?h)] |- _ => let v := eval vm_compute in (code (Ascii a b c d e f g h)) in change (code (Ascii a b c d e f g h)) with v in H
  end.

(** * Numbers *)

Lemma is_digit_spec : forall c, is_digit c = true <-> digit c.
Proof. intros c. unfold is_digit, digit. rewrite code_N. lia. Qed.

Lemma digits_forallb : forall ds, Forall digit ds <-> forallb is_digit ds = true.
Proof. intros ds. rewrite forallb_forall, Forall_forall. split; intros H c Hc; apply is_digit_spec; auto. Qed.

Definition undigit (s : list ascii) : Prop := match s with c :: _ => is_digit c = false | [] => True end.

Lemma span_complete : forall ds r, Forall digit ds -> undigit r -> span_digits (ds ++ r) = (ds, r).
Proof.
  intros ds r H U. induction H as [|c ds Hc _ IH]; cbn [app span_digits].
  - destruct r as [|c r]; [reflexivity|]. cbn in U |- *. now rewrite U.
  - apply is_digit_spec in Hc. now rewrite Hc, IH.
Qed.

Lemma span_sound : forall s ds r, span_digits s = (ds, r) -> s = ds ++ r /\ Forall digit ds /\ undigit r.
Proof.
  induction s as [|c s IH]; intros ds r H; cbn [span_digits] in H.
  - injection H as <- <-. repeat split; constructor.
  - destruct (is_digit c) eqn:E.
    + destruct (span_digits s) as [ds' r'] eqn:Es. injection H as <- <-. destruct (IH _ _ eq_refl) as (-> & D & U).
      repeat split; [|assumption]. constructor; [now apply is_digit_spec|assumption].
    + injection H as <- <-. repeat split; [constructor|exact E].
Qed.

Lemma starts_spec : forall c s r, starts c s = Some r <-> s = c :: r.
Proof.
  intros c [|d s] r; cbn; [split; discriminate|]. destruct (Ascii.eqb_spec c d) as [->|N].
  - split; [intros [= <-]|intros [= <-]]; reflexivity.
  - split; [discriminate|]. intros [= <- _]. now destruct N.
Qed.

Lemma starts_same : forall c s, starts c (c :: s) = Some s.
Proof. intros c s. now apply starts_spec. Qed.

Lemma starts_other : forall c d s, c <> d -> starts c (d :: s) = None.
Proof. intros c d s H. cbn. destruct (Ascii.eqb_spec c d); [contradiction|reflexivity]. Qed.

Lemma int_part_complete : forall ds r, integer_part ds -> undigit r -> read_int_part (ds ++ r) = Some (ds, r).
Proof.
  intros ds r [[Ne D] Z0] U. destruct ds as [|c ds]; [congruence|]. cbn [app read_int_part].
  destruct (Ascii.eqb_spec c "0") as [->|N]. { cbn in Z0. injection (Z0 eq_refl) as ->. reflexivity. }
  inversion D as [|? ? Hc _]; subst. apply is_digit_spec in Hc. rewrite Hc. f_equal. now apply (span_complete (c :: ds)).
Qed.

Lemma int_part_sound : forall s ds r, read_int_part s = Some (ds, r) -> s = ds ++ r /\ integer_part ds.
Proof.
  intros [|c s] ds r H; [discriminate|]. cbn [read_int_part] in H. destruct (Ascii.eqb_spec c "0") as [->|N].
  - injection H as <- <-. split; [reflexivity|]. split; [split; [discriminate|]|reflexivity]. constructor; [unfold digit; codes; lia|constructor].
  - destruct (is_digit c) eqn:E; [|discriminate]. injection H as H.
    cbn [span_digits] in H. rewrite E in H. destruct (span_digits s) as [ds' r'] eqn:Es. injection H as <- <-. apply span_sound in Es as (-> & D & _).
    split; [reflexivity|]. split; [split; [discriminate|]|]; [constructor; [now apply is_digit_spec|assumption]|]. cbn. intros ->. congruence.
Qed.

(** The characters that may follow a value. *)
Definition ends (r : list ascii) : Prop := match r with c :: _ => In c [" "; "010"; "013"; "009"; ","; "]"; "}"] | [] => True end.

Lemma ends_undigit : forall r, ends r -> undigit r.
Proof.
  intros [|c r]; [trivial|]. cbn. intros H. repeat (destruct H as [<-|H]; [reflexivity|]). contradiction.
Qed.

Lemma exponent_complete : forall ex r, exponent ex -> ends r -> read_exponent (ex ++ r) = Some (ex, r).
Proof.
  intros ex r [->|(e & sign & ds & He & Hs & [Ne D] & ->)] U.
  - cbn [app]. destruct r as [|c r]; [reflexivity|]. cbn in U |- *. repeat (destruct U as [<-|U]; [reflexivity|]). contradiction.
  - cbn [app read_exponent]. replace (Ascii.eqb e "e" || Ascii.eqb e "E") with true by (destruct He as [<-|[<-|[]]]; reflexivity).
    rewrite <- app_assoc. pose proof (ends_undigit _ U) as U'. destruct Hs as [<-|[<-|[<-|[]]]]; cbn [app].
    + destruct ds as [|d ds]; [congruence|]. cbn [app]. inversion D as [|? ? Hd _]; subst.
      replace (Ascii.eqb d "+" || Ascii.eqb d "-") with false.
      2:{ unfold digit in Hd. rewrite !eqb_code. codes. lia. }
      change (d :: ds ++ r) with ((d :: ds) ++ r). rewrite (span_complete (d :: ds) r D U'). reflexivity.
    + cbn [Ascii.eqb Bool.eqb andb orb]. rewrite (span_complete ds r D U'). destruct ds; [congruence|reflexivity].
    + cbn [Ascii.eqb Bool.eqb andb orb]. rewrite (span_complete ds r D U'). destruct ds; [congruence|reflexivity].
Qed.

Lemma exponent_sound : forall s ex r, read_exponent s = Some (ex, r) -> s = ex ++ r /\ exponent ex.
Proof.
  intros [|c s] ex r H; cbn [read_exponent] in H. { injection H as <- <-. split; [reflexivity|now left]. }
  destruct (Ascii.eqb c "e" || Ascii.eqb c "E") eqn:Ec.
  2:{ injection H as <- <-. split; [reflexivity|now left]. }
  assert (He : In c ["e"; "E"]) by (apply orb_true_iff in Ec; rewrite !Ascii.eqb_eq in Ec; cbn; intuition).
  destruct (match s with d :: r0 => if Ascii.eqb d "+" || Ascii.eqb d "-" then ([d], r0) else ([], s) | [] => ([], []) end) as [sign s'] eqn:Es.
  assert (S' : s = sign ++ s' /\ In sign [[]; ["+"]; ["-"]]).
  { destruct s as [|d s]; [injection Es as <- <-; split; [reflexivity|now left]|].
    destruct (Ascii.eqb_spec d "+") as [->|]; [injection Es as <- <-; cbn; tauto|].
    destruct (Ascii.eqb_spec d "-") as [->|]; injection Es as <- <-; cbn; tauto. }
  destruct S' as [-> Hs]. destruct (span_digits s') as [ds r'] eqn:Ed. apply span_sound in Ed as (-> & D & _).
  destruct ds as [|d ds]; [discriminate|]. injection H as <- <-. split; [cbn [app]; now rewrite <- app_assoc|].
  right. exists c, sign, (d :: ds). repeat split; try assumption. discriminate.
Qed.

Lemma fraction_complete : forall fr ex r, fraction fr -> exponent ex -> ends r -> read_fraction (fr ++ ex ++ r) = Some (fr, ex ++ r).
Proof.
  intros fr ex r Hf Hx U.
  assert (U' : undigit (ex ++ r) /\ starts "." (ex ++ r) = None).
  { destruct Hx as [->|(e & sign & ds & He & _ & _ & ->)]; cbn [app].
    - split; [now apply ends_undigit|]. destruct r as [|c r]; [reflexivity|]. cbn in U |- *. repeat (destruct U as [<-|U]; [reflexivity|]). contradiction.
    - destruct He as [<-|[<-|[]]]; split; reflexivity. }
  destruct U' as [U1 U2]. destruct Hf as [->|(ds & [Ne D] & ->)]; unfold read_fraction; cbn [app].
  - now rewrite U2.
  - rewrite starts_same, (span_complete ds _ D U1). destruct ds; [congruence|reflexivity].
Qed.

Lemma fraction_sound : forall s fr r, read_fraction s = Some (fr, r) -> s = fr ++ r /\ fraction fr.
Proof.
  intros s fr r H. unfold read_fraction in H. destruct (starts "." s) as [s'|] eqn:E.
  - apply starts_spec in E as ->. destruct (span_digits s') as [ds r'] eqn:Ed. apply span_sound in Ed as (-> & D & _).
    destruct ds as [|d ds]; [discriminate|]. injection H as <- <-. split; [reflexivity|]. right. exists (d :: ds). repeat split; [discriminate|assumption].
  - injection H as <- <-. split; [reflexivity|now left].
Qed.

Lemma digits_value_spec : forall ds, Forall digit ds -> digits_value 0 ds = Z.of_N (digits_val ds).
Proof.
  intros ds H. unfold digits_val. change 0%Z with (Z.of_N 0). generalize 0%N. induction H as [|c ds Hc _ IH]; intros n; [reflexivity|].
  cbn [digits_value fold_left]. rewrite <- IH. f_equal. unfold digit in Hc. rewrite code_N in *. unfold digit_val. lia.
Qed.

(** The value of an integer numeral. *)
Definition signed (sign ds : list ascii) : Z := match sign with [] => Z.of_N (digits_val ds) | _ => (- Z.of_N (digits_val ds))%Z end.

Lemma integer_signed : forall sign ds, In sign [[]; ["-"]] -> integer_part ds -> integer (sign ++ ds) (signed sign ds).
Proof.
  intros sign ds [<-|[<-|[]]] H; pose proof H as [[_ D] _]; cbn [app signed]; rewrite <- (digits_value_spec ds D); now constructor.
Qed.

Lemma integer_inv : forall s z, integer s z -> exists sign ds, In sign [[]; ["-"]] /\ integer_part ds /\ s = sign ++ ds /\ z = signed sign ds.
Proof.
  intros s z [ds H|ds H]; pose proof H as [[_ D] _]; rewrite (digits_value_spec ds D).
  - exists [], ds. cbn. tauto.
  - exists ["-"], ds. cbn. tauto.
Qed.

Lemma minus_undigit : forall ds, ~ integer_part ("-" :: ds).
Proof. intros ds [[_ D] _]. inversion D as [|? ? Hd _]. unfold digit in Hd. codes. lia. Qed.

Lemma signed_unique : forall sign ds sign' ds', In sign [[]; ["-"]] -> In sign' [[]; ["-"]] -> integer_part ds -> integer_part ds' ->
  sign ++ ds = sign' ++ ds' -> sign = sign' /\ ds = ds'.
Proof.
  intros sign ds sign' ds' [<-|[<-|[]]] [<-|[<-|[]]] H H' E; cbn [app] in E.
  - now split.
  - subst. now apply minus_undigit in H.
  - subst. now apply minus_undigit in H'.
  - injection E as ->. now split.
Qed.

Lemma integer_chars : forall s z, integer s z -> Forall (fun c => digit c \/ c = "-") s.
Proof.
  intros s z [ds [[_ D] _]|ds [[_ D] _]]; [|constructor; [now right|]]; (eapply Forall_impl; [|exact D]); cbn; auto.
Qed.

Definition split_minus (s : list ascii) : list ascii * list ascii := match starts "-" s with Some s' => (["-"], s') | None => ([], s) end.

Lemma split_minus_complete : forall sign ds r, In sign [[]; ["-"]] -> integer_part ds -> split_minus (sign ++ ds ++ r) = (sign, ds ++ r).
Proof.
  intros sign ds r [<-|[<-|[]]] H; cbn [app]; unfold split_minus; [|now rewrite starts_same].
  destruct ds as [|d ds]; [destruct H as [[H _] _]; congruence|]. cbn [app]. rewrite starts_other; [reflexivity|].
  intros <-. now apply minus_undigit in H.
Qed.

Lemma split_minus_sound : forall s sign r, split_minus s = (sign, r) -> s = sign ++ r /\ In sign [[]; ["-"]].
Proof.
  intros s sign r H. unfold split_minus in H. destruct (starts "-" s) as [s'|] eqn:E.
  - apply starts_spec in E as ->. injection H as <- <-. cbn. tauto.
  - injection H as <- <-. cbn. tauto.
Qed.

Definition kept_b (z : Z) : bool := ((- 2 ^ 63 <=? z) && (z <? 2 ^ 64))%Z.
Lemma kept_spec : forall z, kept_b z = true <-> kept z.
Proof. intros z. unfold kept_b, kept. rewrite andb_true_iff, Z.leb_le, Z.ltb_lt. tauto. Qed.

Section Values.
Variable nearest : list ascii -> option fl.

Lemma read_number_unfold : forall s, read_number nearest s =
  let '(sign, s1) := split_minus s in
  match read_int_part s1 with
  | None => None
  | Some (ds, s2) =>
    match read_fraction s2 with
    | None => None
    | Some (frac, s3) =>
      match read_exponent s3 with
      | None => None
      | Some (ex, s4) =>
        match frac, ex, kept_b (signed sign ds) with
        | [], [], true => Some (JInt (signed sign ds), s4)
        | _, _, _ => match nearest (sign ++ ds ++ frac ++ ex) with Some f => Some (JDbl f, s4) | None => None end
        end
      end
    end
  end.
Proof. reflexivity. Qed.

Lemma ends_after : forall fr ex r, fraction fr -> exponent ex -> ends r -> undigit (fr ++ ex ++ r).
Proof.
  intros fr ex r [->|(ds & _ & ->)] Hx U; [|reflexivity]. cbn [app].
  destruct Hx as [->|(e & sign & es & He & _ & _ & ->)]; [now apply ends_undigit|]. destruct He as [<-|[<-|[]]]; reflexivity.
Qed.

Lemma read_number_integer : forall s z r, integer s z -> kept z -> ends r -> read_number nearest (s ++ r) = Some (JInt z, r).
Proof.
  intros s z r H K U. apply integer_inv in H as (sign & ds & Hs & Hd & -> & ->). rewrite read_number_unfold, <- app_assoc, split_minus_complete by assumption.
  rewrite int_part_complete by (try assumption; now apply ends_undigit).
  pose proof (fraction_complete [] [] r ltac:(now left) ltac:(now left) U) as E1. cbn [app] in E1. rewrite E1.
  pose proof (exponent_complete [] r ltac:(now left) U) as E2. cbn [app] in E2. rewrite E2. apply kept_spec in K. now rewrite K.
Qed.

Lemma read_number_double : forall s f r, number s -> (forall z, integer s z -> ~ kept z) -> nearest s = Some f -> ends r ->
  read_number nearest (s ++ r) = Some (JDbl f, r).
Proof.
  intros s f r (sign & ds & frac & ex & Hs & Hd & Hf & Hx & ->) N E U. rewrite read_number_unfold.
  rewrite <- !app_assoc, split_minus_complete by assumption. rewrite int_part_complete by (try assumption; now apply ends_after).
  rewrite fraction_complete by assumption. rewrite exponent_complete by assumption. rewrite E.
  destruct frac as [|? ?]; [|reflexivity]. destruct ex as [|? ?]; [|reflexivity].
  destruct (kept_b (signed sign ds)) eqn:K; [|reflexivity]. apply kept_spec in K. cbn [app] in N. rewrite app_nil_r in N.
  exfalso. apply (N (signed sign ds)); [now apply integer_signed|assumption].
Qed.

Lemma read_number_sound : forall s j r, read_number nearest s = Some (j, r) -> exists k, s = k ++ r /\ value nearest k j.
Proof.
  intros s j r H. rewrite read_number_unfold in H. destruct (split_minus s) as [sign s1] eqn:E1. apply split_minus_sound in E1 as [-> Hs].
  destruct (read_int_part s1) as [[ds s2]|] eqn:E2; [|discriminate]. apply int_part_sound in E2 as [-> Hd].
  destruct (read_fraction s2) as [[frac s3]|] eqn:E3; [|discriminate]. apply fraction_sound in E3 as [-> Hf].
  destruct (read_exponent s3) as [[ex s4]|] eqn:E4; [|discriminate]. apply exponent_sound in E4 as [-> Hx].
  assert (Num : number (sign ++ ds ++ frac ++ ex)) by (exists sign, ds, frac, ex; tauto).
  assert (Dbl : (forall z, integer (sign ++ ds ++ frac ++ ex) z -> ~ kept z) ->
    match nearest (sign ++ ds ++ frac ++ ex) with Some f => Some (JDbl f, s4) | None => None end = Some (j, r) ->
    exists k, sign ++ ds ++ frac ++ ex ++ s4 = k ++ r /\ value nearest k j).
  { intros N Hn. destruct (nearest (sign ++ ds ++ frac ++ ex)) as [f|] eqn:En; [|discriminate]. injection Hn as <- <-.
    exists (sign ++ ds ++ frac ++ ex). split; [now rewrite <- !app_assoc|]. now apply value_number. }
  assert (Odd : forall c, In c (frac ++ ex) -> ~ digit c -> c <> "-" -> forall z, integer (sign ++ ds ++ frac ++ ex) z -> ~ kept z).
  { intros c Hc Nd Nm z Hz. apply integer_chars in Hz. rewrite Forall_forall in Hz. destruct (Hz c); [|contradiction|contradiction].
    apply in_or_app. right. apply in_or_app. now right. }
  destruct frac as [|d frac].
  - destruct ex as [|x ex].
    + destruct (kept_b (signed sign ds)) eqn:K.
      * apply kept_spec in K. injection H as <- <-. exists (sign ++ ds). split; [cbn [app]; now rewrite <- app_assoc|].
        apply value_integer; [now apply integer_signed|assumption].
      * apply Dbl; [|exact H]. cbn [app]. rewrite app_nil_r. intros z Hz Kz. apply integer_inv in Hz as (sign' & ds' & Hs' & Hd' & E & ->).
        apply signed_unique in E as [<- <-]; try assumption. apply kept_spec in Kz. congruence.
    + apply Dbl; [|exact H]. destruct Hx as [Hx|(e & sg & es & He & _ & _ & Ex)]; [discriminate|]. injection Ex as -> ->.
      apply (Odd e); [now left| |]; destruct He as [<-|[<-|[]]]; try discriminate; unfold digit; codes; lia.
  - apply Dbl; [|exact H]. destruct Hf as [Hf|(es & _ & Ef)]; [discriminate|]. injection Ef as -> ->.
    apply (Odd "."); [now left|unfold digit; codes; lia|discriminate].
Qed.

(** * Values *)

(** How the text of a value starts. *)
Lemma digit_first : forall c, digit c -> is_space c = false /\ ~ In c ["]"; "}"; "n"; "t"; "f"; quote; "["; "{"].
Proof.
  intros c H. unfold digit in H. split.
  - apply not_true_is_false. rewrite is_space_spec. cbn. lia.
  - intros I. cbn in I. repeat (destruct I as [<-|I]; [unfold quote in H; codes; lia|]). contradiction.
Qed.

Lemma number_first : forall s, number s -> exists c s', s = c :: s' /\ is_space c = false /\ ~ In c ["]"; "}"; "n"; "t"; "f"; quote; "["; "{"].
Proof.
  intros s (sign & ds & frac & ex & Hs & [[Ne D] _] & _ & _ & ->). destruct Hs as [<-|[<-|[]]]; cbn [app].
  - destruct ds as [|d ds]; [congruence|]. inversion D as [|? ? Hd _]; subst. exists d, (ds ++ frac ++ ex). split; [reflexivity|]. now apply digit_first.
  - exists "-", (ds ++ frac ++ ex). split; [reflexivity|]. split; [reflexivity|]. cbn. intuition discriminate.
Qed.

Lemma integer_number : forall s z, integer s z -> number s.
Proof.
  intros s z H. apply integer_inv in H as (sign & ds & Hs & Hd & -> & _). exists sign, ds, [], []. rewrite !app_nil_r.
  repeat split; try assumption; try (now left); apply Hd.
Qed.

Lemma value_first : forall s j, value nearest s j -> exists c s', s = c :: s' /\ is_space c = false /\ c <> "]" /\ c <> "}".
Proof.
  assert (W : forall s, number s -> exists c s', s = c :: s' /\ is_space c = false /\ c <> "]" /\ c <> "}").
  { intros s N. apply number_first in N as (c & s' & -> & Hs & N). exists c, s'. repeat split; [assumption| |]; intros ->; apply N; cbn; tauto. }
  intros s j H. destruct H as [| | | |s z H _|s f H _ _| | | |]; try (eexists; eexists; repeat split; reflexivity || discriminate).
  - apply W. now apply integer_number in H.
  - now apply W.
Qed.

Lemma read_number_value : forall n s j r, number s -> read_number nearest (s ++ r) = Some (j, r) -> read_value nearest (S n) (s ++ r) = ROk j r.
Proof.
  intros n s j r H E. apply number_first in H as (c & s' & -> & _ & N). cbn [app] in *. cbn [read_value].
  assert (NE : forall d, In d ["n"; "t"; "f"; quote; "["; "{"] -> Ascii.eqb c d = false).
  { intros d Hd. apply Ascii.eqb_neq. intros ->. apply N. cbn in Hd |- *. tauto. }
  rewrite !NE by (cbn; tauto). now rewrite E.
Qed.

Lemma expect_complete : forall w r, expect w (w ++ r) = Some r.
Proof. induction w as [|c w IH]; intros r; [reflexivity|]. cbn [app expect]. now rewrite starts_same. Qed.

Lemma expect_sound : forall w s r, expect w s = Some r -> s = w ++ r.
Proof.
  induction w as [|c w IH]; intros s r H; cbn [expect] in H; [now injection H as <-|].
  destruct (starts c s) as [s'|] eqn:E; [|discriminate]. apply starts_spec in E as ->. cbn [app]. f_equal. auto.
Qed.

Definition P_value (s : list ascii) (j : json) : Prop := forall n r, 2 * List.length s + 1 <= n -> ends r -> read_value nearest n (s ++ r) = ROk j r.
Definition P_spaced (s : list ascii) (j : json) : Prop := forall n r, 2 * List.length s + 1 <= n -> ends r ->
  exists w, blank w /\ read_value nearest n (skip (s ++ r)) = ROk j (w ++ r) /\ starts "]" (skip (s ++ r)) = None.
Definition P_items (s : list ascii) (l : list json) : Prop := forall n acc r, 2 * List.length s + 2 <= n ->
  read_items nearest n acc (skip (s ++ "]" :: r)) = ROk (JArr (acc ++ l)) r /\ starts "]" (skip (s ++ "]" :: r)) = None.
Definition P_fields (s : list ascii) (l : list (string * json)) : Prop := forall n acc r, 2 * List.length s + 2 <= n ->
  read_fields nearest n acc (skip (s ++ "}" :: r)) = ROk (JObj (acc ++ l)) r /\ starts "}" (skip (s ++ "}" :: r)) = None.

Lemma blank_ends : forall w r, blank w -> ends r -> ends (w ++ r).
Proof.
  intros [|c w] r H E; [assumption|]. inversion H as [|? ? Hc _]; subst. cbn [app ends]. cbn in Hc |- *.
  destruct Hc as [Hc|[Hc|[Hc|[Hc|[]]]]]; [left|right; left|right; right; left|right; right; right; left]; apply code_inj; now rewrite <- Hc.
Qed.

Lemma value_unfold : forall n c s, read_value nearest (S n) (c :: s) =
      if Ascii.eqb c "n" then literal "ull" JNull s
      else if Ascii.eqb c "t" then literal "rue" (JBool true) s
      else if Ascii.eqb c "f" then literal "alse" (JBool false) s
      else if Ascii.eqb c quote then
        match read_string s with Some (b, r) => ROk (JStr (string_of_list_ascii b)) r | None => RErr [] end
      else if Ascii.eqb c "[" then
        match starts "]" (skip s) with Some r => ROk (JArr []) r | None => read_items nearest n [] (skip s) end
      else if Ascii.eqb c "{" then
        match starts "}" (skip s) with Some r => ROk (JObj []) r | None => read_fields nearest n [] (skip s) end
      else match read_number nearest (c :: s) with Some (j, r) => ROk j r | None => RErr [] end.
Proof. reflexivity. Qed.

Lemma items_unfold : forall n acc s, read_items nearest (S n) acc s =
    match read_value nearest n s with
    | ROk j r =>
      match starts "," (skip r), starts "]" (skip r) with
      | Some r', _ => read_items nearest n (acc ++ [j]) (skip r')
      | None, Some r' => ROk (JArr (acc ++ [j])) r'
      | None, None => RErr (EStartArray :: flat_map events (acc ++ [j]))
      end
    | RErr evs => RErr (EStartArray :: flat_map events acc ++ evs)
    | RDeep => RDeep
    end.
Proof. reflexivity. Qed.

Lemma fields_unfold : forall n acc s, read_fields nearest (S n) acc s =
    let before := EStartObject :: flat_map (fun p => EKey (fst p) :: events (snd p)) acc in
    match starts quote s with
    | None => RErr before
    | Some s1 =>
      match read_string s1 with
      | None => RErr before
      | Some (b, s2) =>
        let key := string_of_list_ascii b in
        match starts ":" (skip s2) with
        | None => RErr (before ++ [EKey key])
        | Some s3 =>
          match read_value nearest n (skip s3) with
          | ROk j r =>
            match starts "," (skip r), starts "}" (skip r) with
            | Some r', _ => read_fields nearest n (acc ++ [(key, j)]) (skip r')
            | None, Some r' => ROk (JObj (acc ++ [(key, j)])) r'
            | None, None => RErr (before ++ EKey key :: events j)
            end
          | RErr evs => RErr (before ++ EKey key :: evs)
          | RDeep => RDeep
          end
        end
      end
    end.
Proof. reflexivity. Qed.

Ltac lengths := repeat (rewrite ?app_length in *; cbn [List.length] in *); lia.

Lemma reads_grammar : (forall s j, value nearest s j -> P_value s j) /\ (forall s j, spaced nearest s j -> P_spaced s j) /\
  (forall s l, items nearest s l -> P_items s l) /\ (forall s l, fields nearest s l -> P_fields s l).
Proof.
  apply grammar_ind.
  - intros [|n] r L _; [lia|reflexivity].
  - intros [|n] r L _; [lia|reflexivity].
  - intros [|n] r L _; [lia|reflexivity].
  - intros s b H [|n] r L _; [lia|]. cbn [app]. rewrite <- app_assoc. cbn [read_value app]. cbn [Ascii.eqb Bool.eqb quote].
    change """" with quote. rewrite (read_string_complete s b H r). reflexivity.
  - intros s z H K [|n] r L U; [lia|]. apply read_number_value; [now apply integer_number in H|]. now apply read_number_integer.
  - intros s f H N E [|n] r L U; [lia|]. apply read_number_value; [assumption|]. now apply read_number_double.
  - intros w H [|n] r L _; [lia|]. cbn [app]. rewrite <- app_assoc. cbn [app]. rewrite value_unfold. cbn [Ascii.eqb Bool.eqb quote].
    rewrite skip_blank by (assumption || reflexivity). now rewrite starts_same.
  - intros s l _ IH [|n] r L _; [lia|]. cbn [app]. rewrite <- app_assoc. cbn [app]. rewrite value_unfold. cbn [Ascii.eqb Bool.eqb quote].
    destruct (IH n [] r) as [E1 E2]; [lengths|]. now rewrite E2, E1.
  - intros w H [|n] r L _; [lia|]. cbn [app]. rewrite <- app_assoc. cbn [app]. rewrite value_unfold. cbn [Ascii.eqb Bool.eqb quote].
    rewrite skip_blank by (assumption || reflexivity). now rewrite starts_same.
  - intros s l _ IH [|n] r L _; [lia|]. cbn [app]. rewrite <- app_assoc. cbn [app]. rewrite value_unfold. cbn [Ascii.eqb Bool.eqb quote].
    destruct (IH n [] r) as [E1 E2]; [lengths|]. now rewrite E2, E1.
  - intros w s w' j Hw Hv IH Hw' n r L U. rewrite <- !app_assoc. destruct (value_first s j Hv) as (c & s' & Es & Hs & N1 & _).
    rewrite skip_blank by (assumption || (rewrite Es; exact Hs)). exists w'. split; [assumption|]. split.
    + apply IH; [lengths|]. now apply blank_ends.
    + rewrite Es. cbn [app]. apply starts_other. congruence.
  - intros s j _ IH [|n] acc r L; [lia|]. destruct (IH n ("]" :: r)) as (w & Hw & E1 & E2); [lengths|cbn; tauto|].
    split; [|assumption]. rewrite items_unfold, E1, skip_blank by (assumption || reflexivity). rewrite starts_other by discriminate. now rewrite starts_same.
  - intros s j s' l _ IH _ IH' [|n] acc r L; [lia|]. rewrite <- app_assoc. cbn [app].
    destruct (IH n ("," :: s' ++ "]" :: r)) as (w & Hw & E1 & E2); [lengths|cbn; tauto|].
    split; [|assumption]. rewrite items_unfold, E1, skip_blank by (assumption || reflexivity). rewrite starts_same.
    destruct (IH' n (acc ++ [j]) r) as [E3 _]; [lengths|]. rewrite E3. now rewrite <- app_assoc.
  - intros w k b w' s j Hw Hk Hw' _ IH [|n] acc r L; [lia|].
    replace ((w ++ """" :: k ++ """" :: w' ++ ":" :: s) ++ "}" :: r) with (w ++ quote :: k ++ quote :: w' ++ ":" :: s ++ "}" :: r)
      by (repeat (rewrite <- app_assoc; cbn [app]); reflexivity).
    rewrite skip_blank by (assumption || reflexivity). split; [|now apply starts_other].
    destruct (IH n ("}" :: r)) as (w2 & Hw2 & E1 & _); [lengths|cbn; tauto|].
    rewrite fields_unfold, starts_same, (read_string_complete k b Hk). cbv zeta. rewrite skip_blank by (assumption || reflexivity).
    rewrite starts_same, E1, skip_blank by (assumption || reflexivity). rewrite starts_other by discriminate. now rewrite starts_same.
  - intros w k b w' s j s' l Hw Hk Hw' _ IH _ IH' [|n] acc r L; [lia|].
    replace ((w ++ """" :: k ++ """" :: w' ++ ":" :: s ++ "," :: s') ++ "}" :: r) with (w ++ quote :: k ++ quote :: w' ++ ":" :: s ++ "," :: s' ++ "}" :: r)
      by (repeat (rewrite <- app_assoc; cbn [app]); reflexivity).
    rewrite skip_blank by (assumption || reflexivity). split; [|now apply starts_other].
    destruct (IH n ("," :: s' ++ "}" :: r)) as (w2 & Hw2 & E1 & _); [lengths|cbn; tauto|].
    rewrite fields_unfold, starts_same, (read_string_complete k b Hk). cbv zeta. rewrite skip_blank by (assumption || reflexivity).
    rewrite starts_same, E1, skip_blank by (assumption || reflexivity). rewrite starts_same.
    destruct (IH' n (acc ++ [(string_of_list_ascii b, j)]) r) as [E3 _]; [lengths|]. rewrite E3. now rewrite <- app_assoc.
Qed.

(** ** Only the texts of the grammar *)

Lemma literal_sound : forall w j s j' r, literal w j s = ROk j' r -> j' = j /\ s = (list_ascii_of_string w ++ r)%list.
Proof.
  intros w j s j' r H. unfold literal in H. destruct (expect (list_ascii_of_string w) s) as [r'|] eqn:E; [|discriminate].
  injection H as <- <-. apply expect_sound in E. now split.
Qed.

Lemma blank_app : forall w w', blank w -> blank w' -> blank (w ++ w').
Proof. intros w w' H H'. now apply Forall_app. Qed.

Lemma spaced_blank : forall w s j, blank w -> spaced nearest s j -> spaced nearest (w ++ s) j.
Proof. intros w s j Hw H. destruct H as [w1 s w2 j H1 H2 H3]. rewrite app_assoc. apply spaced_value; try assumption. now apply blank_app. Qed.

Lemma items_blank : forall w s l, blank w -> items nearest s l -> items nearest (w ++ s) l.
Proof.
  intros w s l Hw H. destruct H as [s j H|s j s' l H H']; [constructor; now apply spaced_blank|].
  rewrite app_assoc. constructor; [now apply spaced_blank|assumption].
Qed.

Lemma fields_blank : forall w s l, blank w -> fields nearest s l -> fields nearest (w ++ s) l.
Proof.
  intros w s l Hw H. destruct H as [w1 k b w2 s j H1 H2 H3 H4|w1 k b w2 s j s' l H1 H2 H3 H4 H5]; rewrite app_assoc; constructor; try assumption; now apply blank_app.
Qed.

Definition S_value (n : nat) : Prop := forall s j r, read_value nearest n s = ROk j r -> exists k, s = k ++ r /\ value nearest k j.
Definition S_items (n : nat) : Prop := forall acc s j r, read_items nearest n acc s = ROk j r ->
  exists k l, s = k ++ "]" :: r /\ items nearest k l /\ j = JArr (acc ++ l).
Definition S_fields (n : nat) : Prop := forall acc s j r, read_fields nearest n acc s = ROk j r ->
  exists k l, s = k ++ "}" :: r /\ fields nearest k l /\ j = JObj (acc ++ l).

Lemma split_skip : forall s, exists w, blank w /\ s = w ++ skip s.
Proof. intros s. destruct (skip_spec s) as (w & ? & ? & _). eauto. Qed.

Lemma sound : forall n, S_value n /\ S_items n /\ S_fields n.
Proof.
  induction n as [|n (IHv & IHi & IHf)]; [repeat split; intros ?; intros; discriminate|]. split; [|split].
  - intros [|c s] j r H; [discriminate|]. rewrite value_unfold in H.
    destruct (Ascii.eqb_spec c "n") as [->|]; [apply literal_sound in H as [-> ->]; exists (list_ascii_of_string "null"); split; [reflexivity|constructor]|].
    destruct (Ascii.eqb_spec c "t") as [->|]; [apply literal_sound in H as [-> ->]; exists (list_ascii_of_string "true"); split; [reflexivity|constructor]|].
    destruct (Ascii.eqb_spec c "f") as [->|]; [apply literal_sound in H as [-> ->]; exists (list_ascii_of_string "false"); split; [reflexivity|constructor]|].
    destruct (Ascii.eqb_spec c quote) as [->|].
    { destruct (read_string s) as [[b r']|] eqn:E; [|discriminate]. injection H as <- <-. apply read_string_sound in E as (k & Hk & ->).
      exists (quote :: k ++ [quote]). split; [cbn [app]; now rewrite <- app_assoc|now constructor]. }
    destruct (Ascii.eqb_spec c "[") as [->|].
    { destruct (split_skip s) as (w & Hw & Es). destruct (starts "]" (skip s)) as [r'|] eqn:E.
      - apply starts_spec in E. injection H as <- <-. exists ("[" :: w ++ ["]"]). rewrite Es, E. split; [cbn [app]; now rewrite <- app_assoc|now constructor].
      - apply IHi in H as (k & l & Ek & Hk & ->). exists ("[" :: (w ++ k) ++ ["]"]). rewrite Es, Ek. split; [cbn [app]; now rewrite <- !app_assoc|].
        constructor. now apply items_blank. }
    destruct (Ascii.eqb_spec c "{") as [->|].
    { destruct (split_skip s) as (w & Hw & Es). destruct (starts "}" (skip s)) as [r'|] eqn:E.
      - apply starts_spec in E. injection H as <- <-. exists ("{" :: w ++ ["}"]). rewrite Es, E. split; [cbn [app]; now rewrite <- app_assoc|now constructor].
      - apply IHf in H as (k & l & Ek & Hk & ->). exists ("{" :: (w ++ k) ++ ["}"]). rewrite Es, Ek. split; [cbn [app]; now rewrite <- !app_assoc|].
        constructor. now apply fields_blank. }
    destruct (read_number nearest (c :: s)) as [[j' r']|] eqn:E; [|discriminate]. injection H as <- <-. now apply read_number_sound.
  - intros acc s j r H. rewrite items_unfold in H. destruct (read_value nearest n s) as [j1 r1| |] eqn:Ev; [|discriminate|discriminate].
    apply IHv in Ev as (k1 & -> & Hv). destruct (split_skip r1) as (w & Hw & Er).
    assert (Hs : spaced nearest (k1 ++ w) j1) by (apply (spaced_value nearest [] k1 w); [constructor|assumption|assumption]).
    destruct (starts "," (skip r1)) as [r'|] eqn:Ec.
    + apply starts_spec in Ec. apply IHi in H as (k & l & Ek & Hk & ->). destruct (split_skip r') as (w' & Hw' & Er').
      exists ((k1 ++ w) ++ "," :: w' ++ k), (j1 :: l). split; [|split].
      * rewrite Er, Ec, Er', Ek. repeat (rewrite <- !app_assoc; cbn [app]). reflexivity.
      * constructor; [assumption|]. now apply items_blank.
      * now rewrite <- app_assoc.
    + destruct (starts "]" (skip r1)) as [r'|] eqn:Eb; [|discriminate]. apply starts_spec in Eb. injection H as <- <-.
      exists (k1 ++ w), [j1]. split; [rewrite Er, Eb; now rewrite <- app_assoc|]. split; [now constructor|reflexivity].
  - intros acc s j r H. rewrite fields_unfold in H. cbv zeta in H. destruct (starts quote s) as [s1|] eqn:Eq; [|discriminate]. apply starts_spec in Eq as ->.
    destruct (read_string s1) as [[b s2]|] eqn:Es; [|discriminate]. apply read_string_sound in Es as (k0 & Hk0 & ->).
    destruct (split_skip s2) as (w0 & Hw0 & E2). destruct (starts ":" (skip s2)) as [s3|] eqn:E3; [|discriminate]. apply starts_spec in E3.
    destruct (split_skip s3) as (w3 & Hw3 & E4).
    destruct (read_value nearest n (skip s3)) as [j1 r1| |] eqn:Ev; [|discriminate|discriminate].
    apply IHv in Ev as (k1 & Ek1 & Hv). destruct (split_skip r1) as (w & Hw & Er).
    assert (Hs : spaced nearest (w3 ++ k1 ++ w) j1) by (now apply spaced_value).
    destruct (starts "," (skip r1)) as [r'|] eqn:Ec.
    + apply starts_spec in Ec. apply IHf in H as (k & l & Ek & Hk & ->). destruct (split_skip r') as (w' & Hw' & Er').
      exists ([] ++ quote :: k0 ++ quote :: w0 ++ ":" :: (w3 ++ k1 ++ w) ++ "," :: w' ++ k), ((string_of_list_ascii b, j1) :: l). split; [|split].
      * rewrite E2, E3, E4, Ek1, Er, Ec, Er', Ek. repeat (rewrite <- !app_assoc; cbn [app]). reflexivity.
      * constructor; try assumption; [constructor|]. now apply fields_blank.
      * now rewrite <- app_assoc.
    + destruct (starts "}" (skip r1)) as [r'|] eqn:Eb; [|discriminate]. apply starts_spec in Eb. injection H as <- <-.
      exists ([] ++ quote :: k0 ++ quote :: w0 ++ ":" :: (w3 ++ k1 ++ w)), [(string_of_list_ascii b, j1)]. split; [|split; [|reflexivity]].
      * rewrite E2, E3, E4, Ek1, Er, Eb. repeat (rewrite <- !app_assoc; cbn [app]). reflexivity.
      * constructor; try assumption. constructor.
Qed.

(** ** The fuel is enough *)

Lemma value_nonempty : forall s j, value nearest s j -> 1 <= List.length s.
Proof. intros s j H. apply value_first in H as (c & s' & -> & _). cbn. lia. Qed.

Lemma not_deep : forall n, (forall s, 2 * List.length s + 1 <= n -> read_value nearest n s <> RDeep) /\
  (forall acc s, 2 * List.length s + 2 <= n -> read_items nearest n acc s <> RDeep) /\
  (forall acc s, 2 * List.length s + 2 <= n -> read_fields nearest n acc s <> RDeep).
Proof.
  induction n as [|n (IHv & IHi & IHf)]; [repeat split; intros; lia|]. split; [|split].
  - intros [|c s] L; [discriminate|]. rewrite value_unfold. cbn [List.length] in L. pose proof (skip_length s) as Ls. unfold literal.
    destruct (Ascii.eqb c "n"); [destruct (expect _ s); discriminate|].
    destruct (Ascii.eqb c "t"); [destruct (expect _ s); discriminate|].
    destruct (Ascii.eqb c "f"); [destruct (expect _ s); discriminate|].
    destruct (Ascii.eqb c quote); [destruct (read_string s) as [[? ?]|]; discriminate|].
    destruct (Ascii.eqb c "["); [destruct (starts "]" (skip s)); [discriminate|apply IHi; lia]|].
    destruct (Ascii.eqb c "{"); [destruct (starts "}" (skip s)); [discriminate|apply IHf; lia]|].
    destruct (read_number nearest (c :: s)) as [[? ?]|]; discriminate.
  - intros acc s L. rewrite items_unfold. destruct (read_value nearest n s) as [j r| |] eqn:E; [|discriminate|exfalso; revert E; apply IHv; lia].
    apply (proj1 (sound n)) in E as (k & -> & Hv). apply value_nonempty in Hv. pose proof (skip_length r) as Lr.
    destruct (starts "," (skip r)) as [r'|] eqn:Ec; [|destruct (starts "]" (skip r)); discriminate].
    apply starts_spec in Ec. rewrite Ec in Lr. pose proof (skip_length r'). apply IHi. lengths.
  - intros acc s L. rewrite fields_unfold. cbv zeta. destruct (starts quote s) as [s1|] eqn:Eq; [|discriminate]. apply starts_spec in Eq as ->.
    destruct (read_string s1) as [[b s2]|] eqn:Es; [|discriminate]. apply read_string_shorter in Es.
    pose proof (skip_length s2) as L2. destruct (starts ":" (skip s2)) as [s3|] eqn:E3; [|discriminate]. apply starts_spec in E3. rewrite E3 in L2.
    pose proof (skip_length s3) as L3. destruct (read_value nearest n (skip s3)) as [j r| |] eqn:E; [|discriminate|exfalso; revert E; apply IHv; lengths].
    apply (proj1 (sound n)) in E as (k & Ek & Hv). apply value_nonempty in Hv. rewrite Ek in L3. pose proof (skip_length r) as Lr.
    destruct (starts "," (skip r)) as [r'|] eqn:Ec; [|destruct (starts "}" (skip r)); discriminate].
    apply starts_spec in Ec. rewrite Ec in Lr. pose proof (skip_length r'). apply IHf. lengths.
Qed.

(** * Whole texts *)

Definition visible (s : list ascii) : Prop := Forall (fun c => c <> Ascii.zero) s.

Lemma visible_codes : forall s, Forall (fun c => code c <> 0%Z) s -> visible s.
Proof. intros s H. eapply Forall_impl; [|exact H]. cbn. intros c Hc ->. now apply Hc. Qed.

Lemma visible_cons : forall c s, c <> Ascii.zero -> visible s -> visible (c :: s).
Proof. intros. now constructor. Qed.
Lemma visible_app : forall s s', visible s -> visible s' -> visible (s ++ s').
Proof. intros. now apply Forall_app. Qed.

Lemma blank_visible : forall w, blank w -> visible w.
Proof. intros w H. apply visible_codes. eapply Forall_impl; [|exact H]. cbn. lia. Qed.

Lemma digits_visible : forall ds, Forall digit ds -> visible ds.
Proof. intros w H. apply visible_codes. eapply Forall_impl; [|exact H]. unfold digit. lia. Qed.

Lemma hex_visible : forall c x, hex_value c x -> c <> Ascii.zero.
Proof. intros c x H ->. unfold hex_value in H. change (code Ascii.zero) with 0%Z in H. lia. Qed.

Lemma chars_visible : forall s b, chars s b -> visible s.
Proof.
  intros s b H. induction H as [|c s b H1 _ _ _ IH|x z s b Hx _ IH|h1 h2 h3 h4 cp s b (?&?&?&?&?&?&?&?&?) _ _ IH|h1 h2 h3 h4 k1 k2 k3 k4 hi lo s b (?&?&?&?&?&?&?&?&?) _ (?&?&?&?&?&?&?&?&?) _ _ IH].
  - constructor.
  - constructor; [|assumption]. intros ->. change (code Ascii.zero) with 0%Z in H1. lia.
  - constructor; [discriminate|]. constructor; [|assumption]. cbn in Hx. intros ->. intuition discriminate.
  - repeat (apply visible_cons; [discriminate || (eapply hex_visible; eassumption)|]). assumption.
  - repeat (apply visible_cons; [discriminate || (eapply hex_visible; eassumption)|]). assumption.
Qed.

Lemma number_visible : forall s, number s -> visible s.
Proof.
  intros s (sign & ds & frac & ex & Hs & [[_ D] _] & Hf & Hx & ->). repeat apply visible_app.
  - destruct Hs as [<-|[<-|[]]]; repeat constructor. discriminate.
  - now apply digits_visible.
  - destruct Hf as [->|(fs & [_ F] & ->)]; [constructor|]. apply visible_cons; [discriminate|now apply digits_visible].
  - destruct Hx as [->|(e & sg & es & He & Hg & [_ F] & ->)]; [constructor|]. apply visible_cons; [destruct He as [<-|[<-|[]]]; discriminate|].
    apply visible_app; [|now apply digits_visible]. destruct Hg as [<-|[<-|[<-|[]]]]; repeat constructor; discriminate.
Qed.

Ltac see := repeat (first [apply visible_cons; [discriminate|] | apply visible_app | apply blank_visible; assumption | assumption | (eapply chars_visible; eassumption) | apply Forall_nil]).

Lemma grammar_visible : (forall s j, value nearest s j -> visible s) /\ (forall s j, spaced nearest s j -> visible s) /\
  (forall s l, items nearest s l -> visible s) /\ (forall s l, fields nearest s l -> visible s).
Proof.
  apply grammar_ind; intros; see.
  - apply number_visible. now apply integer_number in H.
  - now apply number_visible.
Qed.

Lemma c_string_visible : forall s, visible (list_ascii_of_string s) <-> c_string s = s.
Proof.
  induction s as [|c s IH]; cbn [c_string list_ascii_of_string]; [split; [reflexivity|constructor]|].
  destruct (Ascii.eqb_spec c Ascii.zero) as [->|N].
  - split; [|discriminate]. intros H. inversion H. congruence.
  - split.
    + intros H. inversion H; subst. f_equal. now apply IH.
    + intros [= E]. constructor; [assumption|]. now apply IH.
Qed.

Lemma c_string_c_string : forall s, c_string (c_string s) = c_string s.
Proof.
  induction s as [|c s IH]; [reflexivity|]. cbn [c_string]. destruct (Ascii.eqb c Ascii.zero) eqn:E; [reflexivity|].
  cbn [c_string]. now rewrite E, IH.
Qed.

Theorem read_exactly : forall str j r, read_text nearest str = ROk j r <-> r = [] /\ json_text nearest (c_string str) j.
Proof.
  intros str j r. unfold read_text, json_text. set (s := list_ascii_of_string (c_string str)). split.
  - intros H. destruct (split_skip s) as (w & Hw & Es). destruct (skip s) as [|c s'] eqn:E; [discriminate|]. rewrite <- E in *. clear E.
    destruct (read_value nearest _ (skip s)) as [j' r'| |] eqn:Ev; [|discriminate|discriminate].
    apply (proj1 (sound _)) in Ev as (k & Ek & Hv). destruct (split_skip r') as (w' & Hw' & Er). destruct (skip r'); [|discriminate].
    injection H as <- <-. split; [reflexivity|]. rewrite Es, Ek, Er, app_nil_r. now apply spaced_value.
  - intros [-> H]. destruct H as [w k w' j Hw Hv Hw']. destruct (value_first k j Hv) as (c & k' & Ek & Hc & _).
    rewrite skip_blank by (assumption || (rewrite Ek; exact Hc)). destruct (k ++ w') as [|d t] eqn:E; [rewrite Ek in E; discriminate|]. rewrite <- E.
    rewrite (proj1 reads_grammar k j Hv); [|lengths|].
    + rewrite <- (app_nil_r w'), skip_blank; [reflexivity|assumption|exact I].
    + rewrite <- (app_nil_r w'). now apply blank_ends.
Qed.

Theorem read_not_deep : forall str, read_text nearest str <> RDeep.
Proof.
  intros str. unfold read_text. destruct (skip _) as [|c s] eqn:E; [discriminate|].
  pose proof (proj1 (not_deep (2 * List.length (c :: s) + 2)) (c :: s) ltac:(lia)) as N.
  destruct (read_value nearest _ (c :: s)) as [j r| |]; [|discriminate|now destruct N]. destruct (skip r); discriminate.
Qed.

Theorem text_visible : forall str j, json_text nearest str j -> c_string str = str.
Proof. intros str j H. apply c_string_visible. now apply grammar_visible in H. Qed.

Theorem text_unique : forall str j j', json_text nearest str j -> json_text nearest str j' -> j = j'.
Proof.
  intros str j j' H H'. pose proof (text_visible str j H) as E. rewrite <- E in H, H'.
  assert (R : read_text nearest str = ROk j []) by (apply read_exactly; auto).
  assert (R' : read_text nearest str = ROk j' []) by (apply read_exactly; auto). congruence.
Qed.

(** * Printing *)

Variable print : fl -> list ascii.

Fixpoint text (j : json) : list ascii :=
  match j with
  | JNull => list_ascii_of_string "null"
  | JBool true => list_ascii_of_string "true"
  | JBool false => list_ascii_of_string "false"
  | JInt z => decZ z
  | JDbl f => print f
  | JStr s => print_string s
  | JArr l =>
    "[" :: (fix go (first : bool) l := match l with [] => [] | x :: l' => (if first then [] else [","]) ++ text x ++ go false l' end) true l ++ ["]"]
  | JObj l =>
    "{" :: (fix go (first : bool) l := match l with [] => [] | (k, x) :: l' => (if first then [] else [","]) ++ print_string k ++ ":" :: text x ++ go false l' end) true l ++ ["}"]
  end.

Fixpoint items_text (first : bool) (l : list json) : list ascii :=
  match l with [] => [] | x :: l' => (if first then [] else [","]) ++ text x ++ items_text false l' end.
Fixpoint fields_text (first : bool) (l : list (string * json)) : list ascii :=
  match l with [] => [] | (k, x) :: l' => (if first then [] else [","]) ++ print_string k ++ ":" :: text x ++ fields_text false l' end.

Lemma text_array : forall l, text (JArr l) = "[" :: items_text true l ++ ["]"].
Proof. reflexivity. Qed.
Lemma text_object : forall l, text (JObj l) = "{" :: fields_text true l ++ ["}"].
Proof. reflexivity. Qed.

Lemma print_events_text : forall j st evs, print_events print st (events j ++ evs) = prefix st ++ text j ++ print_events print (counted st) evs.
Proof.
  induction j as [|b|z|f|s|l IH|l IH] using json_ind'; intros st evs.
  - cbn [events app print_events print_event]. now rewrite <- app_assoc.
  - cbn [events app print_events print_event]. destruct b; now rewrite <- app_assoc.
  - cbn [events app print_events print_event]. now rewrite <- app_assoc.
  - cbn [events app print_events print_event]. now rewrite <- app_assoc.
  - cbn [events app print_events print_event]. now rewrite <- app_assoc.
  - rewrite text_array. cbn [events app print_events print_event]. rewrite <- !app_assoc. cbn [app]. f_equal. f_equal.
    assert (G : forall n, print_events print ((true, n) :: counted st) (flat_map events l ++ EEndArray :: evs) =
      items_text (match n with 0 => true | _ => false end) l ++ "]" :: print_events print (counted st) evs).
    { induction IH as [|x l Hx _ IHl]; intros n; [reflexivity|]. cbn [flat_map items_text]. rewrite <- !app_assoc, Hx. cbn [counted]. rewrite IHl.
      destruct n; reflexivity. }
    apply (G 0).
  - rewrite text_object. cbn [events app print_events print_event]. rewrite <- !app_assoc. cbn [app]. f_equal. f_equal.
    assert (G : forall n, print_events print ((false, 2 * n) :: counted st) (flat_map (fun p => EKey (fst p) :: events (snd p)) l ++ EEndObject :: evs) =
      fields_text (match n with 0 => true | _ => false end) l ++ "}" :: print_events print (counted st) evs).
    { induction IH as [|[k x] l Hx _ IHl]; intros n; [reflexivity|]. cbn [flat_map fields_text fst snd app]. cbn [print_events print_event counted].
      rewrite <- !app_assoc. cbn [snd] in Hx. rewrite Hx. cbn [counted].
      replace (S (S (2 * n))) with (2 * S n) by lia. rewrite IHl.
      assert (P2 : prefix ((false, S (2 * n)) :: counted st) = [":"]).
      { unfold prefix. now rewrite Nat.even_mul. }
      rewrite P2. destruct n as [|n]; cbn [Nat.eqb app].
      - cbn [Nat.mul prefix app]. now rewrite <- !app_assoc.
      - replace (2 * S n) with (S (S (2 * n))) by lia. cbn [prefix]. replace (Nat.even (S (2 * n))) with false.
        2:{ symmetry. rewrite Nat.even_succ, Nat.odd_mul. reflexivity. }
        cbn [app]. now rewrite <- !app_assoc. }
    apply (G 0).
Qed.

Lemma written_text : forall j, written print (events j) = string_of_list_ascii (text j).
Proof.
  intros j. unfold written. f_equal. pose proof (print_events_text j [] []) as H. rewrite app_nil_r in H. rewrite H. cbn. now rewrite app_nil_r.
Qed.

Lemma dec_integer_part : forall n, integer_part (dec n).
Proof.
  intros n. split; [split; [apply dec_nonempty|apply digits_forallb, dec_digits]|].
  intros H. assert (n = 0%N).
  { apply dec_no_leading_zero. destruct (dec n); [discriminate|exact H]. }
  subst. reflexivity.
Qed.

Lemma decZ_integer : forall z, integer (decZ z) z.
Proof.
  assert (D : forall n, digits_value 0 (dec n) = Z.of_N n).
  { intros n. rewrite digits_value_spec by apply digits_forallb, dec_digits. now rewrite digits_val_dec. }
  intros [|p|p].
  - apply (integer_plus ["0"]). apply (dec_integer_part 0).
  - pose proof (integer_plus (dec (Npos p)) (dec_integer_part _)) as H. rewrite D in H. exact H.
  - pose proof (integer_minus (dec (Npos p)) (dec_integer_part _)) as H. rewrite D in H. exact H.
Qed.

Lemma print_string_value : forall s, exists k, chars k (list_ascii_of_string s) /\ print_string s = """" :: k ++ [""""].
Proof. intros s. eexists. split; [apply printed_chars|reflexivity]. Qed.

Lemma text_value : forall j, printable (faithful print nearest) j -> value nearest (text j) j.
Proof.
  induction j as [|b|z|f|s|l IH|l IH] using json_ind'; intros P; inversion P as [| |? K|? F| |? Pl|? Pl]; subst.
  - constructor.
  - destruct b; constructor.
  - apply value_integer; [apply decZ_integer|assumption].
  - destruct F as (F1 & F2 & F3). apply value_number; try assumption. intros z Hz. now apply F2 in Hz.
  - destruct (print_string_value s) as (k & Hk & E). cbn [text]. rewrite E. pose proof (value_string nearest _ _ Hk) as V.
    now rewrite string_of_list_ascii_of_string in V.
  - rewrite text_array. destruct l as [|x l]; [apply (value_no_items nearest []); constructor|]. apply value_items. cbn [items_text app].
    revert x IH Pl P. induction l as [|y l IHl]; intros x IH Pl P; inversion IH as [|? ? Hx Hl]; inversion Pl as [|? ? Px Pl']; subst.
    + cbn [items_text]. apply items_one. rewrite <- (app_nil_l (text x ++ [])). apply spaced_value; [constructor|auto|constructor].
    + cbn [items_text]. cbn [app]. apply items_more.
      * rewrite <- (app_nil_r (text x)). rewrite <- (app_nil_l (text x ++ [])). apply spaced_value; [constructor|auto|constructor].
      * apply IHl; try assumption. now constructor.
  - rewrite text_object. destruct l as [|[k x] l]; [apply (value_no_fields nearest []); constructor|]. apply value_fields. cbn [fields_text app].
    revert k x IH Pl P. induction l as [|[k' y] l IHl]; intros k x IH Pl P; inversion IH as [|? ? Hx Hl]; inversion Pl as [|? ? Px Pl']; subst; cbn [snd] in *.
    + destruct (print_string_value k) as (kk & Hk & E). rewrite E. cbn [fields_text]. rewrite <- (string_of_list_ascii_of_string k).
      replace ((("""" :: kk ++ [""""]) ++ ":" :: text x ++ [])) with ([] ++ """" :: kk ++ """" :: [] ++ ":" :: text x) by (rewrite app_nil_r; cbn [app]; now rewrite <- app_assoc).
      apply fields_one; [constructor|assumption|constructor|]. rewrite <- (app_nil_r (text x)). rewrite <- (app_nil_l (text x ++ [])). apply spaced_value; [constructor|auto|constructor].
    + destruct (print_string_value k) as (kk & Hk & E). rewrite E. rewrite <- (string_of_list_ascii_of_string k). cbn [fields_text].
      replace ((("""" :: kk ++ [""""]) ++ ":" :: text x ++ [","] ++ print_string k' ++ ":" :: text y ++ fields_text false l)) with
        ([] ++ """" :: kk ++ """" :: [] ++ ":" :: text x ++ "," :: (print_string k' ++ ":" :: text y ++ fields_text false l)) by (cbn [app]; now rewrite <- app_assoc).
      apply fields_more; [constructor|assumption|constructor| |].
      * rewrite <- (app_nil_r (text x)). rewrite <- (app_nil_l (text x ++ [])). apply spaced_value; [constructor|auto|constructor].
      * apply IHl; try assumption. now constructor.
Qed.

Theorem written_json : forall j, printable (faithful print nearest) j -> json_text nearest (written print (events j)) j.
Proof.
  intros j H. rewrite written_text. unfold json_text. rewrite list_ascii_of_string_of_list_ascii.
  rewrite <- (app_nil_r (text j)). rewrite <- (app_nil_l (text j ++ [])). apply spaced_value; [constructor|now apply text_value|constructor].
Qed.
End Values.
