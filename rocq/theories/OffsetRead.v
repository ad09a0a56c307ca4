(** What the reader has seen when it stops. *)
From Coq Require Import List Arith ZArith NArith Ascii String Bool Lia.
From Verif Require Import Base Float Decimal10 Json Events Types DeserializeModel ParseModel TextModel TextSpec TextChars TextProof ReaderModel
  ReaderProof DepthProof OffsetSpec OffsetProof.
Import ListNotations.
Local Open Scope char_scope.

(** ** Tokens *)

Lemma tokens_app : forall nearest s evs, tokens nearest s evs -> forall s' evs', tokens nearest s' evs' -> tokens nearest (s ++ s') (evs ++ evs').
Proof.
  intros nearest s evs H s' evs' H'. induction H; cbn [app].
  - exact H'.
  - rewrite <- app_assoc. now constructor.
  - rewrite <- app_assoc. now constructor.
  - now constructor.
  - now constructor.
Qed.

Lemma tokens_one : forall nearest s ev, token nearest s ev -> tokens nearest s [ev].
Proof. intros nearest s ev H. rewrite <- (app_nil_r s). apply tokens_more; [assumption|constructor]. Qed.

Lemma tokens_space : forall nearest w, blank w -> tokens nearest w [].
Proof. intros nearest w H. rewrite <- (app_nil_r w). apply tokens_blank; [assumption|constructor]. Qed.

Lemma tokens_grammar : forall nearest,
  (forall s j, value nearest s j -> tokens nearest s (events j)) /\ (forall s j, spaced nearest s j -> tokens nearest s (events j)) /\
  (forall s l, items nearest s l -> tokens nearest s (flat_map events l)) /\
  (forall s l, fields nearest s l -> tokens nearest s (flat_map (fun p => EKey (fst p) :: events (snd p)) l)).
Proof.
  intros nearest. apply grammar_ind; intros.
  1-3: apply tokens_one; constructor.
  - now apply tokens_one, token_string.
  - now apply tokens_one, token_integer.
  - now apply tokens_one, token_number.
  - change (tokens nearest (["["] ++ w ++ ["]"]) (EStartArray :: [EEndArray])). apply tokens_more; [constructor|]. apply tokens_blank; [assumption|]. apply tokens_one; constructor.
  - change (tokens nearest (["["] ++ s ++ ["]"]) (EStartArray :: flat_map events l ++ [EEndArray])). apply tokens_more; [constructor|]. apply tokens_app; [assumption|]. apply tokens_one; constructor.
  - change (tokens nearest (["{"] ++ w ++ ["}"]) (EStartObject :: [EEndObject])). apply tokens_more; [constructor|]. apply tokens_blank; [assumption|]. apply tokens_one; constructor.
  - change (tokens nearest (["{"] ++ s ++ ["}"]) (EStartObject :: flat_map (fun p => EKey (fst p) :: events (snd p)) l ++ [EEndObject])).
    apply tokens_more; [constructor|]. apply tokens_app; [assumption|]. apply tokens_one; constructor.
  - apply tokens_blank; [assumption|]. rewrite <- (app_nil_r (events j)). apply tokens_app; [assumption|]. now apply tokens_space.
  - cbn [flat_map]. now rewrite app_nil_r.
  - cbn [flat_map]. apply tokens_app; [assumption|]. now constructor.
  - cbn [flat_map fst snd app]. apply tokens_blank; [assumption|].
    replace ("""" :: k ++ """" :: w' ++ ":" :: s) with (("""" :: k ++ [""""]) ++ w' ++ ":" :: s) by (cbn [app]; now rewrite <- app_assoc).
    apply tokens_more; [now apply token_name|]. apply tokens_blank; [assumption|]. apply tokens_colon. now rewrite app_nil_r.
  - cbn [flat_map fst snd app]. apply tokens_blank; [assumption|].
    replace ("""" :: k ++ """" :: w' ++ ":" :: s ++ "," :: s') with (("""" :: k ++ [""""]) ++ w' ++ ":" :: s ++ "," :: s') by (cbn [app]; now rewrite <- app_assoc).
    apply tokens_more; [now apply token_name|]. apply tokens_blank; [assumption|]. apply tokens_colon. apply tokens_app; [assumption|]. now constructor.
Qed.

Lemma value_tokens : forall nearest s j, value nearest s j -> tokens nearest s (events j).
Proof. intros nearest. exact (proj1 (tokens_grammar nearest)). Qed.

(** How a token starts. *)
Lemma token_cases : forall q ev, token any_number q ev ->
  q = ["n"; "u"; "l"; "l"] \/ q = ["t"; "r"; "u"; "e"] \/ q = ["f"; "a"; "l"; "s"; "e"] \/ (exists s b, chars s b /\ q = """" :: s ++ [""""]) \/
  (number q /\ exists j, read_number any_number q = Some (j, [])) \/ In q [["["]; ["]"]; ["{"]; ["}"]].
Proof.
  intros q ev H. destruct H as [| | |s b H|s b H|s z H K|s f H K N| | | |]; try (cbn; tauto).
  - right. right. right. left. now exists s, b.
  - right. right. right. left. now exists s, b.
  - right. right. right. right. left. split; [now apply integer_number in H|]. exists (JInt z). rewrite <- (app_nil_r s). apply read_number_integer; [assumption|assumption|exact I].
  - right. right. right. right. left. split; [assumption|]. exists (JDbl f). rewrite <- (app_nil_r s) at 1. apply read_number_double; [assumption|assumption|assumption|exact I].
Qed.

Lemma unfinished_nil : unfinished [].
Proof.
  split; [|now left]. intros ev H. apply token_cases in H as [H|[H|[H|[(s & b & _ & H)|[[H _]|H]]]]]; try discriminate.
  - apply (number_first any_number) in H as (c & s' & H & _). discriminate.
  - cbn in H. intuition discriminate.
Qed.

Lemma unfinished_string : forall k b, chars k b -> unfinished ("""" :: k).
Proof.
  intros k b H. split.
  - intros ev T. apply token_cases in T as [T|[T|[T|[(s & b' & C & T)|[[T _]|T]]]]]; try discriminate.
    + injection T as ->. pose proof (read_string_complete _ _ C ["x"]) as R1. pose proof (read_string_complete _ _ H []) as R2.
      rewrite <- app_assoc in R2. cbn [app] in R2.
      pose proof (read_string_complete _ _ C [quote]) as R3. unfold quote in *. congruence.
    + apply (number_first any_number) in T as (c & s' & T & _ & N). injection T as <- <-. apply N. cbn. tauto.
    + cbn in T. intuition discriminate.
  - right. exists [""""], (EStr (string_of_list_ascii b)). now apply (token_string any_number k b).
Qed.

Lemma unfinished_number : forall q y, number (q ++ y) -> read_number any_number q = None -> unfinished q.
Proof.
  intros q y H N. split.
  - intros ev T. destruct q as [|c q]; [now apply (proj1 unfinished_nil ev)|]. cbn [app] in H. apply (number_first any_number) in H as (d & s' & E & _ & D). injection E as <- <-.
    apply token_cases in T as [T|[T|[T|[(s & b & _ & T)|[[_ [j T]]|T]]]]].
    5: congruence.
    5: { apply D. cbn in T. destruct T as [T|[T|[T|[T|[]]]]]; injection T as <- <-; cbn; tauto. }
    all: injection T as -> _; apply D; cbn; tauto.
  - right. exists y.
    assert (X : exists j, read_number any_number ((q ++ y) ++ []) = Some (j, [])).
    { destruct H as (sign & ds & fr & ex & Hs & Hd & Hf & Hx & E). rewrite E. eexists.
      rewrite any_number_reads, <- !app_assoc, (split_minus_complete sign ds) by assumption.
      rewrite int_part_complete by (try assumption; now apply ends_after). rewrite fraction_complete by (assumption || exact I).
      rewrite exponent_complete by (assumption || exact I). reflexivity. }
    destruct X as [j X]. rewrite app_nil_r in X. apply read_number_sound in X as (k & E & V). rewrite app_nil_r in E. subst k.
    apply (number_first any_number) in H as (c & s' & E & _ & D). rewrite E in V |- *.
    inversion V as [Ex|Ex|Ex|? ? C Ex|? z Hz K|? f Hn K Hf|? ? Ex|? ? ? Ex|? ? Ex|? ? ? Ex]; subst;
      try (exfalso; apply D; cbn; tauto).
    + exists (EInt z). now constructor.
    + exists (EDbl f). now constructor.
Qed.

Lemma consume_before : forall w s p, consume w s = inr p -> exists q c y, s = q ++ p /\ w = q ++ c :: y /\ starts c p = None.
Proof.
  induction w as [|c w IH]; intros s p H; [discriminate|]. cbn [consume] in H. destruct (starts c s) as [s'|] eqn:E.
  - apply starts_spec in E as ->. apply IH in H as (q & d & y & -> & -> & N). now exists (c :: q), d, y.
  - injection H as <-. now exists [], c, w.
Qed.

Lemma consume_sound : forall w s r, consume w s = inl r -> s = w ++ r.
Proof. intros w s r H. apply expect_sound. rewrite <- consume_plain. now rewrite H. Qed.

Lemma expect_stops : forall q c y p, starts c p = None -> expect (q ++ c :: y) (q ++ p) = None.
Proof. induction q as [|d q IH]; intros c y p H; cbn [app expect]; [now rewrite H|]. rewrite starts_same. now apply IH. Qed.

(** A literal that is not complete. *)
Lemma unfinished_literal : forall w q c y ev, In w [["n"; "u"; "l"; "l"]; ["t"; "r"; "u"; "e"]; ["f"; "a"; "l"; "s"; "e"]] -> w = q ++ c :: y -> token any_number w ev ->
  unfinished q.
Proof.
  intros w q c y ev I E T. split; [|right; exists (c :: y), ev; now rewrite <- E]. destruct q as [|d q]; [apply unfinished_nil|].
  assert (D : In d ["n"; "t"; "f"]) by (cbn in I; destruct I as [<-|[<-|[<-|[]]]]; injection E as <- _; cbn; tauto).
  assert (L : List.length w = List.length (d :: q) + S (List.length y)) by (rewrite E, app_length; reflexivity).
  intros ev' T'. apply token_cases in T' as [T'|[T'|[T'|[(s & b & _ & T')|[[T' _]|T']]]]].
  1-3: rewrite T' in E, L; cbn in I; destruct I as [<-|[<-|[<-|[]]]]; discriminate E || (cbn in L; lia).
  - injection T' as -> _. cbn in D. intuition discriminate.
  - apply (number_first any_number) in T' as (c' & s' & T' & _ & N). injection T' as <- <-. apply N. cbn in D |- *. tauto.
  - cbn in T'. destruct T' as [T'|[T'|[T'|[T'|[]]]]]; injection T' as <- _; cbn in D; intuition discriminate.
Qed.

(** ** What was read *)

Section Reader.
Variable nearest : list ascii -> option fl.

Section Handler.
Context {St Out : Type}.
Variable handle : event -> St -> answer St Out.
Notation driven := (driven St Out).

(** The handler takes all these events. *)
Fixpoint takes (evs : list event) (st : St) : option St :=
  match evs with
  | [] => Some st
  | ev :: evs' => match handle ev st with Goes st' => takes evs' st' | _ => None end
  end.

Lemma takes_app : forall a b st, takes (a ++ b) st = match takes a st with Some st' => takes b st' | None => None end.
Proof. induction a as [|ev a IH]; intros b st; [reflexivity|]. cbn. destruct (handle ev st); auto. Qed.

(** A part of the text: the events of complete ones, the complete ones with numbers of every
    size, and the reader for it. *)
Record part : Type := {
  exact_ : list ascii -> list event -> Prop;
  loose : list ascii -> Prop;
  arg : Type;
  reading : arg -> nat -> list ascii -> TextModel.rres json }.

Definition stops (G : part) (n : nat) (x : list ascii) : Prop := forall m a, n <= m -> exists evs, reading G a m x = RErr evs.

Definition good (G : part) (n : nat) (s : list ascii) (st : St) (d : driven) : Prop :=
  match d with
  | Passed st' t =>
    exists x evs, s = x ++ t /\ exact_ G x evs /\ takes evs st = Some st' /\
      forall t' m a, look 1 t t' -> n <= m -> exists j, reading G a m (x ++ t') = ROk j t'
  | Faulty st' f t =>
    exists p q evs, s = p ++ q ++ t /\ tokens nearest p evs /\ takes evs st = Some st' /\ unfinished q /\ (exists y, loose G (p ++ q ++ y)) /\
      (f <> TooBig -> forall t', look (window f) t t' -> stops G n (p ++ q ++ t')) /\
      (f = TooBig -> q = [] /\ exists x r, t = x ++ r /\ number x /\ nearest x = None /\ forall z, integer x z -> ~ kept z) /\
      (1 < window f -> exists r, t = "\" :: r)
  | Refused st' t =>
    exists p q r evs ev st1, s = p ++ q ++ r /\ tokens nearest p evs /\ token nearest q ev /\ takes evs st = Some st1 /\ handle ev st1 = Refuses st' /\
      t = (if is_number ev then q ++ r else r) /\ exists y rest, exact_ G (p ++ q ++ y) (evs ++ ev :: rest)
  | _ => True
  end.

Definition value_part : part := {|
  exact_ x evs := exists j, value nearest x j /\ evs = events j;
  loose x := exists j, value any_number x j;
  arg := unit;
  reading _ m x := read_value any_number m x |}.

Definition items_part : part := {|
  exact_ x evs := exists z l, x = z ++ ["]"] /\ items nearest z l /\ evs = flat_map events l ++ [EEndArray];
  loose x := exists z l, x = z ++ ["]"] /\ items any_number z l;
  arg := list json;
  reading acc m x := TextModel.read_items any_number m acc x |}.

Definition member_events (l : list (string * json)) : list event := flat_map (fun p => EKey (fst p) :: events (snd p)) l.

Definition fields_part : part := {|
  exact_ x evs := exists z l, x = z ++ ["}"] /\ fields nearest z l /\ evs = member_events l ++ [EEndObject];
  loose x := exists z l, x = z ++ ["}"] /\ fields any_number z l;
  arg := list (string * json);
  reading acc m x := read_fields any_number m acc x |}.

(** ** Parts of parts *)

(** A part that comes after [pre] in a larger part, and is followed by something. *)
Lemma lift_stop : forall G1 G2 n pre evs0 st st1 s1 d,
  (forall st' t, d <> Passed st' t) -> tokens nearest pre evs0 -> takes evs0 st = Some st1 ->
  (forall x evs, exact_ G1 x evs -> exists y rest, exact_ G2 (pre ++ x ++ y) (evs0 ++ evs ++ rest)) ->
  (forall x, loose G1 x -> exists y, loose G2 (pre ++ x ++ y)) ->
  (forall s1', look 1 s1 s1' -> stops G1 n s1' -> stops G2 (S n) (pre ++ s1')) ->
  good G1 n s1 st1 d -> good G2 (S n) (pre ++ s1) st d.
Proof.
  intros G1 G2 n pre evs0 st st1 s1 d NP Tp Tk Ex Lo Re H. destruct d as [st' t|st' f t|st' t|x| |]; try exact I.
  - now destruct (NP st' t).
  - destruct H as (p & q & evs & -> & T & K & U & (y & Y) & W & B). exists (pre ++ p), q, (evs0 ++ evs). split; [now rewrite <- !app_assoc|].
    split; [now apply tokens_app|]. split; [rewrite takes_app, Tk; exact K|]. split; [exact U|]. split; [|split; [|exact B]].
    + apply Lo in Y as [y' Y]. exists (y ++ y'). rewrite <- !app_assoc. rewrite <- !app_assoc in Y. exact Y.
    + intros Nb t' L. rewrite <- app_assoc. apply Re; [|now apply W]. apply (look_app p), (look_app q), (look_less (window f)); [apply window_pos|assumption].
  - destruct H as (p & q & r & evs & ev & st2 & -> & T & Tq & K & Hd & -> & y & rest & Y). exists (pre ++ p), q, r, (evs0 ++ evs), ev, st2.
    split; [now rewrite <- !app_assoc|]. split; [now apply tokens_app|]. split; [exact Tq|]. split; [rewrite takes_app, Tk; exact K|]. split; [exact Hd|].
    split; [reflexivity|]. apply Ex in Y as (y' & rest' & Y). exists (y ++ y'), (rest ++ rest'). rewrite <- !app_assoc in Y |- *.
    rewrite <- (app_assoc evs) in Y. exact Y.
Qed.

(** A part that completes a larger one. *)
Lemma lift_all : forall G1 G2 n pre evs0 st st1 s1 d, tokens nearest pre evs0 -> takes evs0 st = Some st1 ->
  (forall x evs, exact_ G1 x evs -> exact_ G2 (pre ++ x) (evs0 ++ evs)) ->
  (forall x, loose G1 x -> loose G2 (pre ++ x)) ->
  (forall s1' m a2, look 1 s1 s1' -> n <= m -> exists a1, forall y, reading G1 a1 m s1' = y -> match y with
     | ROk _ t => exists j, reading G2 a2 (S m) (pre ++ s1') = ROk j t
     | RErr _ => exists evs, reading G2 a2 (S m) (pre ++ s1') = RErr evs
     | RDeep => True
     end) ->
  good G1 n s1 st1 d -> good G2 (S n) (pre ++ s1) st d.
Proof.
  intros G1 G2 n pre evs0 st st1 s1 d Tp Tk Ex Lo Re H.
  assert (NP : (forall st' t, d <> Passed st' t) -> good G2 (S n) (pre ++ s1) st d).
  { intros NP. apply (lift_stop G1 G2 n pre evs0 st st1 s1 d); try assumption.
    - intros x evs X. exists [], []. rewrite !app_nil_r. auto.
    - intros x X. exists []. rewrite app_nil_r. auto.
    - intros s1' L W m a M. destruct m as [|m]; [lia|]. destruct (Re s1' m a L ltac:(lia)) as [a1 R]. destruct (W m a1 ltac:(lia)) as [evs E]. exact (R _ E). }
  destruct d as [st' t|st' f t|st' t|x| |]; try (apply NP; discriminate). clear NP.
  destruct H as (x & evs & E & X & K & W). exists (pre ++ x), (evs0 ++ evs). split; [now rewrite E, <- app_assoc|]. split; [auto|].
  split; [now rewrite takes_app, Tk|]. intros t' m a L M. destruct m as [|m]; [lia|].
  destruct (Re (x ++ t') m a) as [a1 R]; [rewrite E; now apply look_app|lia|]. destruct (W t' m a1 L ltac:(lia)) as [j Ej]. rewrite <- app_assoc. exact (R _ Ej).
Qed.

(** ** The reader *)

Lemma look_refl : forall k t, look k t t.
Proof. reflexivity. Qed.

(** An event for a whole value. *)
Lemma send_token : forall n x r st ev j at_, value nearest x j -> events j = [ev] -> token nearest x ev -> at_ = (if is_number ev then x ++ r else r) ->
  (forall t' m, look 1 r t' -> exists j', read_value any_number (S m) (x ++ t') = ROk j' t') ->
  good value_part (S n) (x ++ r) st (send handle ev st at_ (fun st' => Passed st' r)).
Proof.
  intros n x r st ev j at_ V E T -> R. unfold send. destruct (handle ev st) as [st'|st'|o] eqn:H; [| |exact I].
  - exists x, [ev]. split; [reflexivity|]. split; [now exists j|]. split; [cbn; now rewrite H|]. intros t' [|m] a L M; [lia|]. now apply R.
  - exists [], x, r, [], ev, st. cbn [app]. split; [reflexivity|]. split; [constructor|]. split; [exact T|]. split; [reflexivity|]. split; [exact H|]. split; [reflexivity|].
    exists [], []. rewrite app_nil_r. now exists j.
Qed.

(** An event at the end of a part. *)
Lemma send_last : forall G n p q r st st1 ev evs, tokens nearest p evs -> takes evs st = Some st1 -> token nearest q ev -> is_number ev = false ->
  exact_ G (p ++ q) (evs ++ [ev]) -> (forall t' m a, n <= m -> exists j, reading G a m (p ++ q ++ t') = ROk j t') ->
  good G n (p ++ q ++ r) st (send handle ev st1 r (fun st' => Passed st' r)).
Proof.
  intros G n p q r st st1 ev evs Tp K T N X R. unfold send. destruct (handle ev st1) as [st'|st'|o] eqn:H; [| |exact I].
  - exists (p ++ q), (evs ++ [ev]). split; [now rewrite app_assoc|]. split; [exact X|]. split; [rewrite takes_app, K; cbn; now rewrite H|].
    intros t' m a _ M. rewrite <- app_assoc. now apply R.
  - exists p, q, r, evs, ev, st1. split; [reflexivity|]. split; [exact Tp|]. split; [exact T|]. split; [exact K|]. split; [exact H|]. rewrite N. split; [reflexivity|].
    exists [], []. now rewrite app_nil_r.
Qed.

(** An event for which the handler returns false or leaves, in the midst of a part. *)
Lemma send_middle : forall G n p q r st st1 ev evs k, tokens nearest p evs -> takes evs st = Some st1 -> token nearest q ev -> is_number ev = false ->
  (exists y rest, exact_ G (p ++ q ++ y) (evs ++ ev :: rest)) ->
  (forall st2, handle ev st1 = Goes st2 -> good G n (p ++ q ++ r) st (k st2)) ->
  good G n (p ++ q ++ r) st (send handle ev st1 r k).
Proof.
  intros G n p q r st st1 ev evs k Tp K T N X R. unfold send. destruct (handle ev st1) as [st'|st'|o] eqn:H; [now apply R| |exact I].
  exists p, q, r, evs, ev, st1. split; [reflexivity|]. split; [exact Tp|]. split; [exact T|]. split; [exact K|]. split; [exact H|]. rewrite N. now split.
Qed.

Lemma literal_good : forall n st c word ev w s j, w = c :: list_ascii_of_string word ->
  In w [["n"; "u"; "l"; "l"]; ["t"; "r"; "u"; "e"]; ["f"; "a"; "l"; "s"; "e"]] -> (forall near, token near w ev) -> (forall near, value near w j) -> events j = [ev] ->
  is_number ev = false ->
  (forall m s', read_value any_number (S m) (c :: s') = literal word j s') ->
  good value_part (S n) (c :: s) st (drive_literal handle word ev st s).
Proof.
  intros n st c word ev w s j -> I T V E N R. unfold drive_literal. destruct (consume (list_ascii_of_string word) s) as [r|p] eqn:H.
  - apply consume_sound in H as ->. change (c :: list_ascii_of_string word ++ r) with ((c :: list_ascii_of_string word) ++ r).
    apply (send_token n _ r st ev j); [apply V|exact E|apply T|now rewrite N|].
    intros t' m _. cbn [app]. rewrite R. unfold literal. rewrite expect_complete. now exists j.
  - apply consume_before in H as (q & d & y & -> & W & Nd). exists [], (c :: q), []. split; [reflexivity|]. split; [constructor|]. split; [reflexivity|].
    split; [apply (unfinished_literal _ (c :: q) d y ev I); [now rewrite W|apply T]|]. split.
    + exists (d :: y), j. cbn [app]. rewrite <- W. apply V.
    + split; [|split; [discriminate|cbn; lia]]. intros _ t' L [|m] a M; [lia|]. cbn [app reading value_part]. rewrite R. unfold literal. rewrite W, expect_stops; [now exists []|].
      now apply (look_starts d p).
Qed.

Lemma value_any1 : forall near s j, value near s j -> exists j', value any_number s j'.
Proof. intros near0 s j H. exact (proj1 (value_any near0) s j H). Qed.

Lemma value_zero : forall near, value near ["0"] (JInt 0).
Proof.
  intros near0. apply value_integer; [|split; lia]. apply (integer_plus ["0"]). split; [split; [discriminate|constructor; [unfold digit; codes; lia|constructor]]|reflexivity].
Qed.

Lemma spaced_one : forall near s j w, value near s j -> blank w -> spaced near (s ++ w) j.
Proof. intros near0 s j w V B. apply (spaced_value near0 [] s w); [constructor|assumption|assumption]. Qed.

Lemma blank_nil : blank [].
Proof. constructor. Qed.

Lemma skip_again : forall s t, dark (skip s) -> look 1 (skip s) t -> forall w, blank w -> skip (w ++ t) = t.
Proof. intros s t D L w B. apply skip_blank; [assumption|now apply (look_dark (skip s))]. Qed.

(** A number. *)
Lemma number_good : forall n st s d,
  d = match scan_number nearest s with
      | inl (JInt z, r) => send handle (EInt z) st s (fun st' => Passed st' r)
      | inl (JDbl x, r) => send handle (EDbl x) st s (fun st' => Passed st' r)
      | inl (_, _) => NoFuel
      | inr (f, at_) => Faulty st f at_
      end ->
  (forall c s', s = c :: s' -> ~ In c ["n"; "t"; "f"; quote; "["; "{"]) ->
  good value_part (S n) s st d.
Proof.
  intros n st s d -> Nc. destruct (scan_number nearest s) as [[j r]|[f p]] eqn:H.
  - pose proof (scan_number_kind _ _ _ _ H) as Kd. apply scan_number_passed in H as (x & -> & V & Nx & R).
    assert (Rd : forall t' m, look 1 r t' -> exists j', read_value any_number (S m) (x ++ t') = ROk j' t').
    { intros t' m L. destruct (R t' (or_introl L)) as [j' E]. exists j'. now apply read_number_value. }
    assert (First : exists c s', x = c :: s' /\ ~ In c ["]"; "}"; "n"; "t"; "f"; quote; "["; "{"]) by (apply (number_first any_number) in Nx as (c & s' & E & _ & D); eauto).
    destruct First as (c & s' & -> & D).
    destruct Kd as [[z ->]|[y ->]]; (eapply send_token; [exact V|reflexivity| |reflexivity|exact Rd]);
      inversion V as [Ex|Ex|Ex|? ? C Ex|? z' Hz K|? f Hn K Hf|? ? Ex|? ? ? Ex|? ? Ex|? ? ? Ex]; subst; now constructor.
  - destruct (fault_eq_dec f TooBig) as [->|Nb].
    + apply scan_number_big in H as (-> & q & r & E & Nq & Hn & Kq). exists [], [], []. split; [reflexivity|]. split; [constructor|]. split; [reflexivity|].
      split; [apply unfinished_nil|]. split; [exists ["0"]; exists (JInt 0); apply value_zero|]. split; [congruence|]. split; [|cbn; lia]. intros _. split; [reflexivity|]. now exists q, r.
    + pose proof H as H0. apply scan_number_fault in H as (W & q & -> & (y & Y) & R); [|assumption].
      assert (V : exists j, value any_number (q ++ y) j).
      { assert (X : exists j, read_number any_number ((q ++ y) ++ []) = Some (j, [])).
        { destruct Y as (sign & ds & fr & ex & Hs & Hd & Hf & Hx & E). rewrite E. eexists.
          rewrite any_number_reads, <- !app_assoc, (split_minus_complete sign ds) by assumption.
          rewrite int_part_complete by (try assumption; now apply ends_after). rewrite fraction_complete by (assumption || exact I).
          rewrite exponent_complete by (assumption || exact I). reflexivity. }
        destruct X as [j X]. rewrite app_nil_r in X. apply read_number_sound in X as (k & E & V). rewrite app_nil_r in E. subst k. now exists j. }
      exists [], q, []. split; [reflexivity|]. split; [constructor|]. split; [reflexivity|].
      split; [apply (unfinished_number q y Y); rewrite <- (app_nil_r q); apply R; now right|]. split; [now exists y|]. split; [|split; [congruence|rewrite W; lia]].
      intros _ t' L [|m] a M; [lia|]. rewrite W in L. cbn [app reading value_part].
      assert (F : look 1 (q ++ p) (q ++ t')) by now apply look_app. apply look_head in F. specialize (R t' (or_introl L)).
      destruct (q ++ p) as [|c s1] eqn:E1, (q ++ t') as [|c' s2] eqn:E2; try contradiction; [now exists []|]. subst c'.
      specialize (Nc c s1 eq_refl). rewrite value_unfold.
      assert (NE : forall d, In d ["n"; "t"; "f"; quote; "["; "{"] -> Ascii.eqb c d = false).
      { intros d Hd. apply Ascii.eqb_neq. intros ->. now apply Nc. }
      rewrite !NE by (cbn; tauto). rewrite R. now exists [].
Qed.

Lemma scan_string_small : forall n s p, List.length s <= n -> scan_string s <> inr (TooBig, p).
Proof.
  assert (Pre : forall l p x, prepend l x = inr (TooBig, p) -> x = inr (TooBig, p)) by (intros l p [[b r]|]; [discriminate|auto]).
  induction n as [|n IH]; intros s p L H; [now destruct s; [|cbn in L; lia]|].
  destruct s as [|c s1]; [discriminate|]. cbn [List.length] in L.
  assert (Go : forall l r, List.length r <= n -> prepend l (scan_string r) = inr (TooBig, p) -> False) by (intros l r Lr Hr; apply Pre in Hr; now apply IH in Hr).
  rewrite scan_string_unfold in H; cbv beta iota in H. destruct (Ascii.eqb c quote); [discriminate|]. destruct (Ascii.eqb c backslash).
  - destruct s1 as [|x s2]; [discriminate|]. cbn [List.length] in L.
    destruct (Ascii.eqb x quote || Ascii.eqb x backslash || Ascii.eqb x "/"); [apply Go in H; [assumption|lia]|].
    destruct (Ascii.eqb x "b"); [apply Go in H; [assumption|lia]|]. destruct (Ascii.eqb x "f"); [apply Go in H; [assumption|lia]|].
    destruct (Ascii.eqb x "n"); [apply Go in H; [assumption|lia]|]. destruct (Ascii.eqb x "r"); [apply Go in H; [assumption|lia]|].
    destruct (Ascii.eqb x "t"); [apply Go in H; [assumption|lia]|]. destruct (Ascii.eqb x "u"); [|discriminate].
    destruct s2 as [|h1 [|h2 [|h3 [|h4 s3]]]]; try discriminate. cbn [List.length] in L. destruct (hex4 h1 h2 h3 h4) as [cp|]; [|discriminate].
    destruct ((55296 <=? cp) && (cp <=? 57343))%N; [|apply Go in H; [assumption|lia]]. destruct (cp <=? 56319)%N; [|discriminate].
    destruct s3 as [|y [|z s4]]; try discriminate. destruct (Ascii.eqb y backslash && Ascii.eqb z "u"); [|discriminate].
    destruct s4 as [|k1 [|k2 [|k3 [|k4 s5]]]]; try discriminate. cbn [List.length] in L. destruct (hex4 k1 k2 k3 k4) as [cp2|]; [|discriminate].
    destruct ((cp2 <? 56320) || (57343 <? cp2))%N; [discriminate|]. apply Go in H; [assumption|lia].
  - destruct (N_of_ascii c <? 32)%N; [discriminate|]. apply Go in H; [assumption|lia].
Qed.

Lemma scan_string_escape : forall n s f p, List.length s <= n -> scan_string s = inr (f, p) -> 1 < window f -> exists r, p = backslash :: r.
Proof.
  assert (Pre : forall l f p x, prepend l x = inr (f, p) -> x = inr (f, p)) by (intros l f p [[b r]|]; [discriminate|auto]).
  assert (Small : forall f g (p q : list ascii), inr (list ascii * list ascii) (g, q) = inr (f, p) -> window g = 1 -> 1 < window f -> exists r, p = backslash :: r) by (intros f g p q E W L; injection E as <- <-; lia).
  induction n as [|n IH]; intros s f p L H W; [destruct s; [now apply Small in H|cbn in L; lia]|].
  destruct s as [|c s1]; [now apply Small in H|]. cbn [List.length] in L.
  assert (Go : forall l r, List.length r <= n -> prepend l (scan_string r) = inr (f, p) -> exists r, p = backslash :: r) by (intros l r Lr Hr; apply Pre in Hr; now apply IH in Hr).
  assert (Here : forall g, c = backslash -> inr (list ascii * list ascii) (g, c :: s1) = inr (f, p) -> exists r, p = backslash :: r) by (intros g -> E; injection E as <- <-; now exists s1).
  rewrite scan_string_unfold in H; cbv beta iota in H. destruct (Ascii.eqb c quote); [discriminate|]. destruct (Ascii.eqb c backslash) eqn:Eb; [apply Ascii.eqb_eq in Eb|].
  - destruct s1 as [|x s2]; [now apply Here in H|]. cbn [List.length] in L.
    destruct (Ascii.eqb x quote || Ascii.eqb x backslash || Ascii.eqb x "/"); [apply Go in H; [assumption|lia]|].
    destruct (Ascii.eqb x "b"); [apply Go in H; [assumption|lia]|]. destruct (Ascii.eqb x "f"); [apply Go in H; [assumption|lia]|].
    destruct (Ascii.eqb x "n"); [apply Go in H; [assumption|lia]|]. destruct (Ascii.eqb x "r"); [apply Go in H; [assumption|lia]|].
    destruct (Ascii.eqb x "t"); [apply Go in H; [assumption|lia]|]. destruct (Ascii.eqb x "u"); [|now apply Here in H].
    destruct s2 as [|h1 [|h2 [|h3 [|h4 s3]]]]; try now apply Here in H. cbn [List.length] in L. destruct (hex4 h1 h2 h3 h4) as [cp|]; [|now apply Here in H].
    destruct ((55296 <=? cp) && (cp <=? 57343))%N; [|apply Go in H; [assumption|lia]]. destruct (cp <=? 56319)%N; [|now apply Here in H].
    destruct s3 as [|y [|z s4]]; try now apply Here in H. destruct (Ascii.eqb y backslash && Ascii.eqb z "u"); [|now apply Here in H].
    destruct s4 as [|k1 [|k2 [|k3 [|k4 s5]]]]; try now apply Here in H. cbn [List.length] in L. destruct (hex4 k1 k2 k3 k4) as [cp2|]; [|now apply Here in H].
    destruct ((cp2 <? 56320) || (57343 <? cp2))%N; [now apply Here in H|]. apply Go in H; [assumption|lia].
  - destruct (N_of_ascii c <? 32)%N; [now apply Small in H|]. apply Go in H; [assumption|lia].
Qed.

(** A string with an error. *)
Lemma string_fault : forall s f p, scan_string s = inr (f, p) -> exists q b, s = q ++ p /\ chars q b /\ f <> TooBig /\
  (forall t, look (window f) p t -> read_string (q ++ t) = None) /\ (1 < window f -> exists r, p = backslash :: r).
Proof.
  intros s f p H. pose proof (scan_string_chars _ _ _ H) as (q & b & E & C). pose proof (scan_string_again (List.length s) s f p ltac:(lia) H) as (q' & E' & R).
  assert (q' = q) as -> by (rewrite E in E'; now apply app_inv_tail in E'). exists q, b. split; [exact E|]. split; [exact C|]. split.
  - intros ->. now apply (scan_string_small (List.length s)) in H.
  - split; [|apply (scan_string_escape (List.length s) s f p (le_n _) H)].
    intros t L. rewrite <- (scan_string_plain (List.length (q ++ t))) by lia. destruct (R t L) as [x ->]. reflexivity.
Qed.

Lemma eqb_true : forall a b, Ascii.eqb a b = true -> a = b.
Proof. intros a b H. now apply Ascii.eqb_eq. Qed.

Lemma starts_none : forall c s t, starts c s = None -> look 1 s t -> starts c t = None.
Proof. intros c s t H L. now apply (look_starts c s). Qed.

(** A name, with the mark before and after it. *)
Definition quoted (k : list ascii) : list ascii := """" :: k ++ [""""].

Lemma quoted_app : forall k t, quoted k ++ t = quote :: k ++ quote :: t.
Proof. intros k t. unfold quoted. cbn [app]. now rewrite <- app_assoc. Qed.

Lemma fields_one' : forall near k b w' s j, chars k b -> blank w' -> spaced near s j -> fields near (quoted k ++ w' ++ ":" :: s) [(string_of_list_ascii b, j)].
Proof. intros near0 k b w' s j C B V. rewrite quoted_app. apply (fields_one near0 [] k b w' s j); auto using blank_nil. Qed.

Lemma fields_more' : forall near k b w' s j s' l, chars k b -> blank w' -> spaced near s j -> fields near s' l ->
  fields near (quoted k ++ w' ++ ":" :: s ++ "," :: s') ((string_of_list_ascii b, j) :: l).
Proof. intros near0 k b w' s j s' l C B V F. rewrite quoted_app. apply (fields_more near0 [] k b w' s j s' l); auto using blank_nil. Qed.

Lemma all_good : forall n,
  (forall k st s, good value_part n s st (drive_value nearest handle n k st s)) /\
  (forall k st s, dark s -> good items_part n s st (drive_items nearest handle n k st s)) /\
  (forall k st s, dark s -> good fields_part n s st (drive_fields nearest handle n k st s)).
Proof.
  induction n as [|n (IHv & IHi & IHf)]; [repeat split|]. split; [|split].
  - intros k st [|c s].
    { cbn [drive_value]. exists [], [], []. split; [reflexivity|]. split; [constructor|]. split; [reflexivity|]. split; [apply unfinished_nil|].
      split; [exists ["0"]; exists (JInt 0); apply value_zero|]. split; [|split; [discriminate|cbn; lia]]. intros _ t' L [|m] a M; [lia|]. apply look_head in L. destruct t'; [now exists []|contradiction]. }
    rewrite drive_value_unfold.
    destruct (Ascii.eqb c "n") eqn:E1; [apply eqb_true in E1 as ->; eapply literal_good; [reflexivity|cbn; tauto|intros; constructor|intros; constructor|reflexivity|reflexivity|reflexivity]|].
    destruct (Ascii.eqb c "t") eqn:E2; [apply eqb_true in E2 as ->; eapply literal_good; [reflexivity|cbn; tauto|intros; constructor|intros; constructor|reflexivity|reflexivity|reflexivity]|].
    destruct (Ascii.eqb c "f") eqn:E3; [apply eqb_true in E3 as ->; eapply literal_good; [reflexivity|cbn; tauto|intros; constructor|intros; constructor|reflexivity|reflexivity|reflexivity]|].
    destruct (Ascii.eqb c quote) eqn:E4.
    { apply eqb_true in E4 as ->. destruct (scan_string s) as [[b r]|[f p]] eqn:H.
      - apply scan_string_sound in H as (x & C & ->). replace (quote :: x ++ quote :: r) with (quoted x ++ r) by apply quoted_app.
        apply (send_token n _ r st _ (JStr (string_of_list_ascii b))); [now apply value_string|reflexivity|now apply token_string|reflexivity|].
        intros t' m _. exists (JStr (string_of_list_ascii b)). rewrite quoted_app, value_unfold, read_string_complete with (b := b) by assumption. reflexivity.
      - apply string_fault in H as (q & b & -> & C & Nb & R & Esc). exists [], (quote :: q), []. split; [reflexivity|]. split; [constructor|]. split; [reflexivity|].
        split; [now apply (unfinished_string q b)|]. split; [exists [""""]; exists (JStr (string_of_list_ascii b)); now apply value_string|].
        split; [|split; [congruence|exact Esc]]. intros _ t' L [|m] a M; [lia|]. exists []. cbn [app reading value_part]. rewrite value_unfold, R by assumption. reflexivity. }
    destruct (Ascii.eqb c "[") eqn:E5.
    { apply eqb_true in E5 as ->. destruct k as [|k]; [exact I|]. change ("[" :: s) with ([] ++ ["["] ++ s).
      apply (send_middle value_part (S n) [] ["["] s st st EStartArray []); [constructor|reflexivity|constructor|reflexivity| |].
      - exists ["]"], [EEndArray], (JArr []). split; [apply (value_no_items nearest [] blank_nil)|reflexivity].
      - intros st1 H. cbn [app]. pose proof (skip_spec s) as (w & B & Es & D). destruct (starts "]" (skip s)) as [r|] eqn:Er.
        + apply starts_spec in Er. rewrite Er in Es. rewrite Es. change ("[" :: w ++ "]" :: r) with (("[" :: w) ++ ["]"] ++ r).
          apply (send_last value_part (S n) ("[" :: w) ["]"] r st st1 EEndArray [EStartArray]).
          * apply (tokens_more nearest ["["] EStartArray w []); [constructor|now apply tokens_space].
          * cbn. now rewrite H.
          * constructor.
          * reflexivity.
          * exists (JArr []). split; [apply (value_no_items nearest w B)|reflexivity].
          * intros t' [|m] a M; [lia|]. exists (JArr []). cbn [app reading value_part]. rewrite value_unfold. cbn [Ascii.eqb Bool.eqb andb].
            rewrite skip_blank by (assumption || reflexivity). reflexivity.
        + rewrite Es at 1. change ("[" :: w ++ skip s) with (("[" :: w) ++ skip s).
          apply (lift_all items_part value_part n ("[" :: w) [EStartArray] st st1).
          * apply (tokens_more nearest ["["] EStartArray w []); [constructor|now apply tokens_space].
          * cbn. now rewrite H.
          * intros x evs (z & l & -> & V & ->). exists (JArr l). split; [|reflexivity].
            cbn [app]. rewrite app_assoc. now apply value_items, items_blank.
          * intros x (z & l & -> & V). exists (JArr l). cbn [app]. rewrite app_assoc. now apply value_items, items_blank.
          * intros s1' m a2 L M. exists ([] : list json). intros y <-. cbn [app reading value_part items_part]. rewrite value_unfold. cbn [Ascii.eqb Bool.eqb andb].
            rewrite (skip_again s s1' D L w B), (starts_none "]" _ _ Er L). destruct (TextModel.read_items any_number m [] s1'); [now eexists|now eexists|exact I].
          * apply IHi. exact D. }
    destruct (Ascii.eqb c "{") eqn:E6.
    { apply eqb_true in E6 as ->. destruct k as [|k]; [exact I|]. change ("{" :: s) with ([] ++ ["{"] ++ s).
      apply (send_middle value_part (S n) [] ["{"] s st st EStartObject []); [constructor|reflexivity|constructor|reflexivity| |].
      - exists ["}"], [EEndObject], (JObj []). split; [apply (value_no_fields nearest [] blank_nil)|reflexivity].
      - intros st1 H. cbn [app]. pose proof (skip_spec s) as (w & B & Es & D). destruct (starts "}" (skip s)) as [r|] eqn:Er.
        + apply starts_spec in Er. rewrite Er in Es. rewrite Es. change ("{" :: w ++ "}" :: r) with (("{" :: w) ++ ["}"] ++ r).
          apply (send_last value_part (S n) ("{" :: w) ["}"] r st st1 EEndObject [EStartObject]).
          * apply (tokens_more nearest ["{"] EStartObject w []); [constructor|now apply tokens_space].
          * cbn. now rewrite H.
          * constructor.
          * reflexivity.
          * exists (JObj []). split; [apply (value_no_fields nearest w B)|reflexivity].
          * intros t' [|m] a M; [lia|]. exists (JObj []). cbn [app reading value_part]. rewrite value_unfold. cbn [Ascii.eqb Bool.eqb andb].
            rewrite skip_blank by (assumption || reflexivity). reflexivity.
        + rewrite Es at 1. change ("{" :: w ++ skip s) with (("{" :: w) ++ skip s).
          apply (lift_all fields_part value_part n ("{" :: w) [EStartObject] st st1).
          * apply (tokens_more nearest ["{"] EStartObject w []); [constructor|now apply tokens_space].
          * cbn. now rewrite H.
          * intros x evs (z & l & -> & V & ->). exists (JObj l). split; [|reflexivity].
            cbn [app]. rewrite app_assoc. now apply value_fields, fields_blank.
          * intros x (z & l & -> & V). exists (JObj l). cbn [app]. rewrite app_assoc. now apply value_fields, fields_blank.
          * intros s1' m a2 L M. exists ([] : list (string * json)). intros y <-. cbn [app reading value_part fields_part]. rewrite value_unfold. cbn [Ascii.eqb Bool.eqb andb].
            rewrite (skip_again s s1' D L w B), (starts_none "}" _ _ Er L). destruct (read_fields any_number m [] s1'); [now eexists|now eexists|exact I].
          * apply IHf. exact D. }
    apply number_good; [reflexivity|]. intros c' s' Ec Hc. injection Ec as -> ->. cbn in Hc.
    apply Ascii.eqb_neq in E1, E2, E3, E4, E5, E6. intuition congruence.
  - intros k st s Ds. rewrite drive_items_unfold. pose proof (IHv k st s) as V.
    assert (Stop : (forall st' t, drive_value nearest handle n k st s <> Passed st' t) -> good items_part (S n) s st (drive_value nearest handle n k st s)).
    { intros NP. apply (lift_stop value_part items_part n [] [] st st s); try assumption; [constructor|reflexivity| | |].
      - intros x evs (j & Vx & ->). exists ["]"], [EEndArray], x, [j]. split; [reflexivity|]. split; [|cbn [flat_map app]; now rewrite app_nil_r].
        apply items_one. rewrite <- (app_nil_r x). now apply spaced_one; [|apply blank_nil].
      - intros x (j & Vx). exists ["]"], x, [j]. split; [reflexivity|]. apply items_one. rewrite <- (app_nil_r x). now apply spaced_one; [|apply blank_nil].
      - intros s1' L W [|m] a M; [lia|]. destruct (W m tt ltac:(lia)) as [evs E]. cbn [app reading items_part value_part] in *. rewrite items_unfold, E. now eexists. }
    destruct (drive_value nearest handle n k st s) as [st1 r|st1 f t|st1 t|x| |]; try (apply Stop; discriminate); clear Stop.
    destruct V as (x & evs & -> & (j & Vx & ->) & K & R). pose proof (skip_spec r) as (w & B & Er & D).
    destruct (starts "," (skip r)) as [r'|] eqn:Ec.
    + apply starts_spec in Ec. pose proof (skip_spec r') as (w' & B' & Er' & D').
      assert (Et : x ++ r = (x ++ w ++ "," :: w') ++ skip r') by (rewrite Er, Ec, Er' at 1; now rewrite <- !app_assoc). rewrite Et.
      apply (lift_all items_part items_part n (x ++ w ++ "," :: w') (events j) st st1); [|exact K| | | |apply IHi; exact D'].
      * rewrite <- (app_nil_r (events j)). apply tokens_app; [now apply value_tokens|]. apply tokens_blank; [assumption|]. apply tokens_comma. now apply tokens_space.
      * intros y evs (z & l & -> & V & ->). exists (x ++ w ++ "," :: w' ++ z), (j :: l). split; [now rewrite <- !app_assoc; cbn [app]; rewrite <- !app_assoc|].
        split; [|cbn [flat_map]; now rewrite app_assoc]. rewrite app_assoc. apply items_more; [now apply spaced_one|now apply items_blank].
      * intros y (z & l & -> & V). destruct (value_any1 _ _ _ Vx) as [j' Vx']. exists (x ++ w ++ "," :: w' ++ z), (j' :: l).
        split; [now rewrite <- !app_assoc; cbn [app]; rewrite <- !app_assoc|]. rewrite app_assoc. apply items_more; [now apply spaced_one|now apply items_blank].
      * intros s1' m acc L M. assert (Lr : look 1 r (w ++ "," :: w' ++ s1')) by (rewrite Er, Ec; apply look_prefix).
        destruct (R _ m tt Lr M) as [j' E]. cbn [reading value_part items_part] in E |- *. exists (acc ++ [j']). intros y <-. rewrite items_unfold, <- app_assoc.
        rewrite <- app_assoc. cbn [app]. rewrite E, skip_blank by (assumption || reflexivity). cbn [starts Ascii.eqb Bool.eqb andb].
        rewrite (skip_again r' s1' D' L w' B'). destruct (TextModel.read_items any_number m (acc ++ [j']) s1'); [now eexists|now eexists|exact I].
    + destruct (starts "]" (skip r)) as [r'|] eqn:Eb.
      * apply starts_spec in Eb. rewrite Er, Eb. replace (x ++ w ++ "]" :: r') with ((x ++ w) ++ ["]"] ++ r') by (now rewrite <- app_assoc).
        apply (send_last items_part (S n) (x ++ w) ["]"] r' st st1 EEndArray (events j)); [|exact K|constructor|reflexivity| |].
        -- rewrite <- (app_nil_r (events j)). apply tokens_app; [now apply value_tokens|now apply tokens_space].
        -- exists (x ++ w), [j]. split; [reflexivity|]. split; [apply items_one; now apply spaced_one|cbn [flat_map]; now rewrite app_nil_r].
        -- intros t' [|m] acc M; [lia|]. assert (Lr : look 1 r (w ++ "]" :: t')) by (rewrite Er, Eb; apply look_prefix).
           destruct (R _ m tt Lr ltac:(lia)) as [j' E]. cbn [reading value_part items_part] in E |- *. exists (JArr (acc ++ [j'])). rewrite items_unfold, <- app_assoc.
           cbn [app]. rewrite E, skip_blank by (assumption || reflexivity). reflexivity.
      * exists (x ++ w), [], (events j). split; [rewrite <- app_assoc; cbn [app]; now rewrite <- Er|].
        split; [rewrite <- (app_nil_r (events j)); apply tokens_app; [now apply value_tokens|now apply tokens_space]|]. split; [exact K|]. split; [apply unfinished_nil|]. split.
        -- destruct (value_any1 _ _ _ Vx) as [j' Vx']. exists ["]"], (x ++ w), [j']. split; [reflexivity|]. apply items_one. now apply spaced_one.
        -- split; [|split; [discriminate|cbn; lia]]. intros _ t' L [|m] acc M; [lia|]. cbn [app window] in L |- *. assert (Lr : look 1 r (w ++ t')) by (rewrite Er; now apply look_app).
           destruct (R _ m tt Lr ltac:(lia)) as [j' E]. cbn [reading value_part items_part] in E |- *. rewrite items_unfold, <- app_assoc, E.
           rewrite (skip_again r t' D L w B), (starts_none "," _ _ Ec L), (starts_none "]" _ _ Eb L). now eexists.
  - intros k st s Ds. rewrite drive_fields_unfold. destruct (starts quote s) as [s1|] eqn:Eq.
    2: { exists [], [], []. split; [reflexivity|]. split; [constructor|]. split; [reflexivity|]. split; [apply unfinished_nil|]. split.
         - exists (quoted [] ++ [] ++ ":" :: ["0"; "}"]), (quoted [] ++ [] ++ ":" :: ["0"]), [(string_of_list_ascii [], JInt 0)]. split; [reflexivity|].
           apply fields_one'; [constructor|apply blank_nil|]. apply (spaced_one _ ["0"] _ []); [apply value_zero|apply blank_nil].
         - split; [|split; [discriminate|cbn; lia]]. intros _ t' L [|m] acc M; [lia|]. cbn [app window reading fields_part] in L |- *. rewrite fields_unfold, (starts_none quote _ _ Eq L). now eexists. }
    apply starts_spec in Eq as ->. destruct (scan_string s1) as [[b s2]|[f p]] eqn:H.
    2: { apply string_fault in H as (q & b & -> & C & Nb & R & Esc). exists [], (quote :: q), []. split; [reflexivity|]. split; [constructor|]. split; [reflexivity|].
         split; [now apply (unfinished_string q b)|]. split.
         - exists ("""" :: ":" :: ["0"; "}"]), (quoted q ++ [] ++ ":" :: ["0"]), [(string_of_list_ascii b, JInt 0)].
           split; [rewrite quoted_app; cbn [app]; now rewrite <- app_assoc|]. apply fields_one'; [exact C|apply blank_nil|]. apply (spaced_one _ ["0"] _ []); [apply value_zero|apply blank_nil].
         - split; [|split; [congruence|exact Esc]]. intros _ t' L [|m] acc M; [lia|]. cbn [app reading fields_part]. rewrite fields_unfold, starts_same, R by assumption. now eexists. }
    apply scan_string_sound in H as (y & C & ->). rewrite <- quoted_app.
    assert (Zero : spaced nearest ["0"] (JInt 0)) by (apply (spaced_one _ ["0"] _ []); [apply value_zero|apply blank_nil]).
    change (quoted y ++ s2) with ([] ++ quoted y ++ s2).
    apply (send_middle fields_part (S n) [] (quoted y) s2 st st (EKey (string_of_list_ascii b)) []); [constructor|reflexivity|now apply token_name|reflexivity| |].
    { exists (":" :: ["0"; "}"]), [EInt 0; EEndObject], (quoted y ++ [] ++ ":" :: ["0"]), [(string_of_list_ascii b, JInt 0)].
      split; [cbn [app]; now rewrite <- app_assoc|]. split; [now apply fields_one'; [|apply blank_nil|]|reflexivity]. }
    intros st0 H0. cbn [app]. pose proof (skip_spec s2) as (w & B & Es2 & D). assert (K0 : takes [EKey (string_of_list_ascii b)] st = Some st0) by (cbn; now rewrite H0).
    assert (Tk : tokens nearest (quoted y ++ w) [EKey (string_of_list_ascii b)]) by (apply tokens_more; [now apply token_name|now apply tokens_space]).
    destruct (starts ":" (skip s2)) as [s3|] eqn:Ec.
    2: { exists (quoted y ++ w), [], [EKey (string_of_list_ascii b)]. split; [rewrite <- app_assoc; cbn [app]; now rewrite <- Es2|].
         split; [exact Tk|]. split; [exact K0|]. split; [apply unfinished_nil|]. split.
         - exists (":" :: ["0"; "}"]), (quoted y ++ w ++ ":" :: ["0"]), [(string_of_list_ascii b, JInt 0)].
           split; [rewrite <- !app_assoc; reflexivity|]. apply fields_one'; [exact C|exact B|]. apply (spaced_one _ ["0"] _ []); [apply value_zero|apply blank_nil].
         - split; [|split; [discriminate|cbn; lia]]. intros _ t' L [|m] acc M; [lia|]. cbn [app window reading fields_part] in L |- *.
           rewrite <- app_assoc, quoted_app, fields_unfold, starts_same, read_string_complete with (b := b) by assumption.
           rewrite (skip_again s2 t' D L w B), (starts_none ":" _ _ Ec L). now eexists. }
    apply starts_spec in Ec. pose proof (skip_spec s3) as (w3 & B3 & Es3 & D3). set (pre := quoted y ++ w ++ ":" :: w3).
    assert (Et : quoted y ++ s2 = pre ++ skip s3) by (unfold pre; rewrite Es2, Ec, Es3 at 1; now rewrite <- !app_assoc). rewrite Et.
    assert (Tp : tokens nearest pre [EKey (string_of_list_ascii b)]).
    { unfold pre. apply tokens_more; [now apply token_name|]. apply tokens_blank; [assumption|]. apply tokens_colon. now apply tokens_space. }
    (* The name, the colon, and then the value. *)
    assert (Rp : forall m acc t, dark t -> read_fields any_number (S m) acc (pre ++ t) =
      match read_value any_number m t with
      | ROk j r =>
        match starts "," (skip r), starts "}" (skip r) with
        | Some r', _ => read_fields any_number m (acc ++ [(string_of_list_ascii b, j)]) (skip r')
        | None, Some r' => ROk (JObj (acc ++ [(string_of_list_ascii b, j)])) r'
        | None, None => RErr ((EStartObject :: flat_map (fun p => EKey (fst p) :: events (snd p)) acc) ++ EKey (string_of_list_ascii b) :: events j)
        end
      | RErr evs => RErr ((EStartObject :: flat_map (fun p => EKey (fst p) :: events (snd p)) acc) ++ EKey (string_of_list_ascii b) :: evs)
      | RDeep => RDeep
      end).
    { intros m acc t Dt. unfold pre. rewrite <- !app_assoc, quoted_app, fields_unfold, starts_same, read_string_complete with (b := b) by assumption.
      cbn [app]. rewrite skip_blank by (assumption || reflexivity). rewrite starts_same, skip_blank by assumption. reflexivity. }
    assert (One : forall near x j w', value near x j -> blank w' -> fields near (pre ++ x ++ w') [(string_of_list_ascii b, j)]).
    { intros near0 x j w' Vx Bw. unfold pre. rewrite <- !app_assoc. cbn [app]. apply fields_one'; [assumption|assumption|]. apply spaced_blank; [assumption|now apply spaced_one]. }
    assert (More : forall near x j w' s' l, value near x j -> blank w' -> fields near s' l -> fields near (pre ++ (x ++ w') ++ "," :: s') ((string_of_list_ascii b, j) :: l)).
    { intros near0 x j w' s' l Vx Bw F. unfold pre. rewrite <- (app_assoc (quoted y)), <- (app_assoc w). cbn [app]. rewrite (app_assoc w3). apply fields_more'; [assumption|assumption| |assumption].
      apply spaced_blank; [assumption|now apply spaced_one]. }
    clearbody pre. clear Et Tk Es2 Ec Es3 D B w B3 w3 Zero C. pose proof (IHv k st0 (skip s3)) as V.
    assert (Stop : (forall st' t, drive_value nearest handle n k st0 (skip s3) <> Passed st' t) -> good fields_part (S n) (pre ++ skip s3) st (drive_value nearest handle n k st0 (skip s3))).
    { intros NP. apply (lift_stop value_part fields_part n pre [EKey (string_of_list_ascii b)] st st0 (skip s3)); try assumption.
      - intros x evs (j & Vx & ->). exists ["}"], [EEndObject], (pre ++ x), [(string_of_list_ascii b, j)]. split; [now rewrite app_assoc|].
        split; [|unfold member_events; cbn [flat_map fst snd app]; now rewrite app_nil_r]. rewrite <- (app_nil_r x). now apply One; [|apply blank_nil].
      - intros x (j & Vx). exists ["}"], (pre ++ x), [(string_of_list_ascii b, j)]. split; [now rewrite app_assoc|]. rewrite <- (app_nil_r x). now apply One; [|apply blank_nil].
      - intros s1' L W [|m] acc M; [lia|]. destruct (W m tt ltac:(lia)) as [evs E]. cbn [reading fields_part value_part] in *. rewrite Rp, E by (now apply (look_dark (skip s3))). now eexists. }
    destruct (drive_value nearest handle n k st0 (skip s3)) as [st1 r|st1 f t|st1 t|x| |]; try (apply Stop; discriminate); clear Stop.
    destruct V as (x & evs & Ex & (j & Vx & ->) & K & R). pose proof (skip_spec r) as (w & B & Er & D). rewrite Ex.
    assert (Dx : forall t, dark (x ++ t)).
    { intros t. apply value_first in Vx as (c & x' & -> & Sp & _). exact Sp. }
    assert (K1 : takes (EKey (string_of_list_ascii b) :: events j) st = Some st1) by (cbn [takes] in K0 |- *; rewrite H0; exact K).
    assert (Tx : forall w, blank w -> tokens nearest (pre ++ x ++ w) (EKey (string_of_list_ascii b) :: events j)).
    { intros w' Bw. change (EKey (string_of_list_ascii b) :: events j) with ([EKey (string_of_list_ascii b)] ++ events j). apply tokens_app; [exact Tp|].
      rewrite <- (app_nil_r (events j)). apply tokens_app; [now apply value_tokens|now apply tokens_space]. }
    destruct (starts "," (skip r)) as [r'|] eqn:Ec.
    + apply starts_spec in Ec. pose proof (skip_spec r') as (w' & B' & Er' & D').
      assert (Et : pre ++ x ++ r = (pre ++ (x ++ w) ++ "," :: w') ++ skip r') by (rewrite Er, Ec, Er' at 1; now rewrite <- !app_assoc). rewrite Et.
      apply (lift_all fields_part fields_part n (pre ++ (x ++ w) ++ "," :: w') (EKey (string_of_list_ascii b) :: events j) st st1); [|exact K1| | | |apply IHf; exact D'].
      * rewrite app_assoc, <- (app_nil_r (_ :: events j)). apply tokens_app; [now apply Tx|]. apply tokens_comma. now apply tokens_space.
      * intros y' evs (z & l & -> & V & ->). exists (pre ++ (x ++ w) ++ "," :: w' ++ z), ((string_of_list_ascii b, j) :: l).
        split; [now rewrite <- !app_assoc; cbn [app]; rewrite <- !app_assoc|].
        split; [apply More; [assumption|assumption|now apply fields_blank]|unfold member_events; cbn [flat_map fst snd app]; now rewrite app_assoc].
      * intros y' (z & l & -> & V). destruct (value_any1 _ _ _ Vx) as [j' Vx']. exists (pre ++ (x ++ w) ++ "," :: w' ++ z), ((string_of_list_ascii b, j') :: l).
        split; [now rewrite <- !app_assoc; cbn [app]; rewrite <- !app_assoc|]. apply More; [assumption|assumption|now apply fields_blank].
      * intros s1' m acc L M. assert (Lr : look 1 r (w ++ "," :: w' ++ s1')) by (rewrite Er, Ec; apply look_prefix).
        destruct (R _ m tt Lr M) as [j' E]. cbn [reading value_part fields_part] in E |- *. exists (acc ++ [(string_of_list_ascii b, j')]). intros z <-.
        rewrite <- !app_assoc. cbn [app]. rewrite Rp, E by apply Dx. rewrite skip_blank by (assumption || reflexivity). cbn [starts Ascii.eqb Bool.eqb andb].
        rewrite (skip_again r' s1' D' L w' B'). destruct (read_fields any_number m (acc ++ [(string_of_list_ascii b, j')]) s1'); [now eexists|now eexists|exact I].
    + destruct (starts "}" (skip r)) as [r'|] eqn:Eb.
      * apply starts_spec in Eb. rewrite Er, Eb. replace (pre ++ x ++ w ++ "}" :: r') with ((pre ++ x ++ w) ++ ["}"] ++ r') by (now rewrite <- !app_assoc).
        apply (send_last fields_part (S n) (pre ++ x ++ w) ["}"] r' st st1 EEndObject (EKey (string_of_list_ascii b) :: events j)); [now apply Tx|exact K1|constructor|reflexivity| |].
        -- exists (pre ++ x ++ w), [(string_of_list_ascii b, j)]. split; [reflexivity|].
           split; [now apply One|unfold member_events; cbn [flat_map fst snd app]; now rewrite app_nil_r].
        -- intros t' [|m] acc M; [lia|]. assert (Lr : look 1 r (w ++ "}" :: t')) by (rewrite Er, Eb; apply look_prefix).
           destruct (R _ m tt Lr ltac:(lia)) as [j' E]. cbn [reading value_part fields_part] in E |- *. exists (JObj (acc ++ [(string_of_list_ascii b, j')])).
           rewrite <- !app_assoc. cbn [app]. rewrite Rp, E by apply Dx. rewrite skip_blank by (assumption || reflexivity). reflexivity.
      * exists (pre ++ x ++ w), [], (EKey (string_of_list_ascii b) :: events j). split; [rewrite <- !app_assoc; cbn [app]; now rewrite <- Er|].
        split; [now apply Tx|]. split; [exact K1|]. split; [apply unfinished_nil|]. split.
        -- destruct (value_any1 _ _ _ Vx) as [j' Vx']. exists ["}"], (pre ++ x ++ w), [(string_of_list_ascii b, j')]. split; [reflexivity|]. now apply One.
        -- split; [|split; [discriminate|cbn; lia]]. intros _ t' L [|m] acc M; [lia|]. cbn [app window] in L |- *. assert (Lr : look 1 r (w ++ t')) by (rewrite Er; now apply look_app).
           destruct (R _ m tt Lr ltac:(lia)) as [j' E]. cbn [reading value_part fields_part] in E |- *. rewrite <- !app_assoc, Rp, E by apply Dx.
           rewrite (skip_again r t' D L w B), (starts_none "," _ _ Ec L), (starts_none "}" _ _ Eb L). now eexists.
Qed.
End Handler.
End Reader.

(** ** Texts *)

Lemma firstn_look : forall k t y, k <= List.length t -> look k t (firstn k t ++ y).
Proof. unfold look. intros k t y L. rewrite firstn_app, firstn_firstn, Nat.min_id, firstn_length, Nat.min_l, Nat.sub_diag by lia. cbn. now rewrite app_nil_r. Qed.

Lemma spaced_reads : forall s j n, spaced any_number s j -> exists m w, n <= m /\ blank w /\ read_value any_number m (skip s) = ROk j w.
Proof.
  intros s j n H. destruct (proj1 (proj2 (reads_grammar any_number)) s j H (n + (2 * List.length s + 1)) [] ltac:(lia) I) as (w & B & E & _).
  rewrite !app_nil_r in E. exists (n + (2 * List.length s + 1)), w. split; [lia|]. now split.
Qed.

Definition text_good nearest {St Out} (handle : event -> St -> answer St Out) (s : list ascii) (st : St) (d : driven St Out) : Prop :=
  match d with
  | Faulty st' f t =>
    exists p q evs, s = p ++ q ++ t /\ tokens nearest p evs /\ takes handle evs st = Some st' /\ unfinished q /\ beginning (p ++ q) /\
      (f <> TooBig -> window f <= List.length t -> ~ beginning (p ++ q ++ firstn (window f) t)) /\
      (f = TooBig -> q = [] /\ exists x r, t = x ++ r /\ number x /\ nearest x = None /\ forall z, integer x z -> ~ kept z) /\
      (1 < window f -> exists r, t = "\" :: r)
  | Refused st' t =>
    exists p q r evs ev st1, s = p ++ q ++ r /\ tokens nearest p evs /\ token nearest q ev /\ takes handle evs st = Some st1 /\ handle ev st1 = Refuses st' /\
      t = (if is_number ev then q ++ r else r) /\ exists y j rest, spaced nearest (p ++ q ++ y) j /\ events j = evs ++ ev :: rest
  | _ => True
  end.

Lemma spaced_around : forall near w x j w', blank w -> value near x j -> blank w' -> spaced near (w ++ x ++ w') j.
Proof. intros. now apply spaced_value. Qed.

Lemma drive_text_good : forall nearest St Out (handle : event -> St -> answer St Out) k st str,
  text_good nearest handle (list_ascii_of_string (c_string str)) st (drive_text nearest handle k st str).
Proof.
  intros nearest St Out handle k st str. unfold drive_text. set (s := list_ascii_of_string (c_string str)). clearbody s. cbv zeta.
  pose proof (skip_spec s) as (w & B & Es & D). destruct (skip s) as [|c0 s0] eqn:E0.
  { exists w, [], []. split; [exact Es|]. split; [now apply tokens_space|]. split; [reflexivity|]. split; [apply unfinished_nil|]. split.
    - exists ["0"], (JInt 0). rewrite app_nil_r. pose proof (spaced_around any_number w ["0"] (JInt 0) [] B (value_zero any_number) blank_nil) as X. exact X.
    - split; [cbn; lia|]. split; [discriminate|cbn; lia]. }
  set (s' := c0 :: s0) in *. clearbody s'. clear c0 s0 E0. set (n := 2 * List.length s' + 2). clearbody n.
  pose proof (proj1 (all_good nearest handle n) k st s') as G. destruct (drive_value nearest handle n k st s') as [st1 r|st1 f t|st1 t|x| |]; try exact I.
  - destruct G as (x & evs & Ex & (j & V & ->) & K & R). pose proof (skip_spec r) as (w' & B' & Er & D'). destruct (skip r) as [|c r'] eqn:Ec; [exact I|].
    exists (w ++ x ++ w'), [], (events j). split; [rewrite Es, Ex, Er, <- !app_assoc; reflexivity|].
    split; [apply tokens_blank; [assumption|]; rewrite <- (app_nil_r (events j)); apply tokens_app; [now apply value_tokens|now apply tokens_space]|].
    split; [exact K|]. split; [apply unfinished_nil|]. destruct (value_any1 _ _ _ V) as [j' V']. split; [|split; [|split; [discriminate|cbn; lia]]].
    + exists [], j'. rewrite !app_nil_r. now apply spaced_around.
    + intros _ _ (y & j1 & Y). cbn [window firstn app] in Y. rewrite <- !app_assoc in Y. cbn [app] in Y.
      destruct (spaced_reads _ _ n Y) as (m & w1 & L & B1 & E1). destruct (R (w' ++ c :: y) m tt) as [j2 E2]; [rewrite Er; apply look_prefix|exact L|].
      cbn [reading value_part] in E2. rewrite skip_blank in E1; [|assumption|].
      2: { apply value_first in V as (c1 & x1 & -> & Sp & _). exact Sp. }
      rewrite E2 in E1. injection E1 as _ <-. apply Forall_app in B1 as [_ B1]. inversion B1 as [|? ? Hc _]; subst. cbn in D'. apply is_space_spec in Hc. congruence.
  - destruct G as (p & q & evs & Et & T & K & U & (y & j & Y) & W & Big). exists (w ++ p), q, evs. split; [rewrite Es, Et, <- !app_assoc; reflexivity|].
    split; [now apply tokens_blank|]. split; [exact K|]. split; [exact U|]. split; [|split; [|exact Big]].
    + exists y, j. rewrite <- !app_assoc. rewrite <- (app_nil_r (p ++ q ++ y)). apply spaced_around; [exact B|exact Y|apply blank_nil].
    + intros Nb L (z & j1 & Z). rewrite <- !app_assoc in Z. destruct (spaced_reads _ _ n Z) as (m & w1 & Lm & B1 & E1).
      pose proof (firstn_look (window f) t z L) as Lk. destruct (W Nb _ Lk m tt Lm) as [evs1 E2]. cbn [reading value_part] in E2.
      rewrite skip_blank in E1; [congruence|assumption|]. apply (look_dark s'); [|exact D]. rewrite Et. apply look_app, look_app, (look_less (window f)); [apply window_pos|exact Lk].
  - destruct G as (p & q & r & evs & ev & st2 & Et & T & Tq & K & H & Ht & y & rest & j & V & E). exists (w ++ p), q, r, evs, ev, st2.
    split; [rewrite Es, Et, <- !app_assoc; reflexivity|]. split; [now apply tokens_blank|]. split; [exact Tq|]. split; [exact K|]. split; [exact H|]. split; [exact Ht|].
    exists y, j, rest. split; [|now symmetry]. rewrite <- !app_assoc. rewrite <- (app_nil_r (p ++ q ++ y)). apply spaced_around; [exact B|exact V|apply blank_nil].
Qed.

Lemma takes_run : forall e fuel fits evs s s', takes (machine e fuel fits) evs s = Some s' <-> run e fuel fits evs s = POk s'.
Proof.
  intros e fuel fits. induction evs as [|ev evs IH]; intros s s'; cbn [takes run]; [split; congruence|].
  unfold machine at 1. destruct (step e fuel fits ev s); try (split; discriminate). apply IH.
Qed.

Lemma open_never_fails : forall e fits t r s s', open e fits t r s <> PFail s'.
Proof.
  intros e fits t r s s'. unfold open, emplace. repeat match goal with |- context [match ?x with _ => _ end] => destruct x; try discriminate end.
Qed.
