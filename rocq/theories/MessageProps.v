(** The texts of errors. *)
From Coq Require Import List Arith ZArith NArith Ascii String Bool Lia.
From Verif Require Import Base Float NumericModel Json Events Types DeserializeModel ParseModel DenoteSpec MergeSpec TextModel TextSpec TextProof ReaderModel ReaderProof DepthProof
  OffsetSpec OffsetRead MessageModel MessageSpec MessageFacts MessageRead DeserializeProps ParseProps TextProps OffsetProps.
Import ListNotations.
Local Open Scope string_scope.
Local Open Scope list_scope.

Lemma fault_sentence : forall f, fault_message f = sentence f.
Proof. intros []; reflexivity. Qed.

(** C61: parse says what is wrong. The reason in the text of the exception is that of an error
    in the text, at the offset (C60); or of the first token that does not fit the type, and then
    it names what was expected at this place, and the token; or why the value is not one of the
    type. *)
Theorem C61_thrown : forall nearest e fuel fits k t str text n, regular e fuel t -> parse_new nearest e fuel fits k t str = Throws text n ->
  let s := list_ascii_of_string (c_string str) in
  (exists f, located nearest s f n /\ shown n (sentence f) text) \/
  (exists p q r evs ev m, s = p ++ q ++ r /\ tokens nearest p evs /\ token nearest q ev /\
     (exists y j rest, spaced nearest (p ++ q ++ y) j /\ events j = evs ++ ev :: rest) /\
     n = (if is_number ev then List.length p else List.length p + List.length q) /\ objection e t evs ev m /\ shown n m text).
Proof.
  intros nearest e fuel fits k t str text n (Hr & Hc & Ht & Hi) H s. unfold parse_new in H.
  destruct (open e fits t root_place (initial (dinit e t))) as [s0| | | |] eqn:O; try discriminate. cbv zeta in H.
  pose proof (drive_text_good nearest _ _ (reporting e fuel fits) k (s0, "") str) as G.
  destruct (drive_text nearest (reporting e fuel fits) k (s0, "") str) as [|c f at_|c at_| | |] eqn:D; try discriminate.
  - left. exists f. destruct G as (p & q & evs & E & _ & K & _). apply takes_reporting in K as [_ K]. rewrite K in H. cbn [String.eqb] in H. injection H as <- <-.
    split; [exact (fault_located _ _ _ _ _ _ _ _ _ _ D)|rewrite <- fault_sentence; apply what_shown].
  - right. destruct G as (p & q & r & evs & ev & c1 & E & T & Tq & K & M & Hat & Y). apply takes_reporting in K as [R Hm].
    unfold reporting in M. destruct (step e fuel fits ev (fst c1)) as [s2|s2| | |] eqn:S; try discriminate M. injection M as <-. cbn [snd] in H.
    destruct (step_stack e fuel fits ev (fst c1)) as (h & hs & St); [congruence|]. rewrite St in H.
    pose proof (refused_objection e fuel fits t Hr Hc Ht Hi _ _ _ _ _ _ _ _ O R S St) as Ob.
    assert (N : String.eqb (message (h_kind h) ev) "" = false).
    { apply String.eqb_neq. destruct Ob as [(w & _ & C) _]. exact (complaint_words _ _ _ _ C). }
    rewrite N in H. injection H as <- <-. exists p, q, r, evs, ev, (message (h_kind h) ev).
    split; [exact E|]. split; [exact T|]. split; [exact Tq|]. split; [exact Y|]. split; [|split; [exact Ob|apply what_shown]].
    rewrite Hat. destruct (is_number ev); [now apply offset_app|]. fold s in E. rewrite app_assoc in E. now rewrite (offset_app _ _ _ E), app_length.
Qed.
Print Assumptions C61_thrown.

(** C61: there is at most one such token with such a reason. *)
Theorem C61_unique : forall e fuel t evs ev m evs' ev' m' rest rest', regular e fuel t -> objection e t evs ev m -> objection e t evs' ev' m' ->
  evs ++ ev :: rest = evs' ++ ev' :: rest' -> evs = evs' /\ ev = ev' /\ m = m'.
Proof. intros e fuel t evs ev m evs' ev' m' rest rest' (Hr & _) A B E. exact (objection_one e fuel t Hr _ _ _ _ _ _ _ _ A B E). Qed.
Print Assumptions C61_unique.

(** C61: for a text that is JSON, parse throws only if there is such a token, and the text of
    the exception is about it; and parse does not return if there is one. *)
Theorem C61_json : forall nearest e fuel fits k t str j, regular e fuel t -> json_text nearest (c_string str) j ->
  (forall text n, parse_new nearest e fuel fits k t str = Throws text n -> exists evs ev rest m, events j = evs ++ ev :: rest /\ objection e t evs ev m /\ shown n m text) /\
  (forall v, parse_new nearest e fuel fits k t str = Gives v -> forall evs ev rest m, events j = evs ++ ev :: rest -> ~ objection e t evs ev m).
Proof.
  intros nearest e fuel fits k t str j (Hr & Hc & Ht & Hi) J.
  assert (Rd : read_text nearest str = ROk j []) by (now apply read_exactly).
  unfold parse_new. destruct (open e fits t root_place (initial (dinit e t))) as [s0| | | |] eqn:O; try (split; discriminate). cbv zeta.
  pose proof (drive_text_reads nearest (reporting e fuel fits) k (s0, "") str) as D. rewrite Rd in D. cbn [ReaderProof.expected] in D.
  pose proof (feed_reporting e fuel fits (events j) k s0 "") as [FR FK].
  destruct (drive_text nearest (reporting e fuel fits) k (s0, "") str) as [c r|c f at_|c at_| | |]; (split; [intros text n H|intros v H evs ev rest m E]); try discriminate.
  - destruct (feed (reporting e fuel fits) (events j) k (s0, "")) as [k' c'| | |]; try discriminate D. cbn in D. injection D as <- _.
    specialize (FK _ _ eq_refl). intros [(w & W & C) _]. rewrite E in FK. exact (taken_fine e fuel fits t Hr Hc Ht Hi _ _ _ _ _ _ w m O FK W C).
  - destruct (feed (reporting e fuel fits) (events j) k (s0, "")); discriminate D.
  - destruct (feed (reporting e fuel fits) (events j) k (s0, "")) as [|c'| |]; try discriminate D. cbn in D. injection D as ->.
    destruct (FR _ eq_refl) as (a & ev & b & s1 & s2 & h & hs & E & R & S & St & ->). cbn [snd] in H.
    pose proof (refused_objection e fuel fits t Hr Hc Ht Hi _ _ _ _ _ _ _ _ O R S St) as Ob.
    assert (N : String.eqb (message (h_kind h) ev) "" = false).
    { apply String.eqb_neq. destruct Ob as [(w & _ & C) _]. exact (complaint_words _ _ _ _ C). }
    rewrite N in H. injection H as <- <-. exists a, ev, b, (message (h_kind h) ev). split; [exact E|]. split; [exact Ob|apply what_shown].
Qed.
Print Assumptions C61_json.

(** C61: so the first token that does not fit decides the text of the exception, if there is one. *)
Theorem C61_decides : forall nearest e fuel fits k t str j evs ev rest m, regular e fuel t -> json_text nearest (c_string str) j ->
  events j = evs ++ ev :: rest -> objection e t evs ev m ->
  match parse_new nearest e fuel fits k t str with
  | Gives _ => False
  | Throws text n => shown n m text
  | Ends _ => True
  end.
Proof.
  intros nearest e fuel fits k t str j evs ev rest m R J E Ob. pose proof (C61_json nearest e fuel fits k t str j R J) as [A B].
  destruct (parse_new nearest e fuel fits k t str) as [v|text n|x]; [now apply (B v eq_refl evs ev rest m)| |exact I].
  destruct (A text n eq_refl) as (evs' & ev' & rest' & m' & E' & Ob' & Sh). rewrite E in E'. now destruct (C61_unique _ _ _ _ _ _ _ _ _ _ _ R Ob Ob' E') as (_ & _ & <-).
Qed.
Print Assumptions C61_decides.

(** C61: the texts do not change how parse ends otherwise (C60). *)
Theorem C61_same : forall nearest e fuel fits k t str,
  match parse_new nearest e fuel fits k t str with
  | Gives v => parse_text nearest e fuel fits k t str (dinit e t) = Filled v
  | Throws _ n => exists v, parse_text nearest e fuel fits k t str (dinit e t) = Refusal n v \/ exists f, parse_text nearest e fuel fits k t str (dinit e t) = Fault f n v
  | Ends x => parse_text nearest e fuel fits k t str (dinit e t) = x
  end.
Proof. exact parse_new_same. Qed.
Print Assumptions C61_same.

(** C61: deserialize reports an error in the text with the same words. *)
Theorem C61_document : forall nearest k str text n, document_error nearest k str = Some (text, n) ->
  exists f, located nearest (list_ascii_of_string (c_string str)) f n /\ shown n (sentence f) text.
Proof.
  intros nearest k str text n H. unfold document_error in H. destruct (document_within nearest k str) as [|f n'|] eqn:D; try discriminate. injection H as <- <-.
  exists f. split; [exact (C60_document _ _ _ _ _ D)|rewrite <- fault_sentence; apply what_shown].
Qed.
Print Assumptions C61_document.

(** C61: every error in a text has words of its own. *)
Theorem C61_faults : forall f g, sentence f = sentence g -> f = g.
Proof. intros [] []; intros H; try reflexivity; discriminate H. Qed.
Print Assumptions C61_faults.

(** test/main.cpp:13-26, and other errors. *)
Definition ex_new (t : ty) (str : string) := parse_new no_nearest (ex_program [ex_reported]) ex_fuel real_capacity 129 t str.

Example C61_example :
  ex_new (TClass 0) "{""bool_value"": true, []}" = Throws "parse error at offset 21: Missing a name for object member." 21 /\
  ex_new (TClass 0) "{""bool_value"": true, ""string_value"": []}" = Throws "parse error at offset 38: expected JSON token: string; got: '['" 38 /\
  ex_new (TClass 0) "{""bool_valu"": true}" = Throws "parse error at offset 12: expected class member name; got: bool_valu" 12 /\
  ex_new (TClass 0) "{""string_list"": [""a"", 23]}" = Throws "parse error at offset 22: expected JSON token: string or ']'; got: number" 22 /\
  ex_new (TPair TBool (TInt {| width := 8; is_signed := true |})) "[true, 128]" = Throws "parse error at offset 7: number cannot be assigned without data loss" 7 /\
  ex_new (TPair TBool (TInt {| width := 8; is_signed := true |})) "[true, 127, 0]" = Throws "parse error at offset 12: expected JSON token: ']'; got: number" 12 /\
  ex_new (TMap true (TVector TBool)) "{""a"": [true], ""b"": [[]]}" = Throws "parse error at offset 21: expected JSON token: boolean or ']'; got: '['" 21 /\
  ex_new TDate """1984-02-30""" = Throws "parse error at offset 12: invalid ISO-8601 date; expected: YYYY-MM-DD, got: 1984-02-30" 12 /\
  document_error no_nearest 9 "{""a"": [1, 2" = Some ("parse error at offset 11: Missing a comma or ] after an array element.", 11).
Proof. repeat (split; [vm_compute; reflexivity|]). vm_compute; reflexivity. Qed.

(** The program of the examples; what is awaited, and what is wrong, for the fourth text above. *)
Example ex_regular : forall t, real_ints t = true -> regular (ex_program [ex_reported]) ex_fuel t.
Proof.
  intros t Hi. split; [|split; [|split; [reflexivity|exact Hi]]].
  - split; [reflexivity|]. intros [|c]; [|unfold class_of; cbn; destruct c];
      (split; [cbn; repeat (constructor; [cbn; intuition discriminate|]); constructor|split; [vm_compute; discriminate|]]);
      [intros _; eexists; vm_compute; reflexivity|intros H; exfalso; cbn in H; lia..].
  - intros [|c]; [reflexivity|]. unfold class_of. cbn. destruct c; reflexivity.
Qed.

Example C61_awaits_example : forall evs, evs = [EStartObject; EKey "string_list"; EStartArray; EStr "a"] ->
  awaits (ex_program [ex_reported]) (TClass 0) evs (AElement TString) /\
  complaint (ex_program [ex_reported]) (AElement TString) (EInt 23) "expected JSON token: string or ']'; got: number".
Proof.
  intros evs ->. split.
  - apply (awaits_member _ 0 [] {| m_name := "string_list"; m_kind := MRequired; m_ty := TVector TString |} [EStartArray; EStr "a"]); [constructor|cbn; tauto|].
    apply (awaits_element _ (TVector TString) TString [JStr "a"]); [reflexivity|reflexivity].
  - apply (other_token _ (AElement TString) (EInt 23)). cbn. intuition discriminate.
Qed.

(** C61: the text does not always make sense: the token that is said to be expected may be the
    one that is said to be there; and after the name of an enumerator another name is expected
    (C41, C42). *)
Theorem C61_sensible_refuted : exists e fuel t1 t2 t3 str1 str2 str3, regular e fuel t1 /\ regular e fuel t2 /\ regular e fuel t3 /\
  parse_new no_nearest e fuel real_capacity 129 t1 str1 = Throws "parse error at offset 1: expected JSON token: number or ']'; got: number" 1 /\
  parse_new (fun _ => Some (FZero false)) e fuel real_capacity 129 t2 str2 = Throws "parse error at offset 0: expected JSON token: number; got: number" 0 /\
  parse_new no_nearest e fuel real_capacity 129 t3 str3 = Throws "parse error at offset 16: expected JSON token: string; got: key name" 16.
Proof.
  exists (ex_program [ex_reported]), ex_fuel, (TVector (TInt {| width := 8; is_signed := true |})), (TEnumInt int32), (TMap true ex_color), "[1]", "0.0", "{""a"": ""red"", ""b"": ""red""}".
  split; [now apply ex_regular|]. split; [now apply ex_regular|]. split; [now apply ex_regular|]. repeat (split; [vm_compute; reflexivity|]). vm_compute. reflexivity.
Qed.
Print Assumptions C61_sensible_refuted.
