(** What is wrong with a text that is not JSON. *)
From Coq Require Import List Arith ZArith NArith Ascii String Bool Lia.
From Verif Require Import Base Float NumericModel Json Events Types DeserializeModel ParseModel TextModel TextSpec TextProof ReaderModel ReaderProof DepthProof
  OffsetSpec OffsetRead MessageModel MessageSpec MessageFacts MessageRead SyntaxSpec SyntaxProof SyntaxRead SyntaxReplay
  DeserializeProps ParseProps TextProps OffsetProps MessageProps.
Import ListNotations.
Local Open Scope string_scope.
Local Open Scope list_scope.

(** The text has the error [f] at offset [n]. *)
Definition wrong_at (nearest : list ascii -> option fl) (s : list ascii) (f : fault) (n : nat) : Prop :=
  n <= List.length s /\ wrong nearest f (firstn n s) (skipn n s).

Lemma fault_wrong : forall nearest St Out (handle : event -> St -> answer St Out) k st str st' f t,
  drive_text nearest handle k st str = Faulty st' f t -> wrong_at nearest (list_ascii_of_string (c_string str)) f (offset str t).
Proof.
  intros nearest St Out handle k st str st' f t H. apply text_stopped in H as (p & E & W). rewrite (offset_app _ _ _ E), E.
  split; [rewrite app_length; lia|]. now rewrite firstn_exact, skipn_exact.
Qed.

(** C73: deserialize reports what is wrong with the text at the offset. *)
Theorem C73_document : forall nearest k str f n, document_within nearest k str = Erroneous f n ->
  wrong_at nearest (list_ascii_of_string (c_string str)) f n.
Proof.
  intros nearest k str f n H. unfold document_within in H. destruct (drive_text nearest document_handler k [] str) as [[|[| |] [|]] ?|st' f' t|? ?|x| |] eqn:D; try discriminate.
  injection H as -> <-. exact (fault_wrong _ _ _ _ _ _ _ _ _ _ D).
Qed.
Print Assumptions C73_document.

(** C73: and it finds what is wrong, unless the stack does not suffice. *)
Theorem C73_exactly : forall nearest k str f n, String.length str <= k ->
  document_within nearest k str = Erroneous f n <-> wrong_at nearest (list_ascii_of_string (c_string str)) f n.
Proof.
  intros nearest k str f n L. split; [apply C73_document|]. intros [Ln W]. set (s := list_ascii_of_string (c_string str)) in *.
  assert (E : s = firstn n s ++ skipn n s) by (symmetry; apply firstn_skipn).
  destruct (text_fails nearest k [] str f _ _ E W) as [H|[st' H]].
  - now apply text_never_exhausted in H.
  - unfold document_within. rewrite H, (offset_app _ _ _ E), firstn_length, Nat.min_l by exact Ln. reflexivity.
Qed.
Print Assumptions C73_exactly.

(** C73: so does parse, whatever the type. *)
Theorem C73_parse : forall nearest e fuel fits k t str obj f n v, parse_text nearest e fuel fits k t str obj = Fault f n v ->
  wrong_at nearest (list_ascii_of_string (c_string str)) f n.
Proof.
  intros nearest e fuel fits k t str obj f n v H. unfold parse_text in H. destruct (open e fits t root_place (initial obj)) as [s0| | | |] eqn:O; try discriminate.
  destruct (drive_text nearest (machine e fuel fits) k s0 str) as [|s1 f' at_| |[]| |] eqn:D; try discriminate. injection H as -> <- <-.
  exact (fault_wrong _ _ _ _ _ _ _ _ _ _ D).
Qed.
Print Assumptions C73_parse.

(** C73: hence both report the same error in the text. *)
Theorem C73_agree : forall nearest e fuel fits k k' t str obj f n v, parse_text nearest e fuel fits k t str obj = Fault f n v ->
  String.length str <= k' -> document_within nearest k' str = Erroneous f n.
Proof. intros nearest e fuel fits k k' t str obj f n v H L. apply C73_exactly; [exact L|]. exact (C73_parse _ _ _ _ _ _ _ _ _ _ _ H). Qed.
Print Assumptions C73_agree.

(** C73: a text has one error at most, in one place. *)
Theorem C73_once : forall nearest str f g n m, wrong_at nearest (list_ascii_of_string (c_string str)) f n ->
  wrong_at nearest (list_ascii_of_string (c_string str)) g m -> f = g /\ n = m.
Proof.
  intros nearest str f g n m F G. apply (C73_exactly nearest (String.length str)) in F; [|lia]. apply (C73_exactly nearest (String.length str)) in G; [|lia].
  rewrite F in G. now injection G as -> ->.
Qed.
Print Assumptions C73_once.

(** C73: and it has one if it is not JSON. *)
Theorem C73_any : forall nearest str, (exists f n, wrong_at nearest (list_ascii_of_string (c_string str)) f n) <-> ~ exists j, json_text nearest (c_string str) j.
Proof.
  intros nearest str. split.
  - intros (f & n & W) (j & J). assert (E : read_text nearest str = ROk j []) by (apply read_exactly; auto).
    apply (C73_exactly nearest (String.length str)) in W; [|lia]. rewrite (document_read _ _ _ _ _ E) in W. destruct (Nat.leb _ _); discriminate.
  - intros N. destruct (read_text nearest str) as [j r|evs|] eqn:E.
    + exfalso. apply N. exists j. now apply read_exactly in E.
    + pose proof (drive_text_reads nearest document_handler (String.length str) [] str) as D. rewrite E in D. cbn [ReaderProof.expected] in D.
      pose proof (text_never_exhausted nearest document_handler (String.length str) [] str (le_n _)) as X.
      destruct (document_levels evs (String.length str) []) as [F|(k' & st' & F)]; rewrite F in D; cbn [after] in D.
      * exfalso. destruct (drive_text nearest document_handler (String.length str) [] str); try discriminate D. now apply X.
      * destruct (drive_text nearest document_handler (String.length str) [] str) as [|st'' f t| | | |] eqn:T; try discriminate D.
        exists f, (offset str t). exact (fault_wrong _ _ _ _ _ _ _ _ _ _ T).
    + now apply read_not_deep in E.
Qed.
Print Assumptions C73_any.

(** C73: the texts of the exceptions tell what is wrong, for deserialize *)
Theorem C73_message : forall nearest k str,
  (forall text n, document_error nearest k str = Some (text, n) ->
    exists f, wrong_at nearest (list_ascii_of_string (c_string str)) f n /\ shown n (sentence f) text) /\
  (forall f n, String.length str <= k -> wrong_at nearest (list_ascii_of_string (c_string str)) f n ->
    exists text, document_error nearest k str = Some (text, n) /\ shown n (sentence f) text).
Proof.
  intros nearest k str. unfold document_error. split.
  - intros text n. destruct (document_within nearest k str) as [|f n'|] eqn:D; try discriminate. intros H. injection H as <- <-. exists f.
    split; [now apply C73_document in D|]. rewrite <- fault_sentence. apply what_shown.
  - intros f n L W. apply (C73_exactly nearest k) in W; [|exact L]. rewrite W. eexists. split; [reflexivity|]. rewrite <- fault_sentence. apply what_shown.
Qed.
Print Assumptions C73_message.

(** C73: and for parse, if no token before does not fit the type. *)
Theorem C73_thrown : forall nearest e fuel fits k t str text n, parse_new nearest e fuel fits k t str = Throws text n ->
  (exists v, parse_text nearest e fuel fits k t str (dinit e t) = Refusal n v) \/
  (exists f, wrong_at nearest (list_ascii_of_string (c_string str)) f n /\ shown n (sentence f) text).
Proof.
  intros nearest e fuel fits k t str text n H. pose proof (parse_new_same nearest e fuel fits k t str) as Sm. rewrite H in Sm. destruct Sm as (v & [R|(f & F)]); [left; now exists v|right].
  exists f. split; [exact (C73_parse _ _ _ _ _ _ _ _ _ _ _ F)|]. unfold parse_new in H. unfold parse_text in F.
  destruct (open e fits t root_place (initial (dinit e t))) as [s0| | | |]; try discriminate. cbv zeta in H.
  pose proof (image_text nearest (reporting e fuel fits) (machine e fuel fits) fst (reporting_machine e fuel fits) k (s0, "") str) as I. cbn [fst] in I. rewrite I in F.
  pose proof (drive_text_good nearest _ _ (reporting e fuel fits) k (s0, "") str) as G.
  destruct (drive_text nearest (reporting e fuel fits) k (s0, "") str) as [|c f' at_| |x| |]; cbn [image] in F; try discriminate.
  injection F as -> <- _. destruct G as (p & q & evs & E & _ & K & _). apply takes_reporting in K as [_ K]. rewrite K in H. cbn [String.eqb] in H. injection H as <-.
  rewrite <- fault_sentence. apply what_shown.
Qed.
Print Assumptions C73_thrown.

(** Each error, for a decimal conversion that takes no number. *)
Example C73_example :
  document_within no_nearest 40 "  " = Erroneous DocumentEmpty 2 /\
  document_within no_nearest 40 "[] {}" = Erroneous RootNotSingular 3 /\
  document_within no_nearest 40 "[1,]" = Erroneous ValueInvalid 3 /\
  document_within no_nearest 40 "[nul]" = Erroneous ValueInvalid 4 /\
  document_within no_nearest 40 "{""a"": -}" = Erroneous ValueInvalid 7 /\
  document_within no_nearest 40 "{""a"": 1, }" = Erroneous MissName 9 /\
  document_within no_nearest 40 "{""a"" 1}" = Erroneous MissColon 5 /\
  document_within no_nearest 40 "{""a"": 1; ""b"": 2}" = Erroneous MissCommaOrCurlyBracket 7 /\
  document_within no_nearest 40 "[1 2]" = Erroneous MissCommaOrSquareBracket 3 /\
  document_within no_nearest 40 "[02]" = Erroneous MissCommaOrSquareBracket 2 /\
  document_within no_nearest 40 "[1.]" = Erroneous MissFraction 3 /\
  document_within no_nearest 40 "[1e+]" = Erroneous MissExponent 4 /\
  document_within no_nearest 40 "[1e5]" = Erroneous TooBig 1 /\
  document_within no_nearest 40 "[""ab" = Erroneous MissQuotationMark 4 /\
  document_within no_nearest 40 (String """"%char (String "a"%char (String "010"%char """"))) = Erroneous InvalidEncoding 2 /\
  document_within no_nearest 40 "[""a\x""]" = Erroneous EscapeInvalid 3 /\
  document_within no_nearest 40 "[""a\u12G4""]" = Erroneous InvalidHex 3 /\
  document_within no_nearest 40 "[""a\uD83Dx""]" = Erroneous SurrogateInvalid 3 /\
  document_within no_nearest 40 "[""a\uD83DA""]" = Erroneous SurrogateInvalid 3 /\
  document_within no_nearest 40 "[""a\uDE00""]" = Erroneous SurrogateInvalid 3.
Proof. repeat (split; [vm_compute; reflexivity|]). vm_compute; reflexivity. Qed.

(** Two errors without the reader: no colon after a name; no value after a comma. *)
Example C73_wrong_example :
  wrong_at no_nearest (list_ascii_of_string "{""a"" 1}") MissColon 5 /\ wrong_at no_nearest (list_ascii_of_string "[true,]") ValueInvalid 6.
Proof.
  split; (split; [cbn; lia|]); cbn -[wrong].
  - exists ["{"%char], ["a"%char], ["a"%char], [" "%char]. split; [apply (name_first _ [] []); [apply place_root|]; constructor|].
    split; [apply chars_plain; [vm_compute; congruence..|apply chars_end]|]. split; [constructor; [cbn; tauto|constructor]|]. split; [reflexivity|].
    split; intros (c & r & E & H); injection E as <- <-; [|discriminate]. apply white_space in H. discriminate.
  - left. split.
    { apply (place_next _ [] (list_ascii_of_string "true") [JBool true] []); [apply place_root; constructor| |constructor].
      apply items_one. apply (spaced_value _ [] (list_ascii_of_string "true") []); [constructor|constructor|constructor]. }
    split; [intros [_ E]; discriminate|]. split; [intros (c & r & E & H); injection E as <- <-; apply white_space in H; discriminate|].
    split; [intros (c & r & E & H); injection E as <- <-; destruct H as [H|H]; [cbn in H; intuition discriminate|destruct H as [_ H]; vm_compute in H; congruence]|].
    intros [_ (p0 & w & E & B)]. destruct p0 as [|? p0]; injection E.
    + intros <-. apply Forall_inv in B. cbn in B. intuition discriminate.
    + intros E' _. assert (X : In "["%char (list_ascii_of_string "true,")) by (change (list_ascii_of_string "true,") with ["t"; "r"; "u"; "e"; ","]%char; rewrite E'; apply in_or_app; right; now left). cbn in X. intuition discriminate.
Qed.
