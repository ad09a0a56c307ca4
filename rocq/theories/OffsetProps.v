(** The offset of an error. *)
From Coq Require Import List Arith ZArith NArith Ascii String Bool Lia.
From Verif Require Import Base Float Json Events Types DeserializeModel ParseModel TextModel TextSpec TextProof ReaderModel ReaderProof DepthProof
  OffsetSpec OffsetProof OffsetRead DeserializeProps ParseProps TextProps.
Import ListNotations.
Local Open Scope string_scope.
Local Open Scope list_scope.

Lemma offset_app : forall str p t, list_ascii_of_string (c_string str) = p ++ t -> offset str t = List.length p.
Proof.
  intros str p t E. unfold offset. assert (L : forall s, String.length s = List.length (list_ascii_of_string s)) by (induction s; cbn; auto).
  rewrite L, E, app_length. lia.
Qed.

Lemma firstn_exact : forall (p t : list ascii), firstn (List.length p) (p ++ t) = p.
Proof. intros p t. rewrite firstn_app, Nat.sub_diag, firstn_all. cbn. apply app_nil_r. Qed.

Lemma firstn_more : forall (p t : list ascii) k, firstn (List.length p + k) (p ++ t) = p ++ firstn k t.
Proof. intros p t k. now rewrite firstn_app_2. Qed.

Lemma skipn_exact : forall (p t : list ascii), skipn (List.length p) (p ++ t) = t.
Proof. intros p t. rewrite skipn_app, Nat.sub_diag, skipn_all. reflexivity. Qed.

(** Where the text is wrong: some JSON text starts with the characters before the offset; none
    starts with them and the characters that show the error; a number at the offset is too
    big; an escape sequence starts at the offset. *)
Definition located (nearest : list ascii -> option fl) (s : list ascii) (f : fault) (n : nat) : Prop :=
  n <= List.length s /\ beginning (firstn n s) /\
  (f <> TooBig -> n + window f <= List.length s -> ~ beginning (firstn (n + window f) s)) /\
  (f = TooBig -> exists x r, skipn n s = x ++ r /\ number x /\ nearest x = None /\ forall z, integer x z -> ~ kept z) /\
  (1 < window f -> exists r, skipn n s = "\"%char :: r).

Lemma fault_located : forall nearest St Out (handle : event -> St -> answer St Out) k st str st' f t,
  drive_text nearest handle k st str = Faulty st' f t -> located nearest (list_ascii_of_string (c_string str)) f (offset str t).
Proof.
  intros nearest St Out handle k st str st' f t H. pose proof (drive_text_good nearest St Out handle k st str) as G. rewrite H in G.
  destruct G as (p & q & evs & E & _ & _ & _ & B & W & Big & Esc). rewrite app_assoc in E. rewrite (offset_app _ _ _ E), E. split; [rewrite !app_length; lia|].
  split; [now rewrite firstn_exact|]. split.
  - intros N L. rewrite firstn_more, <- app_assoc. apply W; [exact N|]. rewrite !app_length in L. lia.
  - rewrite skipn_exact. split; [intros F; now apply Big|exact Esc].
Qed.

(** C60: the offset of a text that is not JSON, for deserialize *)
Theorem C60_document : forall nearest k str f n, document_within nearest k str = Erroneous f n -> located nearest (list_ascii_of_string (c_string str)) f n.
Proof.
  intros nearest k str f n H. unfold document_within in H. destruct (drive_text nearest document_handler k [] str) as [[|[| |] [|]] ?|st' f' t|? ?|x| |] eqn:D; try discriminate.
  injection H as -> <-. exact (fault_located _ _ _ _ _ _ _ _ _ _ D).
Qed.
Print Assumptions C60_document.

(** C60: and for parse, where the object has taken all tokens before the offset, but none that
    the error is in. *)
Theorem C60_parse : forall nearest e fuel fits k t str obj f n v, parse_text nearest e fuel fits k t str obj = Fault f n v ->
  let s := list_ascii_of_string (c_string str) in
  located nearest s f n /\
  exists p q evs s0 s1, firstn n s = p ++ q /\ tokens nearest p evs /\ unfinished q /\
    open e fits t root_place (initial obj) = POk s0 /\ run e fuel fits evs s0 = POk s1 /\ v = target s1.
Proof.
  intros nearest e fuel fits k t str obj f n v H s. unfold parse_text in H. destruct (open e fits t root_place (initial obj)) as [s0| | | |] eqn:O; try discriminate.
  destruct (drive_text nearest (machine e fuel fits) k s0 str) as [|s1 f' at_| |[]| |] eqn:D; try discriminate. injection H as -> <- <-.
  split; [exact (fault_located _ _ _ _ _ _ _ _ _ _ D)|]. pose proof (drive_text_good nearest _ _ (machine e fuel fits) k s0 str) as G. rewrite D in G.
  destruct G as (p & q & evs & E & T & K & U & _). exists p, q, evs, s0, s1. rewrite app_assoc in E. unfold s. rewrite (offset_app _ _ _ E), E, firstn_exact.
  repeat split; try assumption; try apply U. now apply takes_run.
Qed.
Print Assumptions C60_parse.

(** C60: a text that is cut off is wrong at its end, unless it is cut in an escape sequence or
    has a number that is too big. *)
Theorem C60_cut : forall nearest k str f n, document_within nearest k str = Erroneous f n -> beginning (list_ascii_of_string (c_string str)) ->
  window f = 1 -> f <> TooBig -> n = List.length (list_ascii_of_string (c_string str)).
Proof.
  intros nearest k str f n H (x & j & B) W N. apply C60_document in H as (L & _ & H & _). set (s := list_ascii_of_string (c_string str)) in *.
  destruct (le_lt_dec (List.length s) n) as [G|G]; [lia|]. exfalso. rewrite W in H. apply H; [exact N|lia|].
  exists (skipn (n + 1) s ++ x), j. now rewrite app_assoc, firstn_skipn.
Qed.
Print Assumptions C60_cut.

(** C60: a token that does not fit the type: it is the first one that the object does not take.
    The offset is where the token ends, or for a number where it starts. *)
Theorem C60_refusal : forall nearest e fuel fits k t str obj n v, parse_text nearest e fuel fits k t str obj = Refusal n v ->
  exists p q r evs ev s0 s1 s2, list_ascii_of_string (c_string str) = p ++ q ++ r /\ tokens nearest p evs /\ token nearest q ev /\
    (exists y j rest, spaced nearest (p ++ q ++ y) j /\ events j = evs ++ ev :: rest) /\
    open e fits t root_place (initial obj) = POk s0 /\ run e fuel fits evs s0 = POk s1 /\ step e fuel fits ev s1 = PFail s2 /\ v = target s2 /\
    n = (if is_number ev then List.length p else List.length p + List.length q).
Proof.
  intros nearest e fuel fits k t str obj n v H. unfold parse_text in H. destruct (open e fits t root_place (initial obj)) as [s0|s0| | |] eqn:O; try discriminate.
  2: now apply open_never_fails in O.
  destruct (drive_text nearest (machine e fuel fits) k s0 str) as [| |s2 at_|[]| |] eqn:D; try discriminate. injection H as <- <-.
  pose proof (drive_text_good nearest _ _ (machine e fuel fits) k s0 str) as G. rewrite D in G.
  destruct G as (p & q & r & evs & ev & s1 & E & T & Tq & K & M & Ht & Y). exists p, q, r, evs, ev, s0, s1, s2.
  split; [exact E|]. split; [exact T|]. split; [exact Tq|]. split; [exact Y|]. split; [reflexivity|]. split; [now apply takes_run|].
  split; [unfold machine in M; destruct (step e fuel fits ev s1); try discriminate M; now injection M as ->|]. split; [reflexivity|].
  rewrite Ht. destruct (is_number ev); [now apply offset_app|]. rewrite app_assoc in E. now rewrite (offset_app _ _ _ E), app_length.
Qed.
Print Assumptions C60_refusal.

(** test/main.cpp:13-26, and other errors. *)
Definition ex_reported : cls := {|
  c_members := [{| m_name := "bool_value"; m_kind := MRequired; m_ty := TBool |}; {| m_name := "string_value"; m_kind := MRequired; m_ty := TString |};
                {| m_name := "string_list"; m_kind := MRequired; m_ty := TVector TString |}];
  c_root := 3; c_default := [VBool false; VStr ""; VList []]; c_value := [VBool false; VStr ""; VList []] |}.

Definition ex_offset (t : ty) (str : string) (obj : val) := parse_text no_nearest (ex_program [ex_reported]) ex_fuel real_capacity 129 t str obj.

Example C60_example :
  ex_offset (TClass 0) "{""bool_value"": true, []}" (VObj [VBool false; VStr ""; VList []]) = Fault MissName 21 (VObj [VBool true; VStr ""; VList []]) /\
  ex_offset (TClass 0) "{""bool_value"": true, ""string_value"": []}" (VObj [VBool false; VStr ""; VList []]) = Refusal 38 (VObj [VBool true; VStr ""; VList []]) /\
  ex_offset (TVector TString) "[""a"", 23]" (VList []) = Refusal 6 (VList [VStr "a"]) /\
  ex_offset (TVector TString) "[""a"", nul]" (VList []) = Fault ValueInvalid 9 (VList [VStr "a"]) /\
  document_within no_nearest 9 "[1.5, 2.]" = Erroneous TooBig 1 /\
  document_within no_nearest 9 "[""x\uD800\n""]" = Erroneous SurrogateInvalid 3 /\
  document_within no_nearest 9 "[1, 02]" = Erroneous MissCommaOrSquareBracket 5 /\
  document_within no_nearest 9 "{""a"": [1, 2" = Erroneous MissCommaOrSquareBracket 11.
Proof. repeat (split; [vm_compute; reflexivity|]). vm_compute; reflexivity. Qed.

(** A token that is refused, with its place. *)
Example C60_refused_example : exists p q r evs,
  list_ascii_of_string "[""a"", 23]" = p ++ q ++ r /\ tokens no_nearest p evs /\ token no_nearest q (EInt 23) /\ List.length p = 6 /\ evs = [EStartArray; EStr "a"].
Proof.
  exists (list_ascii_of_string "[""a"", "), (list_ascii_of_string "23"), (list_ascii_of_string "]"), [EStartArray; EStr "a"]. split; [reflexivity|]. split.
  - apply (tokens_more no_nearest (list_ascii_of_string "[") EStartArray (list_ascii_of_string """a"", ")); [constructor|].
    apply (tokens_more no_nearest (list_ascii_of_string """a""") (EStr "a") (list_ascii_of_string ", ")).
    + apply (token_string no_nearest ["a"%char] ["a"%char]). apply chars_plain; [codes; lia|codes; lia|codes; lia|constructor].
    + apply tokens_comma. apply tokens_space. constructor; [cbn; tauto|constructor].
  - split; [|split; reflexivity]. apply token_integer; [|split; lia]. apply (integer_plus (list_ascii_of_string "23")).
    split; [split; [discriminate|repeat (constructor; [unfold digit; codes; lia|]); constructor]|discriminate].
Qed.
