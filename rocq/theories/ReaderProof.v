(** The reader with its handler against the reader that collects the events first. *)
From Coq Require Import List Arith ZArith NArith Ascii String Bool Lia.
From Verif Require Import Base Float Decimal10 Json Events Types DeserializeModel ParseModel TextModel TextProof ReaderModel.
Import ListNotations.
Local Open Scope char_scope.

(** ** Tokens *)

Definition plain {A} (x : A + (fault * position)) : option A := match x with inl a => Some a | inr _ => None end.

Lemma plain_prepend : forall l x, plain (prepend l x) = put l (plain x).
Proof. now intros l [[b r]|f]. Qed.

Lemma scan_string_plain : forall n s, List.length s <= n -> plain (scan_string s) = read_string s.
Proof.
  induction n as [|n IH]; intros s L; [now destruct s; [|cbn in L; lia]|].
  destruct s as [|c s1]; [reflexivity|]. cbn [List.length] in L.
  assert (P : forall l r, List.length r <= n -> plain (prepend l (scan_string r)) = put l (read_string r)) by (intros; rewrite plain_prepend, IH; auto).
  cbn [scan_string read_string]. destruct (Ascii.eqb c quote); [reflexivity|]. destruct (Ascii.eqb c backslash).
  - destruct s1 as [|x s2]; [reflexivity|]. cbn [List.length] in L.
    destruct (Ascii.eqb x quote || Ascii.eqb x backslash || Ascii.eqb x "/"); [apply P; lia|].
    destruct (Ascii.eqb x "b"); [apply P; lia|]. destruct (Ascii.eqb x "f"); [apply P; lia|]. destruct (Ascii.eqb x "n"); [apply P; lia|].
    destruct (Ascii.eqb x "r"); [apply P; lia|]. destruct (Ascii.eqb x "t"); [apply P; lia|]. destruct (Ascii.eqb x "u"); [|reflexivity].
    destruct s2 as [|h1 [|h2 [|h3 [|h4 s3]]]]; try reflexivity. cbn [List.length] in L. destruct (hex4 h1 h2 h3 h4) as [cp|]; [|reflexivity].
    destruct ((55296 <=? cp) && (cp <=? 57343))%N; [|apply P; lia]. destruct (cp <=? 56319)%N; [|reflexivity].
    destruct s3 as [|y [|z s4]]; try reflexivity.
    destruct s4 as [|k1 [|k2 [|k3 [|k4 s5]]]]; try (now destruct (Ascii.eqb y backslash && Ascii.eqb z "u")).
    cbn [List.length] in L. destruct (Ascii.eqb y backslash && Ascii.eqb z "u"); [|reflexivity].
    destruct (hex4 k1 k2 k3 k4) as [cp2|]; [|reflexivity]. destruct ((cp2 <? 56320) || (57343 <? cp2))%N; [reflexivity|]. apply P; lia.
  - destruct (N_of_ascii c <? 32)%N; [reflexivity|]. apply P; lia.
Qed.

Section Reader.
Variable nearest : list ascii -> option fl.

Lemma scan_number_plain : forall s, plain (scan_number nearest s) = read_number nearest s.
Proof.
  intros s. unfold scan_number, read_number. destruct (match starts "-" s with Some s' => (["-"], s') | None => ([], s) end) as [m s1].
  destruct (read_int_part s1) as [[ds s2]|]; [|reflexivity]. destruct (read_fraction s2) as [[fr s3]|]; [|now destruct (starts "." s2)].
  destruct (starts "." s2) as [s'|]; (destruct (read_exponent s3) as [[ex s4]|]; [|reflexivity]);
    (destruct fr, ex; try destruct (andb (Z.leb _ _) (Z.ltb _ _)); try reflexivity; now destruct (nearest _)).
Qed.

Lemma consume_plain : forall w s, match consume w s with inl r => Some r | inr _ => None end = expect w s.
Proof. induction w as [|c w IH]; intros s; [reflexivity|]. cbn. destruct (starts c s); [apply IH|reflexivity]. Qed.

(** A number is an integer or a double. *)
Lemma scan_number_kind : forall s j r, scan_number nearest s = inl (j, r) -> (exists z, j = JInt z) \/ exists f, j = JDbl f.
Proof.
  intros s j r H. unfold scan_number in H. destruct (match starts "-" s with Some s' => (["-"], s') | None => ([], s) end) as [m s1].
  destruct (read_int_part s1) as [[ds s2]|]; [|discriminate]. destruct (read_fraction s2) as [[fr s3]|]; [|now destruct (starts "." s2)].
  destruct (starts "." s2) as [s'|]; (destruct (read_exponent s3) as [[ex s4]|]; [|discriminate]);
    (destruct fr, ex; try destruct (andb (Z.leb _ _) (Z.ltb _ _)); try (injection H as <- <-; eauto); destruct (nearest _); try discriminate; injection H as <- <-; eauto).
Qed.

(** ** The handler is given the events of the text *)

Section Handler.
Context {St Out : Type}.
Variable handle : event -> St -> answer St Out.

(** The events one by one, as long as there are levels left. *)
Inductive fed : Type :=
| Kept (k : nat) (st : St)
| FRefused (st : St)
| FLeft (x : Out)
| FDeep.

Definition feed_one (ev : event) (st : St) (k' : nat) : fed :=
  match handle ev st with Goes st' => Kept k' st' | Refuses st' => FRefused st' | Leaves x => FLeft x end.

Definition feed_event (ev : event) (k : nat) (st : St) : fed :=
  match ev with
  | EStartArray | EStartObject => match k with O => FDeep | S k' => feed_one ev st k' end
  | EEndArray | EEndObject => feed_one ev st (S k)
  | _ => feed_one ev st k
  end.

Fixpoint feed (evs : list event) (k : nat) (st : St) : fed :=
  match evs with
  | [] => Kept k st
  | ev :: evs' => match feed_event ev k st with Kept k' st' => feed evs' k' st' | x => x end
  end.

Lemma feed_app : forall a b k st, feed (a ++ b) k st = match feed a k st with Kept k' st' => feed b k' st' | x => x end.
Proof. induction a as [|ev a IH]; intros b k st; [reflexivity|]. cbn [app feed]. destruct (feed_event ev k st); auto. Qed.

(** A document leaves the levels as they are. *)
Definition level (evs : list event) : Prop := forall k st k' st', feed evs k st = Kept k' st' -> k' = k.

Lemma level_nil : level [].
Proof. intros k st k' st' H. now injection H. Qed.

Lemma level_app : forall a b, level a -> level b -> level (a ++ b).
Proof.
  intros a b A B k st k' st' H. rewrite feed_app in H. destruct (feed a k st) as [k1 st1| | |] eqn:E; try discriminate.
  apply A in E. apply B in H. congruence.
Qed.

Lemma level_events : forall j, level (events j).
Proof.
  assert (One : forall ev, match ev with EStartArray | EStartObject | EEndArray | EEndObject => False | _ => True end -> level [ev]).
  { intros ev Hev k st k' st' H. cbn in H. destruct ev; try tauto; unfold feed_event, feed_one in H; destruct (handle _ st); cbn in H; try discriminate; now injection H. }
  assert (Around : forall a evs b, In (a, b) [(EStartArray, EEndArray); (EStartObject, EEndObject)] -> level evs -> level (a :: evs ++ [b])).
  { intros a evs b Hab L k st k' st' H. cbn [feed] in H. destruct k as [|k]; [destruct Hab as [E|[E|[]]]; injection E as <- <-; discriminate|].
    destruct (feed_event a (S k) st) as [k1 st1| | |] eqn:E1; try discriminate.
    assert (k1 = k) as -> by (destruct Hab as [E|[E|[]]]; injection E as <- <-; unfold feed_event, feed_one in E1; destruct (handle _ st); try discriminate; now injection E1).
    rewrite feed_app in H. destruct (feed evs k st1) as [k2 st2| | |] eqn:E2; try discriminate. apply L in E2 as ->.
    cbn [feed] in H. destruct Hab as [E|[E|[]]]; injection E as <- <-; unfold feed_event, feed_one in H; destruct (handle _ st2); try discriminate; now injection H. }
  induction j as [| | | | |l IH|l IH] using json_ind'; try now apply One.
  - change (level (EStartArray :: flat_map events l ++ [EEndArray])). apply Around; [now left|].
    induction IH; [apply level_nil|]. cbn [flat_map]. now apply level_app.
  - change (level (EStartObject :: flat_map (fun p => EKey (fst p) :: events (snd p)) l ++ [EEndObject])). apply Around; [right; now left|].
    induction IH as [|p l' H _ IHl]; [apply level_nil|]. cbn [flat_map]. apply level_app; [|exact IHl].
    change (level ([EKey (fst p)] ++ events (snd p))). apply level_app; [now apply One|exact H].
Qed.

(** What the reader did, without positions. *)
Inductive coarse : Type :=
| CPassed (st : St) (rest : list ascii)
| CFaulty (st : St)
| CRefused (st : St)
| CLeft (x : Out)
| CExhausted
| CNoFuel.

Definition erase (x : driven St Out) : coarse :=
  match x with
  | Passed st r => CPassed st r
  | Faulty st _ _ => CFaulty st
  | Refused st _ => CRefused st
  | Left x => CLeft x
  | Exhausted => CExhausted
  | NoFuel => CNoFuel
  end.

Definition after (x : fed) (f : St -> coarse) : coarse :=
  match x with Kept _ st => f st | FRefused st => CRefused st | FLeft x => CLeft x | FDeep => CExhausted end.

Definition expected (k : nat) (st : St) (x : TextModel.rres json) : coarse :=
  match x with
  | ROk j r => after (feed (events j) k st) (fun st' => CPassed st' r)
  | RErr evs => after (feed evs k st) CFaulty
  | RDeep => CNoFuel
  end.

Lemma drive_value_unfold : forall n k st c s, drive_value nearest handle (S n) k st (c :: s) =
      if Ascii.eqb c "n" then drive_literal handle "ull" ENull st s
      else if Ascii.eqb c "t" then drive_literal handle "rue" (EBool true) st s
      else if Ascii.eqb c "f" then drive_literal handle "alse" (EBool false) st s
      else if Ascii.eqb c quote then
        match scan_string s with
        | inl (b, r) => send handle (EStr (string_of_list_ascii b)) st r (fun st' => Passed st' r)
        | inr (f, at_) => Faulty st f at_
        end
      else if Ascii.eqb c "[" then
        match k with
        | O => Exhausted
        | S k' =>
          send handle EStartArray st s (fun st1 =>
            match starts "]" (skip s) with
            | Some r => send handle EEndArray st1 r (fun st2 => Passed st2 r)
            | None => drive_items nearest handle n k' st1 (skip s)
            end)
        end
      else if Ascii.eqb c "{" then
        match k with
        | O => Exhausted
        | S k' =>
          send handle EStartObject st s (fun st1 =>
            match starts "}" (skip s) with
            | Some r => send handle EEndObject st1 r (fun st2 => Passed st2 r)
            | None => drive_fields nearest handle n k' st1 (skip s)
            end)
        end
      else
        match scan_number nearest (c :: s) with
        | inl (JInt z, r) => send handle (EInt z) st (c :: s) (fun st' => Passed st' r)
        | inl (JDbl d, r) => send handle (EDbl d) st (c :: s) (fun st' => Passed st' r)
        | inl (_, _) => NoFuel
        | inr (f, at_) => Faulty st f at_
        end.
Proof. reflexivity. Qed.

Lemma drive_items_unfold : forall n k st s, drive_items nearest handle (S n) k st s =
    match drive_value nearest handle n k st s with
    | Passed st1 r =>
      match starts "," (skip r), starts "]" (skip r) with
      | Some r', _ => drive_items nearest handle n k st1 (skip r')
      | None, Some r' => send handle EEndArray st1 r' (fun st2 => Passed st2 r')
      | None, None => Faulty st1 MissCommaOrSquareBracket (skip r)
      end
    | x => x
    end.
Proof. reflexivity. Qed.

Lemma drive_fields_unfold : forall n k st s, drive_fields nearest handle (S n) k st s =
    match starts quote s with
    | None => Faulty st MissName s
    | Some s1 =>
      match scan_string s1 with
      | inr (f, at_) => Faulty st f at_
      | inl (b, s2) =>
        send handle (EKey (string_of_list_ascii b)) st s2 (fun st1 =>
          match starts ":" (skip s2) with
          | None => Faulty st1 MissColon (skip s2)
          | Some s3 =>
            match drive_value nearest handle n k st1 (skip s3) with
            | Passed st2 r =>
              match starts "," (skip r), starts "}" (skip r) with
              | Some r', _ => drive_fields nearest handle n k st2 (skip r')
              | None, Some r' => send handle EEndObject st2 r' (fun st3 => Passed st3 r')
              | None, None => Faulty st2 MissCommaOrCurlyBracket (skip r)
              end
            | x => x
            end
          end)
      end
    end.
Proof. reflexivity. Qed.

Lemma erase_send : forall ev st at_ k f k' , (forall st', erase (f st') = k st') ->
  erase (send handle ev st at_ f) = after (feed_one ev st k') k.
Proof. intros ev st at_ k f k' H. unfold send, feed_one. destruct (handle ev st); cbn; auto. Qed.

(** The events of an array or object start with those that were sent before. *)
Definition extends (before : list event) (x : TextModel.rres json) : Prop :=
  match x with
  | ROk j _ => exists rest, events j = before ++ rest
  | RErr evs => exists rest, evs = before ++ rest
  | RDeep => True
  end.

Lemma extends_less : forall a b x, extends (a ++ b) x -> extends a x.
Proof.
  intros a b [j r|evs|] H; [| |exact I]; destruct H as (rest & E); exists (b ++ rest); now rewrite app_assoc.
Qed.

Definition opened (acc : list json) : list event := EStartArray :: flat_map events acc.
Definition named (acc : list (string * json)) : list event := EStartObject :: flat_map (fun p => EKey (fst p) :: events (snd p)) acc.

Lemma opened_more : forall acc j, opened (acc ++ [j]) = opened acc ++ events j.
Proof. intros acc j. unfold opened. rewrite flat_map_app. cbn [flat_map app]. now rewrite app_nil_r. Qed.

Lemma named_more : forall acc s j, named (acc ++ [(s, j)]) = named acc ++ EKey s :: events j.
Proof. intros acc s j. unfold named. rewrite flat_map_app. cbn [flat_map app fst snd]. now rewrite app_nil_r. Qed.

Lemma items_extend : forall n acc s, extends (opened acc) (TextModel.read_items nearest n acc s).
Proof.
  induction n as [|n IH]; intros acc s; [exact I|]. rewrite items_unfold. destruct (read_value nearest n s) as [j r|evs|]; [| |exact I].
  - destruct (starts "," (skip r)) as [r'|]; [apply extends_less with (events j); rewrite <- opened_more; apply IH|].
    destruct (starts "]" (skip r)) as [r'|].
    + exists (events j ++ [EEndArray]). cbn [events]. rewrite app_assoc, <- opened_more. reflexivity.
    + exists (events j). rewrite <- opened_more. reflexivity.
  - exists evs. reflexivity.
Qed.

Lemma fields_extend : forall n acc s, extends (named acc) (read_fields nearest n acc s).
Proof.
  induction n as [|n IH]; intros acc s; [exact I|]. rewrite fields_unfold. cbv zeta. fold (named acc).
  destruct (starts quote s) as [s1|]; [|exists []; now rewrite app_nil_r].
  destruct (read_string s1) as [[b s2]|]; [|exists []; now rewrite app_nil_r].
  destruct (starts ":" (skip s2)) as [s3|]; [|now eexists].
  destruct (read_value nearest n (skip s3)) as [j r|evs|]; [|now eexists|exact I].
  destruct (starts "," (skip r)) as [r'|]; [eapply extends_less; rewrite <- named_more; apply IH|].
  destruct (starts "}" (skip r)) as [r'|]; [|now eexists].
  eexists. cbn [events]. fold (named (acc ++ [(string_of_list_ascii b, j)])).
  change (EStartObject :: ?x ++ ?y) with ((EStartObject :: x) ++ y). fold (named (acc ++ [(string_of_list_ascii b, j)])).
  rewrite named_more, <- app_assoc. reflexivity.
Qed.

(** A handler that stops early does not see the rest. *)
Lemma stopped_early : forall before k st x, extends before x -> x <> RDeep ->
  match feed before k st with
  | Kept _ _ => True
  | FRefused st' => expected k st x = CRefused st'
  | FLeft y => expected k st x = CLeft y
  | FDeep => expected k st x = CExhausted
  end.
Proof.
  intros before k st x H N. destruct x as [j r|evs|]; [| |now destruct N]; destruct H as (rest & E); cbn [expected]; rewrite E, feed_app; now destruct (feed before k st).
Qed.

Ltac literally :=
  unfold drive_literal, literal; rewrite <- consume_plain; destruct (consume _ _); [|reflexivity];
  unfold send; cbn [expected events feed]; unfold feed_event, feed_one; now destruct (handle _ _).

Lemma drive_reads : forall n,
  (forall k st s, read_value nearest n s <> RDeep -> erase (drive_value nearest handle n k st s) = expected k st (read_value nearest n s)) /\
  (forall k st0 st acc s, feed (opened acc) (S k) st0 = Kept k st -> TextModel.read_items nearest n acc s <> RDeep ->
    erase (drive_items nearest handle n k st s) = expected (S k) st0 (TextModel.read_items nearest n acc s)) /\
  (forall k st0 st acc s, feed (named acc) (S k) st0 = Kept k st -> read_fields nearest n acc s <> RDeep ->
    erase (drive_fields nearest handle n k st s) = expected (S k) st0 (read_fields nearest n acc s)).
Proof.
  induction n as [|n (IHv & IHi & IHf)]; [repeat split; congruence|]. split; [|split].
  - intros k st [|c s] N; [reflexivity|]. rewrite drive_value_unfold. rewrite value_unfold in N |- *.
    destruct (Ascii.eqb c "n"); [literally|]. destruct (Ascii.eqb c "t"); [literally|]. destruct (Ascii.eqb c "f"); [literally|].
    destruct (Ascii.eqb c quote).
    { rewrite <- (scan_string_plain (List.length s) s) by lia. destruct (scan_string s) as [[b r]|[f p]]; [|reflexivity].
      unfold send. cbn [plain expected events feed]. unfold feed_event, feed_one. now destruct (handle _ _). }
    destruct (Ascii.eqb c "[").
    { destruct (starts "]" (skip s)) as [r|].
      - cbn [expected events flat_map app feed]. unfold feed_event. destruct k as [|k]; [reflexivity|]. unfold send, feed_one.
        destruct (handle EStartArray st) as [st1| |]; try reflexivity. now destruct (handle EEndArray st1).
      - pose proof (stopped_early [EStartArray] k st _ (items_extend n [] (skip s)) N) as E.
        cbn [feed] in E. unfold feed_event, feed_one in E. destruct k as [|k]; [now rewrite E|]. unfold send.
        destruct (handle EStartArray st) as [st1|st1|x] eqn:H; [|now rewrite E|now rewrite E].
        apply IHi; [|assumption]. cbn. unfold feed_event, feed_one. now rewrite H. }
    destruct (Ascii.eqb c "{").
    { destruct (starts "}" (skip s)) as [r|].
      - cbn [expected events flat_map app feed]. unfold feed_event. destruct k as [|k]; [reflexivity|]. unfold send, feed_one.
        destruct (handle EStartObject st) as [st1| |]; try reflexivity. now destruct (handle EEndObject st1).
      - pose proof (stopped_early [EStartObject] k st _ (fields_extend n [] (skip s)) N) as E.
        cbn [feed] in E. unfold feed_event, feed_one in E. destruct k as [|k]; [now rewrite E|]. unfold send.
        destruct (handle EStartObject st) as [st1|st1|x] eqn:H; [|now rewrite E|now rewrite E].
        apply IHf; [|assumption]. cbn. unfold feed_event, feed_one. now rewrite H. }
    rewrite <- scan_number_plain. destruct (scan_number nearest (c :: s)) as [[j r]|[f p]] eqn:E; [|reflexivity].
    destruct (scan_number_kind _ _ _ E) as [[z ->]|[f ->]]; unfold send; cbn [plain expected events feed]; unfold feed_event, feed_one; now destruct (handle _ _).
  - intros k st0 st acc s F N. rewrite drive_items_unfold. rewrite items_unfold in N |- *. specialize (IHv k st s).
    destruct (read_value nearest n s) as [j r|evs|]; [| |now destruct N].
    + specialize (IHv ltac:(discriminate)). cbn [expected] in IHv.
      assert (X : forall x, extends (opened (acc ++ [j])) x -> x <> RDeep -> forall go,
        (forall st1, feed (opened (acc ++ [j])) (S k) st0 = Kept k st1 -> erase (go st1 r) = expected (S k) st0 x) ->
        erase (match drive_value nearest handle n k st s with Passed st1 r => go st1 r | y => y end) = expected (S k) st0 x).
      { intros x Ex Nx go H. pose proof (stopped_early _ (S k) st0 x Ex Nx) as P. rewrite opened_more, feed_app, F in P. rewrite opened_more in H.
        specialize (H) as H. setoid_rewrite feed_app in H. rewrite F in H.
        destruct (feed (events j) k st) as [k1 st1|st1|y|] eqn:E.
        - pose proof (level_events j k st k1 st1 E) as ->. cbn [after] in IHv.
          destruct (drive_value nearest handle n k st s); try discriminate IHv. injection IHv as -> ->. now apply H.
        - rewrite P. cbn [after] in IHv. destruct (drive_value nearest handle n k st s); try discriminate IHv. exact IHv.
        - rewrite P. cbn [after] in IHv. destruct (drive_value nearest handle n k st s); try discriminate IHv. exact IHv.
        - rewrite P. cbn [after] in IHv. destruct (drive_value nearest handle n k st s); try discriminate IHv. reflexivity. }
      destruct (starts "," (skip r)) as [r'|] eqn:Ec.
      * apply (X _ (items_extend n (acc ++ [j]) (skip r')) N (fun st1 r0 => match starts "," (skip r0), starts "]" (skip r0) with
          | Some r', _ => drive_items nearest handle n k st1 (skip r')
          | None, Some r' => send handle EEndArray st1 r' (fun st2 => Passed st2 r')
          | None, None => Faulty st1 MissCommaOrSquareBracket (skip r0)
          end)). intros st1 F1. rewrite Ec. now apply IHi.
      * destruct (starts "]" (skip r)) as [r'|] eqn:Eb.
        -- apply (X (ROk (JArr (acc ++ [j])) r') (ex_intro _ [EEndArray] eq_refl) N (fun st1 r0 => match starts "," (skip r0), starts "]" (skip r0) with
          | Some r', _ => drive_items nearest handle n k st1 (skip r')
          | None, Some r' => send handle EEndArray st1 r' (fun st2 => Passed st2 r')
          | None, None => Faulty st1 MissCommaOrSquareBracket (skip r0)
          end)). intros st1 F1. rewrite Ec, Eb. cbn [expected events].
          change (EStartArray :: flat_map events (acc ++ [j]) ++ [EEndArray]) with (opened (acc ++ [j]) ++ [EEndArray]).
          rewrite feed_app, F1. cbn [feed]. unfold feed_event, feed_one, send. now destruct (handle EEndArray st1).
        -- apply (X (RErr (opened (acc ++ [j]))) (ex_intro _ [] (eq_sym (app_nil_r _))) N (fun st1 r0 => match starts "," (skip r0), starts "]" (skip r0) with
          | Some r', _ => drive_items nearest handle n k st1 (skip r')
          | None, Some r' => send handle EEndArray st1 r' (fun st2 => Passed st2 r')
          | None, None => Faulty st1 MissCommaOrSquareBracket (skip r0)
          end)). intros st1 F1. rewrite Ec, Eb. cbn [expected]. now rewrite F1.
    + specialize (IHv ltac:(discriminate)). cbn [expected] in *. change (EStartArray :: flat_map events acc ++ evs) with (opened acc ++ evs).
      rewrite feed_app, F, <- IHv. cbn [expected] in IHv. destruct (feed evs k st); cbn [after] in IHv; destruct (drive_value nearest handle n k st s); try discriminate IHv; reflexivity.
  - intros k st0 st acc s F N. rewrite drive_fields_unfold. rewrite fields_unfold in N |- *. cbv zeta in N |- *. fold (named acc) in N |- *.
    destruct (starts quote s) as [s1|]; [|cbn [expected]; now rewrite F].
    rewrite <- (scan_string_plain (List.length s1) s1) in N |- * by lia.
    destruct (scan_string s1) as [[b s2]|[f p]]; cbn [plain] in N |- *; [|cbn [expected]; now rewrite F].
    set (key := string_of_list_ascii b) in *. clearbody key.
    assert (K : forall x, extends (named acc ++ [EKey key]) x -> x <> RDeep -> forall go,
      (forall st1, feed (named acc ++ [EKey key]) (S k) st0 = Kept k st1 -> erase (go st1) = expected (S k) st0 x) ->
      erase (send handle (EKey key) st s2 go) = expected (S k) st0 x).
    { intros x Ex Nx go H. pose proof (stopped_early _ (S k) st0 x Ex Nx) as P. rewrite feed_app, F in P. cbn [feed] in P.
      setoid_rewrite feed_app in H. rewrite F in H. cbn [feed] in H.
      unfold feed_event, feed_one in P, H. unfold send. destruct (handle (EKey key) st); try (now rewrite P). now apply H. }
    destruct (starts ":" (skip s2)) as [s3|].
    2: { apply K; [exists []; now rewrite app_nil_r|discriminate|]. intros st1 F1. cbn [expected]. now rewrite F1. }
    pose proof (fun st => IHv k st (skip s3)) as V. clear IHv.
    destruct (read_value nearest n (skip s3)) as [j r|evs|]; [| |now destruct N].
    + assert (Y : named (acc ++ [(key, j)]) = (named acc ++ [EKey key]) ++ events j) by (rewrite named_more, <- app_assoc; reflexivity).
      assert (X : forall x, extends (named (acc ++ [(key, j)])) x -> x <> RDeep -> forall go,
        (forall st1, feed (named (acc ++ [(key, j)])) (S k) st0 = Kept k st1 -> erase (go st1 r) = expected (S k) st0 x) ->
        erase (send handle (EKey key) st s2 (fun st1 => match drive_value nearest handle n k st1 (skip s3) with Passed st2 r => go st2 r | y => y end)) = expected (S k) st0 x).
      { intros x Ex Nx go H. apply K; [rewrite Y in Ex; now apply extends_less in Ex|assumption|]. intros st1 F1.
        pose proof (stopped_early _ (S k) st0 x Ex Nx) as P. rewrite Y, feed_app, F1 in P.
        rewrite Y in H. setoid_rewrite feed_app in H. rewrite F1 in H.
        specialize (V st1 ltac:(discriminate)). cbn [expected] in V.
        destruct (feed (events j) k st1) as [k1 st2|st2|y|] eqn:E.
        - pose proof (level_events j k st1 k1 st2 E) as ->. cbn [after] in V.
          destruct (drive_value nearest handle n k st1 (skip s3)); try discriminate V. injection V as -> ->. now apply H.
        - rewrite P. cbn [after] in V. destruct (drive_value nearest handle n k st1 (skip s3)); try discriminate V. exact V.
        - rewrite P. cbn [after] in V. destruct (drive_value nearest handle n k st1 (skip s3)); try discriminate V. exact V.
        - rewrite P. cbn [after] in V. destruct (drive_value nearest handle n k st1 (skip s3)); try discriminate V. reflexivity. }
      set (go := fun st2 r0 => match starts "," (skip r0), starts "}" (skip r0) with
          | Some r', _ => drive_fields nearest handle n k st2 (skip r')
          | None, Some r' => send handle EEndObject st2 r' (fun st3 => Passed st3 r')
          | None, None => Faulty st2 MissCommaOrCurlyBracket (skip r0)
          end).
      destruct (starts "," (skip r)) as [r'|] eqn:Ec.
      * apply (X _ (fields_extend n (acc ++ [(key, j)]) (skip r')) N go). intros st1 F1. unfold go. rewrite Ec. now apply IHf.
      * destruct (starts "}" (skip r)) as [r'|] eqn:Eb.
        -- apply (X (ROk (JObj (acc ++ [(key, j)])) r') (ex_intro _ [EEndObject] eq_refl) N go). intros st1 F1. unfold go. rewrite Ec, Eb. cbn [expected events].
          change (EStartObject :: ?x ++ [EEndObject]) with ((EStartObject :: x) ++ [EEndObject]). fold (named (acc ++ [(key, j)])).
          rewrite feed_app, F1. cbn [feed]. unfold feed_event, feed_one, send. now destruct (handle EEndObject st1).
        -- replace (named acc ++ EKey key :: events j) with (named (acc ++ [(key, j)])) by apply named_more.
          apply (X (RErr (named (acc ++ [(key, j)]))) (ex_intro _ [] (eq_sym (app_nil_r _))) ltac:(discriminate) go).
          intros st1 F1. unfold go. rewrite Ec, Eb. cbn [expected]. now rewrite F1.
    + apply K; [exists evs; now rewrite <- app_assoc|discriminate|]. intros st1 F1. specialize (V st1 ltac:(discriminate)). cbn [expected] in *.
      replace (named acc ++ EKey key :: evs) with ((named acc ++ [EKey key]) ++ evs) by (now rewrite <- app_assoc).
      rewrite feed_app, F1, <- V. destruct (feed evs k st1); cbn [after] in V; destruct (drive_value nearest handle n k st1 (skip s3)); try discriminate V; reflexivity.
Qed.

(** The whole text. *)
Lemma drive_text_reads : forall k st str, erase (drive_text nearest handle k st str) = expected k st (read_text nearest str).
Proof.
  intros k st str. unfold drive_text, read_text. destruct (skip _) as [|c s]; [reflexivity|].
  pose proof (proj1 (not_deep nearest (2 * List.length (c :: s) + 2)) (c :: s) ltac:(lia)) as N.
  pose proof (proj1 (drive_reads (2 * List.length (c :: s) + 2)) k st (c :: s)) as D.
  destruct (read_value nearest _ (c :: s)) as [j r|evs|]; [| |now destruct N].
  - specialize (D ltac:(discriminate)). cbn [expected] in D.
    destruct (feed (events j) k st) eqn:F; cbn [after] in D; destruct (drive_value nearest handle _ k st (c :: s)); try discriminate D;
      (try injection D as -> ->; destruct (skip r); cbn [expected]; rewrite F; try exact D; reflexivity).
  - specialize (D ltac:(discriminate)). cbn [expected] in D |- *. rewrite <- D.
    destruct (feed evs k st); cbn [after] in D; destruct (drive_value nearest handle _ k st (c :: s)); try discriminate D; reflexivity.
Qed.

End Handler.
End Reader.
