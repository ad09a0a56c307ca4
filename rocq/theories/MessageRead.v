(** The reader with a handler that reports errors. *)
From Coq Require Import List Arith Lia ZArith NArith Ascii String Bool.
From Verif Require Import Base Float Decimal10 NumericModel HashModel DispatchModel Json Events Types SerializeModel DeserializeModel
  DenoteSpec MergeSpec ParseModel MergeProof MergeFacts TextModel TextSpec TextProof ReaderModel ReaderProof DepthProof OffsetSpec OffsetRead
  MessageModel MessageSpec MessageProof MessageFacts.
Import ListNotations.
Local Open Scope list_scope.

(** * Handlers with more state do the same *)

Section Simulation.
Variable nearest : list ascii -> option fl.
Context {S1 S2 Out : Type}.
Variable h1 : event -> S1 -> answer S1 Out.
Variable h2 : event -> S2 -> answer S2 Out.
Variable f : S1 -> S2.

Definition image_answer (x : answer S1 Out) : answer S2 Out := match x with Goes s => Goes (f s) | Refuses s => Refuses (f s) | Leaves x => Leaves x end.

Definition image (x : driven S1 Out) : driven S2 Out :=
  match x with
  | Passed s r => Passed (f s) r | Faulty s c a => Faulty (f s) c a | Refused s a => Refused (f s) a | Left x => Left x | Exhausted => Exhausted | NoFuel => NoFuel
  end.

Hypothesis Hf : forall ev s, h2 ev (f s) = image_answer (h1 ev s).

Lemma image_send : forall ev s a k1 k2, (forall s', k2 (f s') = image (k1 s')) -> send h2 ev (f s) a k2 = image (send h1 ev s a k1).
Proof. intros ev s a k1 k2 H. unfold send. rewrite Hf. destruct (h1 ev s); cbn; auto. Qed.

Lemma image_literal : forall w ev s x, drive_literal h2 w ev (f s) x = image (drive_literal h1 w ev s x).
Proof. intros w ev s x. unfold drive_literal. destruct (consume _ x); [|reflexivity]. now apply image_send. Qed.

Lemma image_drive : forall n,
  (forall k s x, drive_value nearest h2 n k (f s) x = image (drive_value nearest h1 n k s x)) /\
  (forall k s x, drive_items nearest h2 n k (f s) x = image (drive_items nearest h1 n k s x)) /\
  (forall k s x, drive_fields nearest h2 n k (f s) x = image (drive_fields nearest h1 n k s x)).
Proof.
  induction n as [|n (IV & II & IF)]; [repeat split; reflexivity|]. split; [|split]; intros k s x.
  - destruct x as [|c x]; [reflexivity|]. rewrite !drive_value_unfold.
    destruct (Ascii.eqb c "n"); [apply image_literal|]. destruct (Ascii.eqb c "t"); [apply image_literal|]. destruct (Ascii.eqb c "f"); [apply image_literal|].
    destruct (Ascii.eqb c quote). { destruct (scan_string x) as [[b r]|[c' a]]; [|reflexivity]. now apply image_send. }
    destruct (Ascii.eqb c "["). { destruct k as [|k]; [reflexivity|]. apply image_send. intros s'. destruct (starts "]" (skip x)); [|apply II]. now apply image_send. }
    destruct (Ascii.eqb c "{"). { destruct k as [|k]; [reflexivity|]. apply image_send. intros s'. destruct (starts "}" (skip x)); [|apply IF]. now apply image_send. }
    destruct (scan_number nearest (c :: x)) as [[[] r]|[c' a]]; try reflexivity; now apply image_send.
  - rewrite !drive_items_unfold, IV. destruct (drive_value nearest h1 n k s x) as [s' r| | | | |]; try reflexivity. cbn [image].
    destruct (starts "," (skip r)); [apply II|]. destruct (starts "]" (skip r)); [|reflexivity]. now apply image_send.
  - rewrite !drive_fields_unfold. destruct (starts quote x) as [x1|]; [|reflexivity]. destruct (scan_string x1) as [[b x2]|[c' a]]; [|reflexivity].
    apply image_send. intros s1. destruct (starts ":" (skip x2)) as [x3|]; [|reflexivity]. rewrite IV.
    destruct (drive_value nearest h1 n k s1 (skip x3)) as [s' r| | | | |]; try reflexivity. cbn [image].
    destruct (starts "," (skip r)); [apply IF|]. destruct (starts "}" (skip r)); [|reflexivity]. now apply image_send.
Qed.

Lemma image_text : forall k s str, drive_text nearest h2 k (f s) str = image (drive_text nearest h1 k s str).
Proof.
  intros k s str. unfold drive_text. cbv zeta. destruct (skip _) as [|c x]; [reflexivity|]. set (n := 2 * _ + 2). clearbody n.
  rewrite (proj1 (image_drive n)). destruct (drive_value nearest h1 n k s (c :: x)) as [s' r| | | | |]; try reflexivity. cbn [image]. destruct (skip r); reflexivity.
Qed.
End Simulation.

Lemma reporting_machine : forall e fuel fits ev c, machine e fuel fits ev (fst c) = image_answer fst (reporting e fuel fits ev c).
Proof. intros e fuel fits ev [s m]. unfold machine, reporting. cbn [fst snd]. destruct (step e fuel fits ev s); reflexivity. Qed.

(** How parse ends, without texts. *)
Lemma parse_new_same : forall nearest e fuel fits k t str,
  match parse_new nearest e fuel fits k t str with
  | Gives v => parse_text nearest e fuel fits k t str (dinit e t) = Filled v
  | Throws _ n => exists v, parse_text nearest e fuel fits k t str (dinit e t) = Refusal n v \/ exists f, parse_text nearest e fuel fits k t str (dinit e t) = Fault f n v
  | Ends x => parse_text nearest e fuel fits k t str (dinit e t) = x
  end.
Proof.
  intros nearest e fuel fits k t str. unfold parse_new, parse_text. destruct (open e fits t root_place (initial (dinit e t))) as [s|s| | |] eqn:O; try reflexivity; [|now apply open_never_fails in O].
  pose proof (image_text nearest (reporting e fuel fits) (machine e fuel fits) fst (reporting_machine e fuel fits) k (s, ""%string) str) as I. cbn [fst] in I. rewrite I.
  destruct (drive_text nearest (reporting e fuel fits) k (s, ""%string) str); cbn [image]; eauto.
Qed.

(** The handler has no message while it takes events. *)
Lemma takes_reporting : forall e fuel fits evs s m c, takes (reporting e fuel fits) evs (s, m) = Some c -> run e fuel fits evs s = POk (fst c) /\ snd c = m.
Proof.
  intros e fuel fits. induction evs as [|ev evs IH]; intros s m c H; cbn [takes run] in *; [injection H as <-; auto|].
  unfold reporting in H at 1. cbn [fst snd] in H. destruct (step e fuel fits ev s); try discriminate. now apply IH in H.
Qed.

Lemma feed_reporting : forall e fuel fits evs k s m,
  (forall c, feed (reporting e fuel fits) evs k (s, m) = FRefused c ->
     exists a ev b s1 s2 h hs, evs = a ++ ev :: b /\ run e fuel fits a s = POk s1 /\ step e fuel fits ev s1 = PFail s2 /\ stack s1 = h :: hs /\ c = (s2, message (h_kind h) ev)) /\
  (forall k' c, feed (reporting e fuel fits) evs k (s, m) = Kept k' c -> run e fuel fits evs s = POk (fst c)).
Proof.
  intros e fuel fits. induction evs as [|ev evs IH]; intros k s m; [split; [discriminate|intros k' c H; now injection H as _ <-]|].
  assert (G : forall k1 s1, feed_event (reporting e fuel fits) ev k (s, m) = Kept k1 s1 -> step e fuel fits ev s = POk (fst s1)).
  { intros k1 s1 H. unfold feed_event, feed_one, reporting in H. cbn [fst snd] in H. destruct ev; try (destruct k; [discriminate|]);
      (destruct (step e fuel fits _ s); try discriminate; injection H as _ <-; reflexivity). }
  assert (F : forall c, feed_event (reporting e fuel fits) ev k (s, m) = FRefused c ->
    exists s2 h hs, step e fuel fits ev s = PFail s2 /\ stack s = h :: hs /\ c = (s2, message (h_kind h) ev)).
  { intros c H. assert (exists s2, step e fuel fits ev s = PFail s2 /\ c = (s2, match stack s with h :: _ => message (h_kind h) ev | [] => ""%string end)) as (s2 & E & ->).
    { unfold feed_event, feed_one, reporting in H. cbn [fst snd] in H. destruct ev; try (destruct k; [discriminate|]);
      (destruct (step e fuel fits _ s); try discriminate; injection H as <-; eauto). }
    destruct (stack s) as [|h hs] eqn:St; [unfold step in E; rewrite St in E; discriminate|]. exists s2, h, hs. auto. }
  cbn [feed]. destruct (feed_event (reporting e fuel fits) ev k (s, m)) as [k1 [s1 m1]|c1| |] eqn:E; (split; [intros c H|intros k' c H]); try discriminate.
  - specialize (G _ _ eq_refl). cbn in G. destruct (proj1 (IH k1 s1 m1) c H) as (a & ev' & b & s2 & s3 & h & hs & -> & R & X). exists (ev :: a), ev', b, s2, s3, h, hs.
    split; [reflexivity|]. split; [|exact X]. cbn [run]. now rewrite G.
  - specialize (G _ _ eq_refl). cbn in G. cbn [run]. rewrite G. exact (proj2 (IH k1 s1 m1) k' c H).
  - injection H as <-. destruct (F _ eq_refl) as (s2 & h & hs & X & St & ->). exists [], ev, evs, s, s2, h, hs. auto.
Qed.

(** * What is wrong *)

Section Objections.
Variable e : env.
Variable fuel : nat.
Variable fits : capacity.
Variable t : ty.
Hypothesis Hr : routed e fuel.
Hypothesis Hc : real_classes e.
Hypothesis Ht : (0 < tick e)%Z.
Hypothesis Hi : real_ints t = true.

Lemma distinct_names : forall c, NoDup (map m_name (c_members (class_of e c))).
Proof. intros c. destruct Hr as [_ H]. apply (H c). Qed.

Lemma run_cut : forall a b s s', run e fuel fits (a ++ b) s = POk s' -> exists s1, run e fuel fits a s = POk s1 /\ run e fuel fits b s1 = POk s'.
Proof.
  induction a as [|ev a IH]; intros b s s' H; [exists s; auto|]. cbn [app run] in *. destruct (step e fuel fits ev s); try discriminate. now apply IH.
Qed.

Lemma step_stack : forall ev s, step e fuel fits ev s <> PUndef -> exists h hs, stack s = h :: hs.
Proof. intros ev s H. unfold step in H. destruct (stack s) as [|h hs]; [now destruct H|eauto]. Qed.

Lemma facing : forall obj evs s0 s1 h hs, open e fits t root_place (initial obj) = POk s0 -> run e fuel fits evs s0 = POk s1 -> stack s1 = h :: hs ->
  exists w, awaits e t evs w /\ faces (h_kind h) w /\ real_await w.
Proof.
  intros obj evs s0 s1 h hs O R St. apply open_kinds in O as [r O].
  assert (P : on_path e t (kinds s1) ([] ++ evs)).
  { apply (run_path e fuel fits Hr evs t s0 s1 R); [rewrite St; discriminate|]. unfold kinds. rewrite O. cbn. constructor. constructor. }
  unfold kinds in P. rewrite St in P. cbn [app map] in P. destruct (path_awaits e _ _ _ P _ _ eq_refl) as (w & W & F). exists w. split; [exact W|]. split; [exact F|].
  exact (awaits_real e Hc _ _ _ W Hi).
Qed.

Lemma taken_fine : forall obj a ev b s0 s1 w m, open e fits t root_place (initial obj) = POk s0 -> run e fuel fits (a ++ ev :: b) s0 = POk s1 ->
  awaits e t a w -> ~ complaint e w ev m.
Proof.
  intros obj a ev b s0 s1 w m O R W. apply run_cut in R as (s2 & R1 & R2). cbn [run] in R2. destruct (step e fuel fits ev s2) as [s3| | | |] eqn:E; try discriminate.
  destruct (step_stack ev s2) as (h & hs & St); [congruence|]. destruct (facing _ _ _ _ _ _ O R1 St) as (w' & W' & F & Rw).
  rewrite (awaits_one e distinct_names _ _ _ W _ W'). exact (step_fine e fuel fits Hr Ht _ _ _ _ _ _ m St F Rw E).
Qed.

Lemma refused_objection : forall obj evs ev s0 s1 s2 h hs, open e fits t root_place (initial obj) = POk s0 -> run e fuel fits evs s0 = POk s1 ->
  step e fuel fits ev s1 = PFail s2 -> stack s1 = h :: hs -> objection e t evs ev (message (h_kind h) ev).
Proof.
  intros obj evs ev s0 s1 s2 h hs O R S St. destruct (facing _ _ _ _ _ _ O R St) as (w & W & F & Rw). split.
  - exists w. split; [exact W|]. exact (step_complaint e fuel fits Hr Ht _ _ _ _ _ _ St F Rw S).
  - intros a ev' b w' m' -> W'. exact (taken_fine _ _ _ _ _ _ _ _ O R W').
Qed.

Lemma objection_one : forall evs ev m evs' ev' m' a b, objection e t evs ev m -> objection e t evs' ev' m' -> evs ++ ev :: a = evs' ++ ev' :: b ->
  evs = evs' /\ ev = ev' /\ m = m'.
Proof.
  assert (X : forall evs ev m evs' ev' m' x a b, objection e t evs ev m -> objection e t evs' ev' m' -> evs = evs' ++ x -> evs ++ ev :: a = evs' ++ ev' :: b -> x = []).
  { intros evs ev m evs' ev' m' x a b [_ N] [(w & W & C) _] -> E. destruct x as [|y x]; [reflexivity|]. rewrite <- app_assoc in E. apply app_inv_head in E. injection E as -> _.
    exfalso. exact (N evs' ev' x w m' eq_refl W C). }
  intros evs ev m evs' ev' m' a b O O' E. assert (evs = evs') as <-.
  { destruct (app_eq_app _ _ _ _ E) as (l & [[-> _]|[-> _]]); [rewrite (X _ _ _ _ _ _ l a b O O' eq_refl E)|rewrite (X _ _ _ _ _ _ l b a O' O eq_refl (eq_sym E))];
      rewrite ?app_nil_r; reflexivity. }
  apply app_inv_head in E. injection E as <- _. destruct O as [(w & W & C) _], O' as [(w' & W' & C') _].
  rewrite <- (awaits_one e distinct_names _ _ _ W _ W') in C'. split; [reflexivity|]. split; [reflexivity|]. exact (complaint_one _ _ _ _ _ C C').
Qed.
End Objections.

(** * Texts *)

Lemma c_string_upto : forall s, upto_nul s (c_string s).
Proof.
  induction s as [|c s IH]; [split; [tauto|now left]|]. cbn [c_string]. destruct (Ascii.eqb_spec c Ascii.zero) as [-> |N].
  - split; [tauto|]. right. exists s. reflexivity.
  - destruct IH as [I E]. split; [cbn; intros [X|X]; [congruence|tauto]|]. destruct E as [E|[r E]]; [left; congruence|right]. exists r. cbn [append]. now rewrite <- E.
Qed.

Lemma what_shown : forall m n, shown n m (what m n).
Proof.
  intros m n. exists (dec (N.of_nat n)). split; [|apply c_string_upto]. rewrite <- nat_N_Z.
  pose proof (integer_plus (dec (N.of_nat n)) (dec_integer_part _)) as H.
  rewrite digits_value_spec in H by apply digits_forallb, dec_digits. now rewrite digits_val_dec in H.
Qed.

Lemma complaint_words : forall e w ev m, complaint e w ev m -> m <> ""%string.
Proof. intros e w ev m H. destruct H; discriminate. Qed.
