(** How deep the calls of the reader are nested: as the document, or not more than the stack
    of handlers allows. *)
From Coq Require Import List Arith ZArith NArith Ascii String Bool Lia.
From Verif Require Import Base Float Decimal10 Json Events Types DeserializeModel ParseModel ParseLimit TextModel TextSpec TextChars TextProof ReaderModel
  ReaderProof.
Import ListNotations.
Local Open Scope char_scope.

(** ** The document *)

Lemma elements_back : forall l acc st, elements acc (rev (map Done l) ++ Mark :: st) = (l ++ acc, st).
Proof.
  induction l as [|j l IH] using rev_ind; intros acc st; [reflexivity|].
  rewrite map_app, rev_app_distr. cbn [map rev app elements]. rewrite IH. now rewrite <- app_assoc.
Qed.

Definition named_cells (l : list (string * json)) : list cell := flat_map (fun p => [Name (fst p); Done (snd p)]) l.

Lemma members_back : forall l acc st, members acc (rev (named_cells l) ++ Mark :: st) = (l ++ acc, st).
Proof.
  induction l as [|[s j] l IH] using rev_ind; intros acc st; [reflexivity|].
  unfold named_cells in *. rewrite flat_map_app, rev_app_distr. cbn [flat_map rev app members fst snd]. rewrite IH. now rewrite <- app_assoc.
Qed.

Notation feed_document := (feed document_handler).

Definition built (depth k : nat) (cells st : list cell) : @fed (list cell) Empty_set := if Nat.leb depth k then Kept k (cells ++ st) else FDeep.

Lemma leb_max : forall a b k, Nat.leb (Nat.max a b) k = Nat.leb a k && Nat.leb b k.
Proof. intros a b k. destruct (Nat.leb_spec a k), (Nat.leb_spec b k), (Nat.leb_spec (Nat.max a b) k); cbn; lia. Qed.

Lemma feed_built : forall j k st, feed_document (events j) k st = built (nesting j) k [Done j] st.
Proof.
  induction j as [| | | | |l IH|l IH] using json_ind'; intros k st; try reflexivity.
  - assert (L : forall k st, feed_document (flat_map events l) k st = built (list_max (map nesting l)) k (rev (map Done l)) st).
    { clear k st. induction IH as [|j l H _ IHl]; intros k st; [reflexivity|]. cbn [flat_map map rev]. rewrite feed_app, H. unfold built.
      change (list_max (nesting j :: map nesting l)) with (Nat.max (nesting j) (list_max (map nesting l))).
      rewrite leb_max. destruct (Nat.leb (nesting j) k); [|reflexivity]. rewrite IHl. unfold built.
      destruct (Nat.leb (list_max _) k); [|reflexivity]. now rewrite <- app_assoc. }
    cbn [events]. destruct k as [|k]; [reflexivity|].
    change (feed_document (EStartArray :: ?x) (S k) st) with (feed_document x k (Mark :: st)). unfold built. cbn [nesting]. rewrite feed_app, L. unfold built. cbn [Nat.leb].
    destruct (Nat.leb (list_max (map nesting l)) k); [|reflexivity]. cbn [feed feed_event feed_one document_handler].
    unfold feed_one, document_handler. rewrite elements_back, app_nil_r. reflexivity.
  - assert (L : forall k st, feed_document (flat_map (fun p => EKey (fst p) :: events (snd p)) l) k st =
        built (list_max (map (fun p => nesting (snd p)) l)) k (rev (named_cells l)) st).
    { clear k st. induction IH as [|p l H _ IHl]; intros k st; [reflexivity|]. cbn [flat_map map]. rewrite feed_app.
      change (feed_document (EKey (fst p) :: ?x) k st) with (feed_document x k (Name (fst p) :: st)). rewrite H. unfold built.
      change (list_max (nesting (snd p) :: ?r)) with (Nat.max (nesting (snd p)) (list_max r)).
      rewrite leb_max. destruct (Nat.leb (nesting (snd p)) k); [|reflexivity]. rewrite IHl. unfold built.
      destruct (Nat.leb (list_max _) k); [|reflexivity]. unfold named_cells. cbn [flat_map app]. cbn [rev]. now rewrite <- !app_assoc. }
    change (events (JObj l)) with (EStartObject :: flat_map (fun p => EKey (fst p) :: events (snd p)) l ++ [EEndObject]).
    destruct k as [|k]; [reflexivity|].
    change (feed_document (EStartObject :: ?x) (S k) st) with (feed_document x k (Mark :: st)). unfold built. cbn [nesting]. rewrite feed_app, L. unfold built. cbn [Nat.leb].
    destruct (Nat.leb (list_max _) k); [|reflexivity]. cbn [feed feed_event].
    unfold feed_one, document_handler. rewrite members_back, app_nil_r. reflexivity.
Qed.

Section Reader.
Variable nearest : list ascii -> option fl.

(** The document of a text, if the stack is deep enough; the errors of the other texts. *)
Lemma document_read : forall k str j r, read_text nearest str = ROk j r ->
  document_within nearest k str = if Nat.leb (nesting j) k then Whole j else Crash.
Proof.
  intros k str j r E. unfold document_within. pose proof (drive_text_reads nearest document_handler k [] str) as D. rewrite E in D.
  cbn [expected] in D. rewrite feed_built in D. unfold built in D. destruct (Nat.leb (nesting j) k); cbn [after app] in D.
  - destruct (drive_text nearest document_handler k [] str); try discriminate D. now injection D as -> ->.
  - now destruct (drive_text nearest document_handler k [] str).
Qed.

Lemma document_levels : forall evs k st, feed_document evs k st = FDeep \/ exists k' st', feed_document evs k st = @Kept (list cell) Empty_set k' st'.
Proof.
  induction evs as [|ev evs IH]; intros k st; [right; now exists k, st|]. cbn [feed].
  destruct ev; cbn [feed_event]; unfold feed_one, document_handler; try apply IH; destruct k; try (now left); apply IH.
Qed.

Lemma document_broken : forall k str evs, read_text nearest str = RErr evs ->
  (feed_document evs k [] = @FDeep (list cell) Empty_set /\ document_within nearest k str = Crash) \/ exists f n, document_within nearest k str = Erroneous f n.
Proof.
  intros k str evs E. unfold document_within. pose proof (drive_text_reads nearest document_handler k [] str) as D. rewrite E in D. cbn [expected] in D.
  destruct (document_levels evs k []) as [F|(k' & st' & F)]; rewrite F in D; cbn [after] in D.
  - left. split; [exact F|]. now destruct (drive_text nearest document_handler k [] str).
  - right. destruct (drive_text nearest document_handler k [] str); try discriminate D. now do 2 eexists.
Qed.

(** More levels than characters are never needed. *)
Section Short.
Context {St Out : Type}.
Variable handle : event -> St -> answer St Out.

Lemma passed_rest : forall n k st s st' r, read_value nearest n s <> RDeep -> drive_value nearest handle n k st s = Passed st' r ->
  exists w, s = w ++ r /\ w <> [].
Proof.
  intros n k st s st' r N H. pose proof (proj1 (drive_reads nearest handle n) k st s N) as D. rewrite H in D. cbn [erase] in D.
  destruct (read_value nearest n s) as [j r'|evs|] eqn:E; [| |now destruct N]; cbn [expected] in D.
  - apply (proj1 (sound nearest n)) in E as (w & -> & V). exists w.
    destruct (feed handle (events j) k st); try discriminate D. injection D as _ ->. split; [reflexivity|]. apply value_nonempty in V. destruct w; [now cbn in V|discriminate].
  - destruct (feed handle evs k st); discriminate D.
Qed.

Lemma never_exhausted : forall n,
  (forall k st s, 2 * List.length s + 1 <= n -> List.length s <= k -> drive_value nearest handle n k st s <> Exhausted) /\
  (forall k st s, 2 * List.length s + 2 <= n -> List.length s <= k -> drive_items nearest handle n k st s <> Exhausted) /\
  (forall k st s, 2 * List.length s + 2 <= n -> List.length s <= k -> drive_fields nearest handle n k st s <> Exhausted).
Proof.
  assert (Snd : forall ev st p go, (forall st', go st' <> Exhausted) -> send handle ev st p go <> Exhausted).
  { intros ev st p go H. unfold send. destruct (handle ev st); [apply H|discriminate|discriminate]. }
  induction n as [|n (IHv & IHi & IHf)]; [repeat split; intros; lia|]. split; [|split].
  - intros k st [|c s] N L; [discriminate|]. cbn [List.length] in N, L. rewrite drive_value_unfold. pose proof (skip_length s) as Ls.
    assert (Lit : forall w ev, drive_literal handle w ev st s <> Exhausted).
    { intros w ev. unfold drive_literal. destruct (consume _ s); [apply Snd; discriminate|discriminate]. }
    destruct (Ascii.eqb c "n"); [apply Lit|]. destruct (Ascii.eqb c "t"); [apply Lit|]. destruct (Ascii.eqb c "f"); [apply Lit|].
    destruct (Ascii.eqb c quote); [destruct (scan_string s) as [[b r]|[f p]]; [apply Snd; discriminate|discriminate]|].
    destruct k as [|k]; [lia|].
    destruct (Ascii.eqb c "["); [apply Snd; intros st1; destruct (starts "]" (skip s)); [apply Snd; discriminate|apply IHi; lia]|].
    destruct (Ascii.eqb c "{"); [apply Snd; intros st1; destruct (starts "}" (skip s)); [apply Snd; discriminate|apply IHf; lia]|].
    destruct (scan_number nearest (c :: s)) as [[[] r]|[f p]]; try discriminate; apply Snd; discriminate.
  - intros k st s N L. rewrite drive_items_unfold. pose proof (IHv k st s ltac:(lia) L) as V.
    destruct (drive_value nearest handle n k st s) as [st1 r| | | | |] eqn:E; try discriminate; [|now destruct V].
    apply passed_rest in E as (w & -> & Nw); [|apply (proj1 (not_deep nearest n)); lia]. rewrite app_length in N, L. destruct w as [|x w]; [now destruct Nw|]. cbn [List.length] in N, L.
    pose proof (skip_length r) as Lr. destruct (starts "," (skip r)) as [r'|] eqn:Ec; [|destruct (starts "]" (skip r)); [apply Snd; discriminate|discriminate]].
    apply starts_spec in Ec. rewrite Ec in Lr. cbn [List.length] in Lr. pose proof (skip_length r'). apply IHi; lia.
  - intros k st s N L. rewrite drive_fields_unfold. destruct (starts quote s) as [s1|] eqn:Eq; [|discriminate]. apply starts_spec in Eq as ->. cbn [List.length] in N, L.
    pose proof (scan_string_plain (List.length s1) s1 ltac:(lia)) as Sp. destruct (scan_string s1) as [[b s2]|[f p]]; [|discriminate]. symmetry in Sp. apply read_string_shorter in Sp.
    apply Snd. intros st1. pose proof (skip_length s2) as L2. destruct (starts ":" (skip s2)) as [s3|] eqn:E3; [|discriminate]. apply starts_spec in E3. rewrite E3 in L2. cbn [List.length] in L2.
    pose proof (skip_length s3) as L3. pose proof (IHv k st1 (skip s3) ltac:(lia) ltac:(lia)) as V.
    destruct (drive_value nearest handle n k st1 (skip s3)) as [st2 r| | | | |] eqn:E; try discriminate; [|now destruct V].
    apply passed_rest in E as (w & Ew & Nw); [|apply (proj1 (not_deep nearest n)); lia]. rewrite Ew, app_length in L3. destruct w as [|x w]; [now destruct Nw|]. cbn [List.length] in L3.
    pose proof (skip_length r) as Lr. destruct (starts "," (skip r)) as [r'|] eqn:Ec; [|destruct (starts "}" (skip r)); [apply Snd; discriminate|discriminate]].
    apply starts_spec in Ec. rewrite Ec in Lr. cbn [List.length] in Lr. pose proof (skip_length r'). apply IHf; lia.
Qed.

Lemma text_never_exhausted : forall k st str, String.length str <= k -> drive_text nearest handle k st str <> Exhausted.
Proof.
  intros k st str L.
  assert (C : List.length (list_ascii_of_string (c_string str)) <= String.length str).
  { clear. induction str as [|a str IH]; [reflexivity|]. cbn [c_string]. destruct (Ascii.eqb a Ascii.zero); cbn [list_ascii_of_string List.length String.length]; lia. }
  unfold drive_text. pose proof (skip_length (list_ascii_of_string (c_string str))) as Ls.
  destruct (skip (list_ascii_of_string (c_string str))) as [|c s]; [discriminate|].
  pose proof (proj1 (never_exhausted (2 * List.length (c :: s) + 2)) k st (c :: s) ltac:(lia) ltac:(lia)) as V.
  destruct (drive_value nearest handle _ k st (c :: s)) as [st1 r| | | | |]; try discriminate; [|now destruct V]. destruct (skip r); discriminate.
Qed.
End Short.

(** ** Brackets *)

Lemma brackets_deep : forall n m k, k < n -> 2 * n < m -> forall st,
  drive_value nearest document_handler m k st (repeat "[" n) = Exhausted.
Proof.
  induction n as [|n IH]; intros m k K M st; [lia|]. destruct m as [|m]; [lia|]. cbn [repeat]. rewrite drive_value_unfold. cbn [Ascii.eqb Bool.eqb quote].
  destruct k as [|k]; [reflexivity|]. unfold send. cbn [document_handler]. destruct n as [|n]; [lia|].
  cbn [repeat skip is_space Ascii.eqb Bool.eqb orb starts]. destruct m as [|m]; [lia|]. rewrite drive_items_unfold.
  change ("[" :: repeat "[" n) with (repeat "[" (S n)). rewrite IH by lia. reflexivity.
Qed.
End Reader.

(** ** The handlers of the library *)

Definition container (h : handler) : nat := match h_kind h with KValue _ => 0 | _ => 1 end.

Definition containers (hs : list handler) : nat := list_sum (map container hs).

Definition change_of (ev : event) : Z :=
  match ev with EStartArray | EStartObject => 1 | EEndArray | EEndObject => -1 | _ => 0 end.

Section Machine.
Variable e : env.
Variable fuel : nat.
Variable fits : capacity.

Notation level s := (Z.of_nat (containers (stack s))).

Lemma emplace_level : forall k r s s', emplace fits k r s = POk s' -> containers (stack s') = container {| h_kind := k; h_ref := r |} + containers (stack s).
Proof. intros k r s s' H. unfold emplace in H. destruct (fits _ _); [|discriminate]. now injection H as <-. Qed.

Lemma construct_stack : forall t r s, stack (snd (construct e t r s)) = stack s.
Proof. induction t; intros r s; cbn; try reflexivity; rewrite IHt; reflexivity. Qed.

Lemma open_level : forall t r s s', open e fits t r s = POk s' ->
  containers (stack s') = containers (stack s) /\ exists r' hs, stack s' = {| h_kind := KValue (core t); h_ref := r' |} :: hs /\ containers hs = containers (stack s).
Proof.
  intros t r s s' H. unfold open in H.
  assert (X : (if fits (sizes (stack s)) (size_of (KValue (core t))) then let '(r, s) := construct e t r s in emplace fits (KValue (core t)) r s else POver) = POk s')
    by (destruct (core t); try discriminate H; exact H).
  clear H. destruct (fits _ _); [|discriminate]. pose proof (construct_stack t r s) as C. destruct (construct e t r s) as [r1 s1]. cbn [snd] in C.
  unfold emplace in X. destruct (fits _ _); [|discriminate]. injection X as <-. cbn [stack]. rewrite C. split; [reflexivity|]. now exists r1, (stack s).
Qed.

Lemma replace_level : forall k r s h hs s', stack s = h :: hs -> replace fits k r s = POk s' ->
  containers (stack s') = container {| h_kind := k; h_ref := r |} + containers hs.
Proof. intros k r s h hs s' E H. apply emplace_level in H. rewrite H. cbn. now rewrite E. Qed.

(** A handler for a value becomes a container, or is popped. *)
Lemma on_value_level : forall t r ev s h hs s', stack s = h :: hs -> container h = 0 -> on_value e fits t r ev s = POk s' ->
  Z.of_nat (containers (stack s')) = (Z.of_nat (containers hs) + change_of ev)%Z.
Proof.
  intros t r ev s h hs s' E C H.
  assert (R : forall k, container {| h_kind := k; h_ref := r |} = 1 -> forall s', replace fits k r s = POk s' -> Z.of_nat (containers (stack s')) = (Z.of_nat (containers hs) + 1)%Z).
  { intros k Ck s1 H1. apply (replace_level _ _ _ _ _ _ E) in H1. rewrite H1, Ck. lia. }
  assert (Sc : forall u, match scalar e u ev with SAssign v => POk (pop (ParseModel.put r v s)) | SStay v => POk (ParseModel.put r v s) | SReject => PFail s | SRejectAssign v => PFail (ParseModel.put r v s) | SUndefined => PUndef end = POk s' ->
     change_of ev = 0%Z /\ Z.of_nat (containers (stack s')) = Z.of_nat (containers hs)).
  { intros u Hu. assert (change_of ev = 0%Z) as -> by (destruct ev; try reflexivity; destruct u; discriminate Hu). split; [reflexivity|].
    destruct (scalar e u ev); try discriminate; injection Hu as <-; cbn; rewrite E; cbn; [reflexivity|]. unfold containers. cbn. rewrite C. reflexivity. }
  destruct t; cbn [on_value] in H; try discriminate H; try (apply Sc in H as [-> ->]; lia); destruct ev; try discriminate H; cbn [change_of]; try (now apply R in H).
  destruct (fast t); [now apply R in H|]. destruct (replace fits _ r s) as [s1| | | |] eqn:E1; try discriminate. injection H as <-. cbn. now apply R in E1.
Qed.

Lemma forward_level : forall ev t r s s', forward e fits ev (open e fits t r s) = POk s' -> level s' = (level s + change_of ev)%Z.
Proof.
  intros ev t r s s' H. destruct (open e fits t r s) as [s1| | | |] eqn:E; try discriminate. apply open_level in E as [_ (r1 & hs & E & C)].
  cbn [forward] in H. rewrite E in H. rewrite <- C. eapply on_value_level; [exact E|reflexivity|exact H].
Qed.

Lemma fast_item_level : forall u r add ev s s', fast_item e u r add ev s = POk s' -> level s' = (level s + change_of ev)%Z.
Proof.
  intros u r add ev s s' H. unfold fast_item in H. destruct (scalar e u ev) eqn:E; try discriminate. injection H as <-. cbn [ParseModel.put stack].
  assert (change_of ev = 0%Z) as -> by (destruct ev; try reflexivity; destruct u; discriminate E). lia.
Qed.

(** Each event changes the number of containers by the brackets that it opens or closes. *)
Lemma step_level : forall ev s s', step e fuel fits ev s = POk s' -> level s' = (level s + change_of ev)%Z.
Proof.
  intros ev s s' H. unfold step in H. destruct (stack s) as [|h hs] eqn:E; [discriminate|]. rewrite <- E.
  assert (P : forall s1, container h = 1 -> POk (pop s) = POk s1 -> level s1 = (level s + -1)%Z).
  { intros s1 K H1. injection H1 as <-. cbn. rewrite E. unfold containers. cbn [map list_sum fold_right tl]. rewrite K. unfold list_sum. lia. }
  assert (F : forall t r s0, stack s0 = stack s -> forward e fits ev (open e fits t r s0) = POk s' -> level s' = (level s + change_of ev)%Z).
  { intros t r s0 E0 H0. apply forward_level in H0. now rewrite E0 in H0. }
  destruct (h_kind h) as [t|u|u id|u|u|c|i ts] eqn:K.
  - assert (C : container h = 0) by (unfold container; now rewrite K). rewrite (on_value_level _ _ _ _ h hs _ E C H).
    rewrite E. unfold containers. cbn [map list_sum fold_right]. now rewrite C.
  - assert (C : container h = 1) by (unfold container; now rewrite K). unfold on_vector in H. cbv zeta in H.
    destruct ev; try (now apply P in H); (destruct (fast u); [now apply fast_item_level in H|]; destruct (is_json_type u _); [|discriminate]; eapply F; [|exact H]; reflexivity).
  - assert (C : container h = 1) by (unfold container; now rewrite K). unfold on_set in H. cbv zeta in H.
    destruct ev; try (destruct (is_json_type u _); [|discriminate]; eapply F; [|exact H]; reflexivity).
    injection H as <-. cbn. rewrite E. unfold containers. cbn [map list_sum fold_right tl]. rewrite C. unfold list_sum. lia.
  - assert (C : container h = 1) by (unfold container; now rewrite K). unfold on_fast_set in H.
    destruct ev; try (now apply P in H); now apply fast_item_level in H.
  - assert (C : container h = 1) by (unfold container; now rewrite K). unfold on_map in H.
    destruct ev; try discriminate H; [|now apply P in H]. apply open_level in H as [H _]. cbn [ParseModel.put stack] in H. rewrite H. cbn. lia.
  - assert (C : container h = 1) by (unfold container; now rewrite K). unfold on_object in H.
    destruct ev; try discriminate H; [|now apply P in H]. cbv zeta in H. destruct (DispatchModel.dispatch _ _ _) as [[i|]| |]; try discriminate H.
    destruct (nth_error _ i) as [m|]; [|discriminate]. cbn [change_of]. unfold open_member in H.
    assert (O : forall t r s2, stack s2 = stack s -> open e fits t r s2 = POk s' -> level s' = (level s + 0)%Z).
    { intros t r s2 E0 H0. apply open_level in H0 as [H0 _]. rewrite E0 in H0. lia. }
    destruct (m_kind m); try (now eapply O; [|exact H]).
    destruct (core (m_ty m)); try discriminate H; (destruct (fits _ _); [|discriminate H]; eapply O; [|exact H]; reflexivity).
  - assert (C : container h = 1) by (unfold container; now rewrite K). unfold on_fixed in H.
    destruct ts as [|t ts]; [destruct ev; try discriminate H; now apply P in H|].
    assert (G : match replace fits (KFixed (S i) ts) (h_ref h) s with POk s0 => forward e fits ev (open e fits t (into (h_ref h) (SItem i)) s0) | x => x end = POk s' ->
      level s' = (level s + change_of ev)%Z).
    { intros H0. destruct (replace fits _ (h_ref h) s) as [s0| | | |] eqn:R; try discriminate. apply (replace_level _ _ _ _ _ _ E) in R.
      apply forward_level in H0. rewrite H0. rewrite E. unfold containers at 2. cbn [map list_sum fold_right]. rewrite C.
      replace (containers (stack s0)) with (1 + containers hs) by (rewrite R; reflexivity). unfold containers, list_sum. lia. }
    destruct ev; try discriminate H; now apply G in H.
Qed.

(** ** The stack of handlers is limited *)

Definition at_most (n : nat) : Prop := forall used size, fits used size = true -> List.length used < n.

Variable n : nat.
Hypothesis limit : at_most n.

Lemma emplace_length : forall k r s s', emplace fits k r s = POk s' -> List.length (stack s') <= n.
Proof.
  intros k r s s' H. unfold emplace in H. destruct (fits _ _) eqn:F; [|discriminate]. injection H as <-. cbn. apply limit in F. unfold sizes in F. rewrite map_length in F. lia.
Qed.

Lemma open_length : forall t r s s', open e fits t r s = POk s' -> List.length (stack s') <= n.
Proof.
  intros t r s s' H. unfold open in H. destruct (core t); try discriminate H; (destruct (fits _ _); [|discriminate]); destruct (construct e t r s); now apply emplace_length in H.
Qed.

Lemma on_value_length : forall t r ev s s', List.length (stack s) <= n -> on_value e fits t r ev s = POk s' -> List.length (stack s') <= n.
Proof.
  intros t r ev s s' L H.
  assert (Sc : forall u, match scalar e u ev with SAssign v => POk (pop (ParseModel.put r v s)) | SStay v => POk (ParseModel.put r v s) | SReject => PFail s | SRejectAssign v => PFail (ParseModel.put r v s) | SUndefined => PUndef end = POk s' ->
     List.length (stack s') <= n).
  { intros u Hu. destruct (scalar e u ev); try discriminate; injection Hu as <-; cbn; [|exact L]. destruct (stack s); cbn in *; lia. }
  destruct t; cbn [on_value] in H; try discriminate H; try (now apply Sc in H); destruct ev; try discriminate H; try (now apply emplace_length in H).
  destruct (fast t); [now apply emplace_length in H|]. destruct (replace fits _ r s) eqn:E; try discriminate. injection H as <-. cbn. now apply emplace_length in E.
Qed.

Lemma forward_length : forall ev t r s s', forward e fits ev (open e fits t r s) = POk s' -> List.length (stack s') <= n.
Proof.
  intros ev t r s s' H. destruct (open e fits t r s) as [s1| | | |] eqn:E; try discriminate. apply open_length in E. cbn [forward] in H.
  destruct (stack s1) as [|[[] r1] hs] eqn:E1; try discriminate. eapply on_value_length; [|exact H]. now rewrite E1.
Qed.

Lemma step_length : forall ev s s', List.length (stack s) <= n -> step e fuel fits ev s = POk s' -> List.length (stack s') <= n.
Proof.
  intros ev s s' L H. unfold step in H. destruct (stack s) as [|h hs] eqn:E; [discriminate|]. rewrite <- E in L.
  assert (P : List.length (stack (pop s)) <= n) by (cbn; rewrite E in *; cbn in *; lia).
  assert (Fi : forall u r add, fast_item e u r add ev s = POk s' -> List.length (stack s') <= n).
  { intros u r add H0. unfold fast_item in H0. destruct (scalar e u ev); try discriminate. injection H0 as <-. exact L. }
  destruct (h_kind h) as [t|u|u id|u|u|c|i ts].
  - eapply on_value_length; [exact L|exact H].
  - unfold on_vector in H. cbv zeta in H. destruct ev; try (injection H as <-; exact P); (destruct (fast u); [now apply Fi in H|]; destruct (is_json_type u _); [|discriminate]; now apply forward_length in H).
  - unfold on_set in H. cbv zeta in H. destruct ev; try (destruct (is_json_type u _); [|discriminate]; now apply forward_length in H). injection H as <-. exact P.
  - unfold on_fast_set in H. destruct ev; try (injection H as <-; exact P); now apply Fi in H.
  - unfold on_map in H. destruct ev; try discriminate H; [now apply open_length in H|injection H as <-; exact P].
  - unfold on_object in H. destruct ev; try discriminate H; [|injection H as <-; exact P]. cbv zeta in H. destruct (DispatchModel.dispatch _ _ _) as [[i|]| |]; try discriminate H.
    destruct (nth_error _ i) as [m|]; [|discriminate]. unfold open_member in H. destruct (m_kind m); try (now apply open_length in H).
    destruct (core (m_ty m)); try discriminate H; (destruct (fits _ _); [|discriminate H]; now apply open_length in H).
  - unfold on_fixed in H. destruct ts as [|t ts]; [destruct ev; try discriminate H; injection H as <-; exact P|].
    destruct ev; try discriminate H; (destruct (replace fits _ (h_ref h) s); try discriminate; now apply forward_length in H).
Qed.

Lemma containers_length : forall hs, containers hs <= List.length hs.
Proof. induction hs as [|h hs IH]; [reflexivity|]. unfold containers in *. cbn. unfold container at 1. destruct (h_kind h); unfold list_sum in *; lia. Qed.

(** With one level more than handlers the reader never runs out of levels. *)
Lemma machine_levels : forall evs k s, List.length (stack s) <= n -> S n <= k + containers (stack s) ->
  feed (machine e fuel fits) evs k s <> FDeep.
Proof.
  induction evs as [|ev evs IH]; intros k s L K; [discriminate|]. cbn [feed]. pose proof (containers_length (stack s)) as C.
  assert (G : forall k', (Z.of_nat k' = Z.of_nat k - change_of ev)%Z ->
    match feed_one (machine e fuel fits) ev s k' with Kept k1 s1 => feed (machine e fuel fits) evs k1 s1 | x => x end <> FDeep).
  { intros k' E. unfold feed_one, machine. destruct (step e fuel fits ev s) as [s1| | | |] eqn:Es; try discriminate.
    apply IH; [now apply step_length in Es|]. apply step_level in Es. lia. }
  destruct ev; cbn [feed_event]; try (apply G; cbn [change_of]; lia); (destruct k as [|k]; [lia|]; apply G; cbn [change_of]; lia).
Qed.
End Machine.

(** The machine that is given the events one by one, and all at once. *)
Lemma feed_runs : forall e fuel fits evs k s, feed (machine e fuel fits) evs k s = FDeep \/
  match run e fuel fits evs s with
  | POk s' => exists k', feed (machine e fuel fits) evs k s = Kept k' s'
  | PFail s' => feed (machine e fuel fits) evs k s = FRefused s'
  | x => feed (machine e fuel fits) evs k s = FLeft x
  end.
Proof.
  intros e fuel fits. induction evs as [|ev evs IH]; intros k s; [right; now exists k|]. cbn [feed run].
  assert (G : forall k', feed_event (machine e fuel fits) ev k s = feed_one (machine e fuel fits) ev s k' ->
    match feed_event (machine e fuel fits) ev k s with Kept k1 s1 => feed (machine e fuel fits) evs k1 s1 | x => x end = FDeep \/
    match (match step e fuel fits ev s with POk s' => run e fuel fits evs s' | x => x end) with
    | POk s' => exists k', match feed_event (machine e fuel fits) ev k s with Kept k1 s1 => feed (machine e fuel fits) evs k1 s1 | x => x end = Kept k' s'
    | PFail s' => match feed_event (machine e fuel fits) ev k s with Kept k1 s1 => feed (machine e fuel fits) evs k1 s1 | x => x end = FRefused s'
    | x => match feed_event (machine e fuel fits) ev k s with Kept k1 s1 => feed (machine e fuel fits) evs k1 s1 | x => x end = FLeft x
    end).
  { intros k' ->. unfold feed_one, machine. destruct (step e fuel fits ev s) as [s1| | | |]; [apply IH|now right..]. }
  destruct ev; try (eapply G; reflexivity); (destruct k as [|k]; [now left|eapply G; reflexivity]).
Qed.

(** How parse ends, without codes and positions. *)
Definition result (x : ending) : option parsed :=
  match x with
  | Filled v => Some (Parsed true v)
  | Fault _ _ v | Refusal _ v => Some (Parsed false v)
  | Overflow => Some OutOfSpace
  | Undefined => Some ParseUndef
  | Uncompiled => Some ParseOutside
  | StackExhausted => None
  end.

Lemma parse_text_same : forall nearest e fuel fits k t str obj, parse_text nearest e fuel fits k t str obj <> StackExhausted ->
  result (parse_text nearest e fuel fits k t str obj) = Some (parse_string_into nearest e fuel fits t str obj).
Proof.
  intros nearest e fuel fits k t str obj N. unfold parse_text, parse_string_into, parse_into, parse_events in *.
  pose proof (fun s => drive_text_reads nearest (machine e fuel fits) k s str) as D. pose proof (read_not_deep nearest str) as RD.
  destruct (open e fits t root_place (initial obj)) as [s| | | |]; [|destruct (read_text nearest str); try reflexivity; now destruct RD..].
  specialize (D s). destruct (read_text nearest str) as [j r|evs|]; [| |now destruct RD]; cbn [expected] in D.
  - pose proof (feed_runs e fuel fits (events j) k s) as [F|F].
    + rewrite F in D. destruct (drive_text _ _ k s str); try discriminate D. now destruct N.
    + destruct (run e fuel fits (events j) s); try (rewrite F in D; destruct (drive_text _ _ k s str); try discriminate D; cbn in D; injection D as ->; reflexivity).
      destruct F as (k' & F). rewrite F in D. destruct (drive_text _ _ k s str); try discriminate D. cbn in D. injection D as -> ->. reflexivity.
  - pose proof (feed_runs e fuel fits evs k s) as [F|F].
    + rewrite F in D. destruct (drive_text _ _ k s str); try discriminate D. now destruct N.
    + destruct (run e fuel fits evs s); try (rewrite F in D; destruct (drive_text _ _ k s str); try discriminate D; cbn in D; injection D as ->; reflexivity).
      destruct F as (k' & F). rewrite F in D. destruct (drive_text _ _ k s str); try discriminate D. cbn in D. injection D as ->. reflexivity.
Qed.

Lemma parse_text_bounded : forall nearest e fuel fits n k t str obj, at_most fits n -> n < k -> parse_text nearest e fuel fits k t str obj <> StackExhausted.
Proof.
  intros nearest e fuel fits n k t str obj A K. unfold parse_text. destruct (open e fits t root_place (initial obj)) as [s| | | |] eqn:O; try discriminate.
  pose proof (open_length e fits n A _ _ _ _ O) as L. pose proof (drive_text_reads nearest (machine e fuel fits) k s str) as D.
  pose proof (fun evs => machine_levels e fuel fits n A evs k s L ltac:(lia)) as M.
  destruct (read_text nearest str) as [j r|evs|]; cbn [expected] in D.
  - specialize (M (events j)). destruct (feed _ _ k s); try congruence; destruct (drive_text _ _ k s str) as [| | |[]| |]; discriminate.
  - specialize (M evs). destruct (feed _ _ k s); try congruence; destruct (drive_text _ _ k s str) as [| | |[]| |]; discriminate.
  - destruct (drive_text _ _ k s str) as [| | |[]| |]; discriminate.
Qed.

(** polymorphic_stack.hpp:26: at most 128 handlers. *)
Lemma real_at_most : at_most real_capacity 128.
Proof.
  intros used size H. unfold real_capacity in H. apply negb_true_iff, orb_false_iff in H as [H _]. now apply Nat.leb_gt in H.
Qed.
