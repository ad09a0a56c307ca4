(** Reading any text, also one that is not JSON, is as defined as reading a document. *)
From Coq Require Import List Arith ZArith Ascii String Bool Lia.
From Verif Require Import Base Float Json Events Types ParseModel ParseRead ParseSpec ParseStack MergeSpec SerializeModel DeserializeModel TextModel
  TextProof SafetySpec SafetyProof.
Import ListNotations.

Section Prefix.
Variable nearest : list ascii -> option fl.

(** The events before an error are the first events of some document. *)
Definition cut (x : TextModel.rres json) : Prop :=
  match x with RErr evs => exists j rest, events j = evs ++ rest | _ => True end.

Lemma cut_nothing : cut (RErr []).
Proof. now exists JNull, (events JNull). Qed.

Lemma cut_items : forall l evs, (exists j rest, events j = evs ++ rest) -> cut (RErr (EStartArray :: flat_map events l ++ evs)).
Proof.
  intros l evs (j & rest & E). exists (JArr (l ++ [j])), (rest ++ [EEndArray]). cbn [events].
  rewrite flat_map_app. cbn [flat_map]. rewrite E. cbn [app]. now rewrite app_nil_r, <- !app_assoc.
Qed.

Lemma cut_fields : forall l k evs, (exists j rest, events j = evs ++ rest) ->
  cut (RErr ((EStartObject :: flat_map (fun p => EKey (fst p) :: events (snd p)) l) ++ EKey k :: evs)).
Proof.
  intros l k evs (j & rest & E). exists (JObj (l ++ [(k, j)])), (rest ++ [EEndObject]). cbn [events].
  rewrite flat_map_app. cbn [flat_map fst snd]. rewrite E. cbn [app]. rewrite app_nil_r, <- !app_assoc. cbn [app]. now rewrite <- app_assoc.
Qed.

Lemma cuts : forall n, (forall s, cut (read_value nearest n s)) /\ (forall acc s, cut (TextModel.read_items nearest n acc s)) /\
  (forall acc s, cut (read_fields nearest n acc s)).
Proof.
  assert (N : exists j rest, events j = [] ++ rest) by now exists JNull, (events JNull).
  assert (B : forall acc, cut (RErr (EStartObject :: flat_map (fun p => EKey (fst p) :: events (snd p)) acc))).
  { intros acc. exists (JObj acc), [EEndObject]. reflexivity. }
  induction n as [|n (IHv & IHi & IHf)]; [repeat split|]. split; [|split].
  - intros [|c s]; [exact N|]. rewrite value_unfold. unfold literal.
    destruct (Ascii.eqb c "n"); [destruct (expect _ s); [exact I|exact N]|].
    destruct (Ascii.eqb c "t"); [destruct (expect _ s); [exact I|exact N]|].
    destruct (Ascii.eqb c "f"); [destruct (expect _ s); [exact I|exact N]|].
    destruct (Ascii.eqb c quote); [destruct (read_string s) as [[? ?]|]; [exact I|exact N]|].
    destruct (Ascii.eqb c "["); [destruct (starts "]" (skip s)); [exact I|apply IHi]|].
    destruct (Ascii.eqb c "{"); [destruct (starts "}" (skip s)); [exact I|apply IHf]|].
    destruct (read_number nearest (c :: s)) as [[? ?]|]; [exact I|exact N].
  - intros acc s. rewrite items_unfold. specialize (IHv s). destruct (read_value nearest n s) as [j r|evs|]; [|now apply cut_items|exact I].
    destruct (starts "," (skip r)); [apply IHi|]. destruct (starts "]" (skip r)); [exact I|].
    exists (JArr (acc ++ [j])), [EEndArray]. reflexivity.
  - intros acc s. rewrite fields_unfold. cbv zeta. destruct (starts quote s) as [s1|]; [|apply B].
    destruct (read_string s1) as [[b s2]|]; [|apply B]. destruct (starts ":" (skip s2)) as [s3|]; [|now apply cut_fields].
    specialize (IHv (skip s3)). destruct (read_value nearest n (skip s3)) as [j r|evs|]; [|now apply cut_fields|exact I].
    destruct (starts "," (skip r)); [apply IHf|]. destruct (starts "}" (skip r)); [exact I|].
    apply cut_fields. exists j, []. now rewrite app_nil_r.
Qed.

Lemma read_text_cut : forall str, cut (read_text nearest str).
Proof.
  intros str. unfold read_text. destruct (skip _) as [|c s]; [apply cut_nothing|].
  pose proof (proj1 (cuts (2 * List.length (c :: s) + 2)) (c :: s)) as C. destruct (read_value nearest _ (c :: s)) as [j r|evs|]; [|exact C|exact I].
  destruct (skip r); [exact I|]. exists j, []. now rewrite app_nil_r.
Qed.

Lemma timely_not_late : forall e t j, timely e t -> ~ late e t j.
Proof.
  intros e t j [R|[N1 N2]]; [now apply roomy_not_late|]. intros (s & _ & [[H _]|[H _]]); contradiction.
Qed.

Lemma parse_document_safe : forall e fuel fits t j obj, routed e fuel -> peopled e t -> shaped_classes e -> shaped e t obj ->
  timely e t -> no_pointer e t -> no_variant e t ->
  (exists s, parse_events e fuel fits t obj (events j) = POk s) \/ (exists s, parse_events e fuel fits t obj (events j) = PFail s) \/
  parse_events e fuel fits t obj (events j) = POver.
Proof.
  intros e fuel fits t j obj Ro Pe Sc Sh Ti Np Nv. pose proof (parse_safe e fuel fits t j obj Ro Pe Sc Sh) as H. unfold parse_into in H.
  destruct (parse_events e fuel fits t obj (events j)) as [s|s| | |] eqn:E; eauto.
  - exfalso. now apply (timely_not_late e t j).
  - exfalso. destruct H as [[u H]|[ts H]]; [now apply Np in H|now apply Nv in H].
Qed.

Lemma parse_cut_safe : forall e fuel fits t evs rest obj,
  (exists s, parse_events e fuel fits t obj (evs ++ rest) = POk s) \/ (exists s, parse_events e fuel fits t obj (evs ++ rest) = PFail s) \/
    parse_events e fuel fits t obj (evs ++ rest) = POver ->
  (exists s, parse_events e fuel fits t obj evs = POk s) \/ (exists s, parse_events e fuel fits t obj evs = PFail s) \/
    parse_events e fuel fits t obj evs = POver.
Proof.
  intros e fuel fits t evs rest obj. unfold parse_events. destruct (open _ _ _ _ _) as [s|s| | |]; try (rewrite run_app); auto.
  destruct (run e fuel fits evs s) as [s'|s'| | |]; eauto.
Qed.

Theorem parse_text_safe : forall e fuel fits t str obj, routed e fuel -> peopled e t -> shaped_classes e -> shaped e t obj ->
  timely e t -> no_pointer e t -> no_variant e t ->
  parse_string_into nearest e fuel fits t str obj = OutOfSpace \/
  exists ok v, parse_string_into nearest e fuel fits t str obj = Parsed ok v.
Proof.
  intros e fuel fits t str obj Ro Pe Sc Sh Ti Np Nv. unfold parse_string_into. pose proof (read_text_cut str) as C.
  pose proof (read_not_deep nearest str) as D. destruct (read_text nearest str) as [j r|evs|]; [| |now destruct D].
  - unfold parse_into. destruct (parse_document_safe e fuel fits t j obj Ro Pe Sc Sh Ti Np Nv) as [[s ->] | [[s ->] | ->]]; eauto.
  - destruct C as (j & rest & E). pose proof (parse_document_safe e fuel fits t j obj Ro Pe Sc Sh Ti Np Nv) as H. rewrite E in H.
    apply parse_cut_safe in H as [[s ->] | [[s ->] | ->]]; eauto.
Qed.

Theorem document_safe : forall e t j obj, no_pointer e t -> ~ late e t j -> ~ astray e t j ->
  deserialize e t j obj <> DUndef /\ deserialize e t j obj <> DOutside.
Proof.
  intros e t j obj N L A. pose proof (deserialize_safe e t j obj) as H. split; intros E; rewrite E in H; [tauto|]. destruct H as [u H]. now apply N in H.
Qed.

Theorem document_throw_safe : forall e t j, no_pointer e t -> ~ late e t j -> ~ astray e t j ->
  deserialize_throw e t j <> TUndef /\ deserialize_throw e t j <> TOutside.
Proof.
  intros e t j N L A. pose proof (throwing_safe e t j) as H. split; intros E; rewrite E in H; [tauto|]. destruct H as [u H]. now apply N in H.
Qed.

Theorem text_safe : forall e t str obj, no_pointer e t ->
  (forall j, TextSpec.json_text nearest (c_string str) j -> ~ late e t j /\ ~ astray e t j) ->
  deserialize_string nearest e t str obj <> DUndef /\ deserialize_string nearest e t str obj <> DOutside.
Proof.
  intros e t str obj Np H. unfold deserialize_string, string_to_document. destruct (read_text nearest str) as [j r|evs|] eqn:E; try (split; discriminate).
  apply read_exactly in E as [_ E]. destruct (H j E) as [L A]. now apply document_safe.
Qed.

Theorem text_throw_safe : forall e t str, no_pointer e t ->
  (forall j, TextSpec.json_text nearest (c_string str) j -> ~ late e t j /\ ~ astray e t j) ->
  deserialize_string_throw nearest e t str <> Document TUndef /\ deserialize_string_throw nearest e t str <> Document TOutside.
Proof.
  intros e t str Np H. unfold deserialize_string_throw, string_to_document. destruct (read_text nearest str) as [j r|evs|] eqn:E; try (split; discriminate).
  apply read_exactly in E as [_ E]. destruct (H j E) as [L A]. destruct (document_throw_safe e t j Np L A). split; congruence.
Qed.
End Prefix.
