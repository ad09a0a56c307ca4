(** All numbers that are sent while a text is read, also before an error, are doubles or
    integers. *)
From Coq Require Import List Arith ZArith NArith Ascii String Bool Lia.
From Verif Require Import Base Float NumericModel Json Events DeserializeModel TextModel TextProof RewriteSpec ValidParse.
Import ListNotations.

Section Reader.
Variable nearest : list ascii -> option fl.
Hypothesis nearest_double : forall s f, nearest s = Some f -> in_format binary64 f = true.

Definition sends (x : rres json) : Prop :=
  match x with ROk j _ => Forall double_event (events j) | RErr evs => Forall double_event evs | RDeep => True end.

Lemma literal_sends : forall word j s, Forall double_event (events j) -> sends (literal word j s).
Proof. intros word j s F. unfold literal. destruct (expect _ _); cbn; auto. Qed.

Lemma number_sends : forall s j r, read_number nearest s = Some (j, r) -> Forall double_event (events j).
Proof.
  intros s j r N. unfold read_number in N. destruct (match starts "-" s with Some s' => (["-"%char], s') | None => ([], s) end) as [minus s1].
  destruct (read_int_part s1) as [[ds s2]|]; [|discriminate]. destruct (read_fraction s2) as [[frac s3]|]; [|discriminate]. destruct (read_exponent s3) as [[ex s4]|]; [|discriminate].
  assert (D : forall x, match nearest x with Some f => Some (JDbl f, s4) | None => None end = Some (j, r) -> Forall double_event (events j)).
  { intros x E. destruct (nearest x) eqn:Ex; [|discriminate]. injection E as <- <-. constructor; [exact (nearest_double _ _ Ex)|constructor]. }
  cbv zeta in N. destruct frac; [destruct ex; [destruct (_ && _)%bool; [injection N as <- <-; repeat constructor|]|]|]; eauto.
Qed.

Lemma items_events : forall l, Forall double_event (flat_map events l) <-> Forall (fun j => Forall double_event (events j)) l.
Proof. induction l as [|j l IH]; cbn; [split; constructor|]. rewrite Forall_app, IH, Forall_cons_iff. reflexivity. Qed.

Lemma fields_events : forall l : list (string * json), Forall double_event (flat_map (fun p => EKey (fst p) :: events (snd p)) l) <-> Forall (fun p => Forall double_event (events (snd p))) l.
Proof. induction l as [|j l IH]; cbn; [split; constructor|]. rewrite !Forall_cons_iff, Forall_app, IH. cbn. tauto. Qed.

Lemma reads_send : forall n, (forall s, sends (read_value nearest n s)) /\
  (forall acc s, Forall (fun j => Forall double_event (events j)) acc -> sends (read_items nearest n acc s)) /\
  (forall acc s, Forall (fun p => Forall double_event (events (snd p))) acc -> sends (read_fields nearest n acc s)).
Proof.
  induction n as [|n (IHv & IHi & IHf)]; [repeat split; intros; exact I|]. split; [|split].
  - intros [|c s]; [constructor|]. rewrite value_unfold.
    repeat match goal with |- sends (if ?b then _ else _) => destruct b end; try (apply literal_sends; repeat constructor; fail).
    + destruct (read_string s) as [[b r]|]; repeat constructor.
    + destruct (starts _ _); [repeat constructor|]. apply IHi. constructor.
    + destruct (starts _ _); [repeat constructor|]. apply IHf. constructor.
    + destruct (read_number nearest (c :: s)) as [[j r]|] eqn:E; [|constructor]. cbn. eapply number_sends; eauto.
  - intros acc s F. rewrite items_unfold. specialize (IHv s). destruct (read_value nearest n s) as [j r|evs|]; [| |exact I].
    + cbn in IHv. assert (G : Forall (fun j => Forall double_event (events j)) (acc ++ [j])) by (apply Forall_app; auto).
      destruct (starts "," (skip r)); [now apply IHi|]. destruct (starts "]" (skip r)); cbn [sends events]; (constructor; [exact I|]); [apply Forall_app; split; [|repeat constructor]|]; now apply items_events.
    + cbn [sends] in *. constructor; [exact I|]. apply Forall_app. split; [now apply items_events|exact IHv].
  - intros acc s F. rewrite fields_unfold. cbv zeta.
    assert (B : Forall double_event (EStartObject :: flat_map (fun p => EKey (fst p) :: events (snd p)) acc)) by (constructor; [exact I|now apply fields_events]).
    destruct (starts quote s) as [s1|]; [|exact B]. destruct (read_string s1) as [[b s2]|]; [|exact B].
    destruct (starts ":" (skip s2)) as [s3|]; [|apply Forall_app; split; [exact B|repeat constructor]].
    specialize (IHv (skip s3)). destruct (read_value nearest n (skip s3)) as [j r|evs|]; [| |exact I].
    + cbn in IHv. assert (G : Forall (fun p => Forall double_event (events (snd p))) (acc ++ [(string_of_list_ascii b, j)])) by (apply Forall_app; auto).
      destruct (starts "," (skip r)); [now apply IHf|]. destruct (starts "}" (skip r)).
      * cbn [sends events]. constructor; [exact I|]. apply Forall_app. split; [now apply fields_events|repeat constructor].
      * apply Forall_app. split; [exact B|]. constructor; [exact I|exact IHv].
    + apply Forall_app. split; [exact B|]. constructor; [exact I|exact IHv].
Qed.

Lemma text_sends : forall str, sends (read_text nearest str).
Proof.
  intros str. unfold read_text. destruct (skip (list_ascii_of_string (c_string str))) as [|c s]; [constructor|].
  pose proof (proj1 (reads_send (2 * List.length (c :: s) + 2)) (c :: s)) as H. destruct (read_value nearest _ (c :: s)) as [j r|evs|]; [|exact H|exact I].
  destruct (skip r); exact H.
Qed.
End Reader.
