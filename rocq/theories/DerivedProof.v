(** Consequences for the properties of the writer. *)
From Coq Require Import List Arith ZArith NArith Ascii String Bool Lia Permutation.
From Verif Require Import Base Float Base64Model DatetimeModel EnumModel RefsModel RefsProof Json PathModel Types
  SerializeModel Events WriteModel WriteSpec NeverProof WriteProof FiniteProof OutsideProof.
Import ListNotations.

Lemma same_text : forall render e t v str, finite v = true ->
  match serialize_to_document e t v with
  | SOk _ j => write_to_string render e t v str = Some (true, document_to_string render j)
  | SFail _ => False
  | SUndef => write_to_string render e t v str = None
  end.
Proof.
  intros render e t v str F. unfold write_to_string, write_events, serialize_to_document, document_to_string.
  pose proof (writer_agrees e v t (or_intror F) [] []) as A.
  pose proof (proj1 (finite_writes e v F) t [] []) as N.
  destruct (wr e v t [] []) as [[|] tab evs|]; cbn in A.
  - destruct A as (j & -> & ->). reflexivity.
  - destruct (N tab evs eq_refl).
  - rewrite A. reflexivity.
Qed.

Lemma success_same_text : forall render e t v str str', no_bases e ->
  write_to_string render e t v str = Some (true, str') ->
  exists tab j, serialize_to_document e t v = SOk tab j /\ str' = document_to_string render j.
Proof.
  intros render e t v str str' B E. unfold write_to_string, write_events in E.
  pose proof (writer_agrees e v t (or_introl B) [] []) as A.
  destruct (wr e v t [] []) as [[|] tab evs|]; try discriminate. injection E as <-.
  destruct A as (j & S & ->). unfold serialize_to_document. eauto.
Qed.

Lemma undefined_alike : forall render e t v str, no_bases e ->
  write_to_string render e t v str = None -> serialize_to_document e t v = SUndef.
Proof.
  intros render e t v str B E. unfold write_to_string, write_events in E.
  pose proof (writer_agrees e v t (or_introl B) [] []) as A.
  destruct (wr e v t [] []) as [[|] tab evs|]; try discriminate. exact A.
Qed.

Lemma write_flag : forall H render e t v str ok str', fair e -> no_bases e -> in_heap H v ->
  write_to_string render e t v str = Some (ok, str') -> ok = finite v /\ (ok = false -> str' = str).
Proof.
  intros H render e t v str ok str' Fa B HV E. unfold write_to_string in E.
  destruct (write_events e t v) as [[|] tab evs|] eqn:W; try discriminate; injection E as <- <-.
  - split; [|discriminate]. destruct (write_says H e Fa v t tab evs HV W) as [[F _]|[_ N]]; [now rewrite F|].
    destruct N. unfold write_events in W. pose proof (writer_agrees e v t (or_introl B) [] []) as A. rewrite W in A.
    destruct A as (j & _ & ->). apply run_events. reflexivity.
  - split; [|reflexivity]. destruct (finite v) eqn:F; [|reflexivity].
    destruct (proj1 (finite_writes e v F) t [] [] tab evs W).
Qed.

Lemma derived_fails : forall H e c l, fair e -> in_heap H (VObj l) ->
  forallb finite (firstn (c_root (class_of e c)) l) = true -> finite (VObj l) = false ->
  match write_events e (TClass c) (VObj l) with
  | WRet ok _ evs => ok = true /\ ~ well_formed evs
  | WUndef => True
  end.
Proof.
  intros H e c l Fa HV B F. destruct (write_events e (TClass c) (VObj l)) as [[|] tab evs|] eqn:W; [| |exact I].
  - split; [reflexivity|]. destruct (write_says H e Fa _ _ tab evs HV W) as [[X _]|[_ N]]; [congruence|exact N].
  - destruct (root_object e c l [] [] tab evs B W).
Qed.

Lemma outside_flag : forall H e t v, fair e -> in_heap H v ->
  match serialize_to_document e t v with
  | SOk _ _ => finite_outside v = true
  | SFail _ => finite_outside v = false
  | SUndef => True
  end.
Proof.
  intros H e t v Fa HV. pose proof (outside_says H e Fa v t HV) as S.
  destruct (serialize_to_document e t v); cbn in S; [apply S|apply S|exact I].
Qed.

Lemma members_written : forall H e c l, fair e -> in_heap H (VObj l) ->
  match serialize_to_document e (TClass c) (VObj l) with
  | SOk _ j => exists o, j = JObj o /\
      map fst o = map fst (filter (fun p => written (snd p)) (combine (map m_name (c_members (class_of e c))) l))
  | SFail _ => False
  | SUndef => True
  end.
Proof.
  intros H e c l Fa HV. pose proof (outside_says H e Fa (VObj l) (TClass c) HV) as S.
  destruct (serialize_to_document e (TClass c) (VObj l)) as [tab j|tab|] eqn:E; [|cbn in S; destruct S; discriminate|exact I].
  apply (members_kept H e Fa c l [] [] tab j HV); [|exact E]. intros a s X. discriminate.
Qed.
