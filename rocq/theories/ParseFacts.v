(** Facts about the parser: its result by recursion over the document, and what acceptance
    depends on. *)
From Coq Require Import List Arith Lia ZArith NArith Ascii String Bool.
From Verif Require Import Base Float NumericModel HashModel DispatchModel Json Events Types SerializeModel DeserializeModel
  ParseModel ParseRead ParseSpec PlaceFacts ParseProof.
Import ListNotations.

Lemma parse_into_spec : forall e fuel fits t j obj, shaped_classes e -> shaped e t obj ->
  match ropen e fits [] t (pread e fuel fits j) obj 0 with
  | RDone v _ | ROpen v _ => parse_into e fuel fits t j obj = Parsed true v
  | RFail => exists w, parse_into e fuel fits t j obj = Parsed false w
  | ROver => parse_into e fuel fits t j obj = OutOfSpace
  | RUndef => parse_into e fuel fits t j obj = ParseUndef
  | ROutside => parse_into e fuel fits t j obj = ParseOutside
  end.
Proof.
  intros e fuel fits t j obj He Ho.
  pose proof (opened e fuel fits He j t obj 0 [obj] [] root_place [] (all_read e fuel fits He j) eq_refl Ho) as H.
  rewrite app_nil_r in H. cbn [sizes map] in H.
  assert (Hp : parse_events e fuel fits t obj (events j) = after (open e fits t root_place (st [obj] [] 0)) (run e fuel fits (events j))).
  { unfold parse_events, initial. fold (st [obj] [] 0). now destruct (open e fits t root_place (st [obj] [] 0)). }
  unfold parse_into. rewrite Hp.
  destruct (ropen e fits [] t (pread e fuel fits j) obj 0) as [v a|v a| | | |]; cbn [agrees] in H.
  - rewrite H. reflexivity.
  - destruct H as (names & r1 & w & y & -> & _ & H). rewrite H. reflexivity.
  - destruct H as (m' & hs & a & H & w & extra & ->). rewrite H. exists w. reflexivity.
  - now rewrite H.
  - now rewrite H.
  - now rewrite H.
Qed.

(** * Acceptance does not depend on the old value *)
Inductive verdict : Type := SDone | SOpen | SFail | SOver | SUndef | SOutside.

Definition verdict_of (x : rres) : verdict :=
  match x with
  | RDone _ _ => SDone
  | ROpen _ _ => SOpen
  | RFail => SFail
  | ROver => SOver
  | RUndef => SUndef
  | ROutside => SOutside
  end.

Section Verdict.
Variable e : env.
Variable fuel : nat.
Variable fits : capacity.

Definition steady (f : rdr) : Prop := forall below t old a old' a',
  verdict_of (f below t old a) = verdict_of (f below t old' a').

Lemma verdict_rmap : forall w x, verdict_of (rmap w x) = verdict_of x.
Proof. intros. now destruct x. Qed.

Lemma boxed_steady : forall k t, (forall x a x' a', verdict_of (k x a) = verdict_of (k x' a')) ->
  forall old a old' a', verdict_of (boxed e t old a k) = verdict_of (boxed e t old' a' k).
Proof.
  intros k t Hk. induction t; intros old a old' a'; cbn [boxed]; auto; rewrite !verdict_rmap; apply IHt.
Qed.

Lemma ropen_steady : forall f below t old a old' a', steady f ->
  verdict_of (ropen e fits below t f old a) = verdict_of (ropen e fits below t f old' a').
Proof.
  intros f below t old a old' a' Hf. unfold ropen. destruct (compiles t); auto. destruct (fits below _); auto.
  apply boxed_steady. intros. apply Hf.
Qed.

Lemma rmember_steady : forall f below m old a old' a', steady f ->
  verdict_of (rmember e fits below m f old a) = verdict_of (rmember e fits below m f old' a').
Proof.
  intros. unfold rmember. destruct (m_kind m); rewrite ?verdict_rmap; now apply ropen_steady.
Qed.

Lemma andthen_steady : forall x y k k', verdict_of x = verdict_of y ->
  (forall v a v' a', verdict_of (k v a) = verdict_of (k' v' a')) -> verdict_of (andthen x k) = verdict_of (andthen y k').
Proof. intros x y k k' H Hk. destruct x, y; cbn in *; try discriminate; auto. Qed.

Lemma ritems_steady : forall u below fs, Forall (fun p => steady (snd p)) fs -> forall acc a acc' a',
  verdict_of (ritems e fits u below fs acc a) = verdict_of (ritems e fits u below fs acc' a').
Proof.
  intros u below fs H. induction H as [|[ev f] fs Hf Hfs IH]; intros; cbn; auto.
  destruct (is_json_type u ev); auto. apply andthen_steady; [now apply ropen_steady|auto].
Qed.

Lemma rfast_steady : forall u add evs acc a acc' a',
  verdict_of (rfast e u add evs acc a) = verdict_of (rfast e u add evs acc' a').
Proof. induction evs as [|ev evs IH]; intros; cbn; auto. destruct (scalar e u ev); auto. Qed.

Lemma rfixed_steady : forall fs, Forall (fun p => steady (snd p)) fs -> forall i ts below vs a vs' a',
  verdict_of (rfixed e fits i ts below fs vs a) = verdict_of (rfixed e fits i ts below fs vs' a').
Proof.
  intros fs H. induction H as [|[ev f] fs Hf Hfs IH]; intros i [|t ts]; intros; cbn; auto.
  destruct (fits below _); auto. apply andthen_steady; [now apply ropen_steady|auto].
Qed.

Lemma rentries_steady : forall u below fs, Forall (fun p => steady (snd p)) fs -> forall acc a acc' a',
  verdict_of (rentries e fits u below fs acc a) = verdict_of (rentries e fits u below fs acc' a').
Proof.
  intros u below fs H. induction H as [|[k f] fs Hf Hfs IH]; intros; cbn; auto.
  apply andthen_steady; [now apply ropen_steady|auto].
Qed.

Lemma rmembers_steady : forall ms below fs, Forall (fun p => steady (snd p)) fs -> forall vs a vs' a',
  verdict_of (rmembers e fuel fits ms below fs vs a) = verdict_of (rmembers e fuel fits ms below fs vs' a').
Proof.
  intros ms below fs H. induction H as [|[k f] fs Hf Hfs IH]; intros; cbn; auto.
  destruct (dispatch _ _ _) as [[i|]| |]; auto. destruct (nth_error ms i); auto.
  apply andthen_steady; [now apply rmember_steady|auto].
Qed.

Lemma replaced_steady : forall below k x y, verdict_of x = verdict_of y ->
  verdict_of (replaced fits below k x) = verdict_of (replaced fits below k y).
Proof. intros. unfold replaced. destruct (fits below _); auto. Qed.

Lemma pread_steady : forall j, steady (pread e fuel fits j).
Proof.
  induction j using json_ind'; intros below t old a old' a';
    try (destruct t; cbn [pread]; auto; destruct (scalar e _ _); reflexivity).
  - assert (He : Forall (fun p => steady (snd p)) (map (fun x => (head x, pread e fuel fits x)) l)) by now apply Forall_map.
    destruct t; cbn [pread]; auto; try (apply replaced_steady); try (now apply rfixed_steady); try (destruct (scalar e _ _); reflexivity).
    + destruct (fast t); [apply rfast_steady|now apply ritems_steady].
    + destruct (fast t); apply replaced_steady; [apply rfast_steady|rewrite !verdict_rmap; now apply ritems_steady].
  - assert (He : Forall (fun p => steady (snd p)) (map (fun p => (fst p, pread e fuel fits (snd p))) l)) by now apply Forall_map.
    destruct t; cbn [pread]; auto; try (apply replaced_steady); try (destruct (scalar e _ _); reflexivity).
    + now apply rentries_steady.
    + now apply rmembers_steady.
Qed.
End Verdict.
