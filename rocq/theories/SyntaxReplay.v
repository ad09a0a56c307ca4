(** The reader finds what is wrong. *)
From Coq Require Import List Arith ZArith NArith Ascii String Bool Lia.
From Verif Require Import Base Float Decimal10 Json Events Types DeserializeModel ParseModel TextModel TextSpec TextChars TextProof ReaderModel
  ReaderProof DepthProof OffsetSpec OffsetProof OffsetRead SyntaxSpec SyntaxProof SyntaxRead.
Import ListNotations.
Local Open Scope char_scope.

Ltac lengths := repeat (rewrite ?app_length in *; cbn [List.length] in *); lia.

Section Reader.
Variable nearest : list ascii -> option fl.
Notation value_place := (value_place nearest).
Notation name_place := (name_place nearest).
Notation drive_value := (drive_value nearest document_handler).
Notation drive_items := (drive_items nearest document_handler).
Notation drive_fields := (drive_fields nearest document_handler).

(** The error [f] at [r], or the stack overflows. *)
Definition result (f : fault) (r : list ascii) (d : driven (list cell) Empty_set) : Prop := d = Exhausted \/ exists st', d = Faulty st' f r.

Definition fails (f : fault) (r s : list ascii) : Prop := forall n k st, 2 * List.length s + 2 <= n -> result f r (drive_value n k st s).
Definition fails_items (f : fault) (r s : list ascii) : Prop := forall n k st, 2 * List.length s + 3 <= n -> result f r (drive_items n k st s).
Definition fails_fields (f : fault) (r s : list ascii) : Prop := forall n k st, 2 * List.length s + 3 <= n -> result f r (drive_fields n k st s).

Definition root (k : nat) (st : list cell) (s : list ascii) : driven (list cell) Empty_set :=
  match skip s with
  | [] => Faulty st DocumentEmpty []
  | s' =>
    match drive_value (2 * List.length s' + 2) k st s' with
    | Passed st1 r => match skip r with [] => Passed st1 [] | at_ => Faulty st1 RootNotSingular at_ end
    | x => x
    end
  end.

Definition fails_text (f : fault) (r s : list ascii) : Prop := forall k st, result f r (root k st s).

(** ** Values that are read *)

Lemma whole_ends : forall x c r, white c \/ c = "," -> whole x (c :: r).
Proof.
  intros x c r H N. rewrite next_cons in N. destruct N as [z N]. apply number_solid, Forall_app in N as [_ N]. inversion N as [|? ? [S1 S2] _]; subst.
  destruct H as [H| ->]; [contradiction|]. apply S2. cbn; tauto.
Qed.

Lemma value_kinds : forall x j, value nearest x j -> number x \/ forall n r, 2 * List.length x + 1 <= n -> read_value nearest n (x ++ r) = ROk j r.
Proof.
  intros x j V. pose proof (reads_grammar nearest) as (_ & _ & Gi & Gf).
  destruct V as [| | |s b H|s z H K|s f H K N|w H|s l H|w H|s l H]; [right|right|right|right|left|left|right|right|right|right]; try (intros [|n] r L; [lia|]).
  - reflexivity.
  - reflexivity.
  - reflexivity.
  - cbn [app]. rewrite <- app_assoc. cbn [read_value app]. cbn [Ascii.eqb Bool.eqb quote]. change """" with quote. now rewrite (read_string_complete s b H r).
  - now apply integer_number in H.
  - exact H.
  - cbn [app]. rewrite <- app_assoc. cbn [app]. rewrite value_unfold. cbn [Ascii.eqb Bool.eqb quote]. rewrite skip_blank by (assumption || reflexivity). now rewrite starts_same.
  - cbn [app]. rewrite <- app_assoc. cbn [app]. rewrite value_unfold. cbn [Ascii.eqb Bool.eqb quote]. destruct (Gi s l H n [] r) as [E1 E2]; [lengths|]. now rewrite E2, E1.
  - cbn [app]. rewrite <- app_assoc. cbn [app]. rewrite value_unfold. cbn [Ascii.eqb Bool.eqb quote]. rewrite skip_blank by (assumption || reflexivity). now rewrite starts_same.
  - cbn [app]. rewrite <- app_assoc. cbn [app]. rewrite value_unfold. cbn [Ascii.eqb Bool.eqb quote]. destruct (Gf s l H n [] r) as [E1 E2]; [lengths|]. now rewrite E2, E1.
Qed.

Lemma value_passes : forall x j t n k st, value nearest x j -> (number x -> whole x t) -> 2 * List.length x + 1 <= n ->
  drive_value n k st (x ++ t) = Exhausted \/ exists st', drive_value n k st (x ++ t) = Passed st' t.
Proof.
  intros x j t n k st V W L. destruct (value_kinds x j V) as [N|R].
  - right. destruct n as [|n]; [lia|]. pose proof (whole_scan nearest x t j N (W N) V) as E. pose proof (scan_number_kind _ _ _ _ E) as Kd.
    apply (number_first any_number) in N as (c & s' & -> & _ & D). cbn [app] in *. rewrite drive_value_unfold.
    assert (NE : forall d, In d ["n"; "t"; "f"; quote; "["; "{"] -> Ascii.eqb c d = false).
    { intros d Hd. apply Ascii.eqb_neq. intros ->. apply D. cbn in Hd |- *. tauto. }
    rewrite !NE by (cbn; tauto). rewrite E. destruct Kd as [[z ->]|[y ->]]; eexists; reflexivity.
  - specialize (R n t L). pose proof (proj1 (drive_reads nearest document_handler n) k st (x ++ t)) as D. rewrite R in D. specialize (D ltac:(discriminate)). cbn [expected] in D.
    destruct (document_levels (events j) k st) as [E|(k' & st' & E)]; rewrite E in D; cbn [after] in D; destruct (drive_value n k st (x ++ t)); cbn [erase] in D; try discriminate.
    + now left.
    + injection D as -> ->. right. eauto.
Qed.

(** ** Lists *)

Lemma space_whole : forall x w c t, blank w -> white c \/ c = "," -> whole x (w ++ c :: t).
Proof. intros x [|d w] c t B H; cbn [app]; apply whole_ends; [exact H|]. left. inversion B as [|? ? Hd _]; subst. constructor; [exact Hd|constructor]. Qed.

Lemma value_head : forall x j t, value nearest x j -> dark (x ++ t) /\ starts "]" (x ++ t) = None /\ starts "}" (x ++ t) = None.
Proof.
  intros x j t V. apply value_first in V as (c & s' & -> & Hc & N1 & N2). cbn [app]. split; [exact Hc|]. split; apply starts_other; congruence.
Qed.

(** An element and a comma. *)
Lemma item_replay : forall s j r' f r, spaced nearest s j -> fails_items f r (skip r') ->
  fails_items f r (skip (s ++ "," :: r')) /\ starts "]" (skip (s ++ "," :: r')) = None.
Proof.
  intros s j r' f r Sp F. destruct Sp as [w x w' j B V B']. destruct (value_head x j (w' ++ "," :: r') V) as (D & N & _).
  assert (E : skip ((w ++ x ++ w') ++ "," :: r') = x ++ w' ++ "," :: r') by (rewrite <- !app_assoc; now apply skip_blank). rewrite E. split; [|exact N].
  intros [|n] k st L; [lia|]. rewrite drive_items_unfold.
  destruct (value_passes x j (w' ++ "," :: r') n k st V) as [Ed|[st1 Ed]]; [intros _; apply space_whole; [exact B'|now right]|lengths|rewrite Ed; now left|].
  rewrite Ed, skip_blank by (assumption || reflexivity). rewrite starts_same. apply F. pose proof (skip_length r'). lengths.
Qed.

Lemma items_replay : forall s l r' f r, items nearest s l -> fails_items f r (skip r') ->
  fails_items f r (skip (s ++ "," :: r')) /\ starts "]" (skip (s ++ "," :: r')) = None.
Proof.
  intros s l r' f r H F. induction H as [s j H|s j s' l H H1 [IH _]]; [now apply (item_replay s j)|].
  rewrite <- app_assoc. cbn [app]. now apply (item_replay s j).
Qed.

Lemma field_replay : forall w k b w' s j r' f r, blank w -> chars k b -> blank w' -> spaced nearest s j -> fails_fields f r (skip r') ->
  fails_fields f r (skip (w ++ """" :: k ++ """" :: w' ++ ":" :: s ++ "," :: r')) /\ starts "}" (skip (w ++ """" :: k ++ """" :: w' ++ ":" :: s ++ "," :: r')) = None.
Proof.
  intros w k b w' s j r' f r B C B' Sp F. rewrite skip_blank by (assumption || reflexivity). split; [|now apply starts_other].
  intros [|n] kk st L; [lia|]. rewrite drive_fields_unfold. change """" with quote. rewrite starts_same, (scan_string_passes k b) by assumption.
  unfold send. cbn [document_handler]. rewrite skip_blank by (assumption || reflexivity). rewrite starts_same.
  destruct Sp as [w1 x w2 j B1 V B2]. destruct (value_head x j (w2 ++ "," :: r') V) as (D & _ & _).
  rewrite <- !app_assoc, skip_blank by assumption.
  match goal with |- result _ _ (match drive_value n kk ?st1 _ with _ => _ end) => destruct (value_passes x j (w2 ++ "," :: r') n kk st1 V) as [Ed|[st2 Ed]] end.
  - intros _. apply space_whole; [exact B2|now right].
  - lengths.
  - rewrite Ed. now left.
  - rewrite Ed, skip_blank by (assumption || reflexivity). rewrite starts_same. apply F. pose proof (skip_length r'). lengths.
Qed.

Lemma fields_replay : forall s l r' f r, fields nearest s l -> fails_fields f r (skip r') ->
  fails_fields f r (skip (s ++ "," :: r')) /\ starts "}" (skip (s ++ "," :: r')) = None.
Proof.
  intros s l r' f r H F. induction H as [w k b w' s j B C B' H|w k b w' s j s' l B C B' H H1 [IH _]].
  - replace ((w ++ """" :: k ++ """" :: w' ++ ":" :: s) ++ "," :: r') with (w ++ """" :: k ++ """" :: w' ++ ":" :: s ++ "," :: r') by (repeat (rewrite <- app_assoc; cbn [app]); reflexivity).
    now apply (field_replay w k b w' s j).
  - replace ((w ++ """" :: k ++ """" :: w' ++ ":" :: s ++ "," :: s') ++ "," :: r') with (w ++ """" :: k ++ """" :: w' ++ ":" :: s ++ "," :: (s' ++ "," :: r'))
      by (repeat (rewrite <- app_assoc; cbn [app]); reflexivity).
    now apply (field_replay w k b w' s j).
Qed.

(** ** Places *)

Lemma fails_array : forall f r s, fails_items f r (skip s) -> starts "]" (skip s) = None -> fails f r ("[" :: s).
Proof.
  intros f r s F N [|n] k st L; [lia|]. rewrite drive_value_unfold. cbn [Ascii.eqb Bool.eqb quote]. destruct k as [|k]; [now left|].
  unfold send. cbn [document_handler]. rewrite N. apply F. pose proof (skip_length s). lengths.
Qed.

Lemma fails_object : forall f r s, fails_fields f r (skip s) -> starts "}" (skip s) = None -> fails f r ("{" :: s).
Proof.
  intros f r s F N [|n] k st L; [lia|]. rewrite drive_value_unfold. cbn [Ascii.eqb Bool.eqb quote]. destruct k as [|k]; [now left|].
  unfold send. cbn [document_handler]. rewrite N. apply F. pose proof (skip_length s). lengths.
Qed.

Lemma fails_first : forall f r s, fails f r s -> fails_items f r s.
Proof.
  intros f r s F [|n] k st L; [lia|]. rewrite drive_items_unfold. destruct (F n k st ltac:(lia)) as [E|[st' E]]; rewrite E; [now left|right; eauto].
Qed.

Lemma fails_member : forall f r k b w w' t, chars k b -> blank w -> blank w' -> dark t -> fails f r t -> fails_fields f r (marked k ++ w ++ ":" :: w' ++ t).
Proof.
  intros f r k b w w' t C B B' D F [|n] kk st L; [lia|]. unfold marked in *. cbn [app] in *. rewrite <- !app_assoc in *. cbn [app] in *. rewrite drive_fields_unfold.
  change """" with quote in *. rewrite starts_same, (scan_string_passes k b) by assumption. unfold send. cbn [document_handler]. rewrite skip_blank by (assumption || reflexivity). rewrite starts_same.
  rewrite skip_blank by assumption. match goal with |- result _ _ (match drive_value n kk ?st1 t with _ => _ end) => destruct (F n kk st1) as [E|[st' E]] end; [lengths| |]; rewrite E; [now left|right; eauto].
Qed.

Lemma replay :
  (forall p, value_place p -> forall t f r, dark t -> ~ (blank p /\ t = []) -> ~ (next_is "]" t /\ just_after "[" p) -> fails f r t -> fails_text f r (p ++ t)) /\
  (forall p, name_place p -> forall t f r, dark t -> ~ (next_is "}" t /\ just_after "{" p) -> fails_fields f r t -> fails_text f r (p ++ t)).
Proof.
  assert (Open : forall s, dark ("[" :: s) /\ (forall p : list ascii, ~ (blank p /\ "[" :: s = [])) /\ forall p, ~ (next_is "]" ("[" :: s) /\ just_after "[" p)).
  { intros s. split; [reflexivity|]. split; [intros p [_ E]; discriminate|]. intros p [E _]. unfold next_is in E. rewrite next_cons in E. discriminate. }
  assert (Open' : forall s, dark ("{" :: s) /\ (forall p : list ascii, ~ (blank p /\ "{" :: s = [])) /\ forall p, ~ (next_is "]" ("{" :: s) /\ just_after "[" p)).
  { intros s. split; [reflexivity|]. split; [intros p [_ E]; discriminate|]. intros p [E _]. unfold next_is in E. rewrite next_cons in E. discriminate. }
  apply places_ind.
  - intros w B t f r D NE _ F k st. unfold root. rewrite skip_blank by assumption. destruct t as [|c t]; [now destruct NE|].
    destruct (F (2 * List.length (c :: t) + 2) k st (le_n _)) as [E|[st' E]]; rewrite E; [now left|right; eauto].
  - intros p w _ IH B t f r D NE NB F. rewrite <- app_assoc. cbn [app]. destruct (Open (w ++ t)) as (O1 & O2 & O3). apply IH; try auto.
    apply fails_array; rewrite skip_blank by assumption; [now apply fails_first|]. apply starts_next. intros X. apply NB. split; [exact X|]. now exists p, w.
  - intros p s l w _ IH Hs B t f r D NE NB F. rewrite <- app_assoc. cbn [app]. rewrite <- app_assoc. cbn [app]. destruct (Open (s ++ "," :: w ++ t)) as (O1 & O2 & O3). apply IH; try auto.
    destruct (items_replay s l (w ++ t) f r Hs) as [F1 F2]; [rewrite skip_blank by assumption; now apply fails_first|]. now apply fails_array.
  - intros p k b w w' _ IH C B B' t f r D NE NB F. rewrite <- !app_assoc. cbn [app]. apply IH.
    + reflexivity.
    + intros [E _]. unfold marked in E. cbn [app] in E. unfold next_is in E. rewrite next_cons in E. discriminate.
    + now apply (fails_member f r k b).
  - intros p w _ IH B t f r D NB F. rewrite <- app_assoc. cbn [app]. destruct (Open' (w ++ t)) as (O1 & O2 & O3). apply IH; try auto.
    apply fails_object; rewrite skip_blank by assumption; [exact F|]. apply starts_next. intros X. apply NB. split; [exact X|]. now exists p, w.
  - intros p s l w _ IH Hs B t f r D NB F. rewrite <- app_assoc. cbn [app]. rewrite <- app_assoc. cbn [app]. destruct (Open' (s ++ "," :: w ++ t)) as (O1 & O2 & O3). apply IH; try auto.
    destruct (fields_replay s l (w ++ t) f r Hs) as [F1 F2]; [rewrite skip_blank by assumption; exact F|]. now apply fails_object.
Qed.

(** ** Errors *)

Lemma so_far_items : forall z w, items_so_far nearest z -> blank w -> items_so_far nearest (z ++ w).
Proof.
  intros z w [B|(s & l & w0 & Hs & B & ->)] Bw; [left; now apply blank_app|]. right. exists s, l, (w0 ++ w). split; [exact Hs|]. split; [now apply blank_app|]. now rewrite <- app_assoc.
Qed.

Lemma so_far_fields : forall z w, fields_so_far nearest z -> blank w -> fields_so_far nearest (z ++ w).
Proof.
  intros z w [B|(s & l & w0 & Hs & B & ->)] Bw; [left; now apply blank_app|]. right. exists s, l, (w0 ++ w). split; [exact Hs|]. split; [now apply blank_app|]. now rewrite <- app_assoc.
Qed.

Lemma so_far_item : forall z s j, items_so_far nearest z -> spaced nearest s j -> items_so_far nearest (z ++ s ++ [","]).
Proof.
  intros z s j Z H. destruct H as [w x w' j B V B']. destruct (items_go nearest (z ++ w) x j w' (so_far_items z w Z B) V B') as [l L].
  replace (z ++ (w ++ x ++ w') ++ [","]) with (((z ++ w) ++ x ++ w') ++ "," :: []) by (rewrite <- !app_assoc; reflexivity). apply (so_far_more_items nearest _ l); [exact L|constructor].
Qed.

Lemma so_far_field : forall z w k b w' s j, fields_so_far nearest z -> blank w -> chars k b -> blank w' -> spaced nearest s j ->
  fields_so_far nearest (z ++ w ++ marked k ++ w' ++ ":" :: s ++ [","]).
Proof.
  intros z w k b w' s j Z B C B' H. destruct H as [w1 x w2 j B1 V B2]. destruct (fields_go nearest (z ++ w) k b w' w1 x j w2 (so_far_fields z w Z B) C B' B1 V B2) as [l L].
  replace (z ++ w ++ marked k ++ w' ++ ":" :: (w1 ++ x ++ w2) ++ [","]) with (((z ++ w) ++ marked k ++ w' ++ ":" :: w1 ++ x ++ w2) ++ "," :: [])
    by (repeat (rewrite <- app_assoc; cbn [app]); reflexivity). apply (so_far_more_fields nearest _ l); [exact L|constructor].
Qed.

Lemma untorn_whole : forall P x w t, value_place P -> blank w -> ~ torn nearest (P ++ x ++ w) t -> number x -> whole x (w ++ t).
Proof.
  intros P x w t HP B N Nx. destruct w as [|c w].
  - cbn [app]. intros X. apply N. exists P, x. split; [exact HP|]. split; [exact Nx|]. split; [now rewrite app_nil_r|]. intros W. now apply W.
  - cbn [app]. apply whole_ends. left. inversion B as [|? ? Hc _]; subst. constructor; [exact Hc|constructor].
Qed.

Lemma items_end : forall s l, items nearest s l -> forall p z t, value_place p -> items_so_far nearest z -> dark t -> ~ next_is "," t -> ~ next_is "]" t ->
  ~ torn nearest (p ++ "[" :: z ++ s) t -> fails_items MissCommaOrSquareBracket t (skip (s ++ t)) /\ starts "]" (skip (s ++ t)) = None.
Proof.
  intros s l H. induction H as [s j H|s j s' l H H1 IH]; intros p z t P Z D N1 N2 T.
  - destruct H as [w x w' j B V B']. destruct (value_head x j (w' ++ t) V) as (Dx & N & _).
    assert (E : skip ((w ++ x ++ w') ++ t) = x ++ w' ++ t) by (rewrite <- !app_assoc; now apply skip_blank). rewrite E. split; [|exact N].
    intros [|n] k st L; [lia|]. rewrite drive_items_unfold. destruct (value_passes x j (w' ++ t) n k st V) as [Ed|[st1 Ed]]; [|lengths|rewrite Ed; now left|].
    + apply (untorn_whole (p ++ "[" :: z ++ w)); [now apply items_place; [|apply so_far_items]|exact B'|].
      now replace ((p ++ "[" :: z ++ w) ++ x ++ w') with (p ++ "[" :: z ++ w ++ x ++ w') by (repeat (rewrite <- app_assoc; cbn [app]); reflexivity).
    + rewrite Ed, skip_blank by assumption. apply starts_next in N1, N2. rewrite N1, N2. right. eauto.
  - rewrite <- app_assoc. cbn [app]. apply (item_replay s j); [exact H|]. apply (IH p (z ++ s ++ [","]) t); try assumption; [now apply (so_far_item z s j)|].
    now replace (p ++ "[" :: (z ++ s ++ [","]) ++ s') with (p ++ "[" :: z ++ s ++ "," :: s') by (repeat (rewrite <- app_assoc; cbn [app]); reflexivity).
Qed.

Lemma fields_end : forall s l, fields nearest s l -> forall p z t, value_place p -> fields_so_far nearest z -> dark t -> ~ next_is "," t -> ~ next_is "}" t ->
  ~ torn nearest (p ++ "{" :: z ++ s) t -> fails_fields MissCommaOrCurlyBracket t (skip (s ++ t)) /\ starts "}" (skip (s ++ t)) = None.
Proof.
  intros s l H. induction H as [w k b w' s j B C B' H|w k b w' s j s' l B C B' H H1 IH]; intros p z t P Z D N1 N2 T.
  - replace ((w ++ """" :: k ++ """" :: w' ++ ":" :: s) ++ t) with (w ++ """" :: k ++ """" :: w' ++ ":" :: s ++ t) by (repeat (rewrite <- app_assoc; cbn [app]); reflexivity).
    rewrite skip_blank by (assumption || reflexivity). split; [|now apply starts_other].
    intros [|n] kk st L; [lia|]. rewrite drive_fields_unfold. change """" with quote in *. rewrite starts_same, (scan_string_passes k b) by assumption.
    unfold send. cbn [document_handler]. rewrite skip_blank by (assumption || reflexivity). rewrite starts_same.
    destruct H as [w1 x w2 j B1 V B2]. destruct (value_head x j (w2 ++ t) V) as (Dx & _ & _). rewrite <- !app_assoc, skip_blank by assumption.
    match goal with |- result _ _ (match drive_value n kk ?st1 _ with _ => _ end) => destruct (value_passes x j (w2 ++ t) n kk st1 V) as [Ed|[st2 Ed]] end; [|lengths|rewrite Ed; now left|].
    + apply (untorn_whole ((p ++ "{" :: z ++ w) ++ marked k ++ w' ++ ":" :: w1)); [|exact B2|].
      * apply (place_member nearest _ k b); try assumption. now apply fields_place; [|apply so_far_fields].
      * replace (((p ++ "{" :: z ++ w) ++ marked k ++ w' ++ ":" :: w1) ++ x ++ w2) with (p ++ "{" :: z ++ w ++ """" :: k ++ """" :: w' ++ ":" :: w1 ++ x ++ w2); [exact T|].
        unfold marked. repeat (rewrite <- app_assoc; cbn [app]). reflexivity.
    + rewrite Ed, skip_blank by assumption. apply starts_next in N1, N2. rewrite N1, N2. right. eauto.
  - replace ((w ++ """" :: k ++ """" :: w' ++ ":" :: s ++ "," :: s') ++ t) with (w ++ """" :: k ++ """" :: w' ++ ":" :: s ++ "," :: (s' ++ t))
      by (repeat (rewrite <- app_assoc; cbn [app]); reflexivity).
    apply (field_replay w k b w' s j); try assumption. apply (IH p (z ++ w ++ marked k ++ w' ++ ":" :: s ++ [","]) t); try assumption; [now apply (so_far_field z w k b w' s j)|].
    replace (p ++ "{" :: (z ++ w ++ marked k ++ w' ++ ":" :: s ++ [","]) ++ s') with (p ++ "{" :: z ++ w ++ """" :: k ++ """" :: w' ++ ":" :: s ++ "," :: s'); [exact T|].
    unfold marked. repeat (rewrite <- app_assoc; cbn [app]). reflexivity.
Qed.

(** A value that starts with one of its characters. *)
Lemma replay_opened : forall p c s f r, value_place p -> opener c -> fails f r (c :: s) -> fails_text f r (p ++ c :: s).
Proof.
  intros p c s f r P O F.
  assert (H : is_space c = false /\ c <> "]").
  { destruct O as [O|O]; [cbn in O; repeat (destruct O as [<-|O]; [split; [reflexivity|discriminate]|]); contradiction|].
    pose proof (digit_solid c O) as [Nw _]. rewrite white_space in Nw. split; [now destruct (is_space c)|]. intros ->. unfold digit in O. codes. lia. }
  destruct H as [H1 H2]. apply (proj1 replay); [exact P|exact H1|intros [_ E]; discriminate| |exact F]. intros [E _]. unfold next_is in E. rewrite next_cons in E. congruence.
Qed.

Lemma number_opened : forall q, number q -> exists c q', q = c :: q' /\ opener c.
Proof.
  intros q (sign & ds & fr & ex & Hs & [[Ne D] _] & _ & _ & ->). destruct Hs as [<-|[<-|[]]]; cbn [app].
  - destruct ds as [|d ds]; [congruence|]. inversion D as [|? ? Hd _]; subst. exists d, (ds ++ fr ++ ex). split; [reflexivity|now right].
  - exists "-", (ds ++ fr ++ ex). split; [reflexivity|]. left. cbn; tauto.
Qed.

Lemma fails_number : forall f q t c s, q ++ t = c :: s -> (c = "-" \/ digit c \/ q = [] /\ ~ opener c) -> number_wrong nearest f q t -> fails f t (q ++ t).
Proof.
  intros f q t c s E O W [|n] k st L; [lia|]. apply wrong_scan_number in W. rewrite E in *. rewrite drive_value_unfold.
  assert (NE : forall d, In d ["n"; "t"; "f"; quote; "["; "{"] -> Ascii.eqb c d = false).
  { intros d Hd. apply Ascii.eqb_neq. intros ->. destruct O as [O|[O|[_ O]]].
    - subst d. cbn in Hd. intuition discriminate.
    - unfold digit in O. unfold quote in Hd. cbn in Hd. repeat (destruct Hd as [<-|Hd]; [codes; lia|]). contradiction.
    - apply O. left. cbn in *. tauto. }
  rewrite !NE by (cbn; tauto). rewrite W. right. eauto.
Qed.

Lemma fails_number_in : forall f q t p, value_place p -> q <> [] -> (exists c q', q = c :: q' /\ (c = "-" \/ digit c)) -> number_wrong nearest f q t -> fails_text f t ((p ++ q) ++ t).
Proof.
  intros f q t p P N (c & q' & -> & O) W. rewrite <- app_assoc. cbn [app]. apply replay_opened; [exact P|destruct O as [->|O]; [left; cbn; tauto|now right]|].
  apply (fails_number f (c :: q') t c (q' ++ t)); [reflexivity|tauto|exact W].
Qed.

Lemma signed_head : forall sign ds a, In sign [[]; ["-"]] -> integer_part ds -> exists c q', sign ++ ds ++ a = c :: q' /\ (c = "-" \/ digit c).
Proof.
  intros sign ds a Hs [[Ne D] _]. destruct Hs as [<-|[<-|[]]]; cbn [app].
  - destruct ds as [|d ds]; [congruence|]. inversion D as [|? ? Hd _]; subst. exists d, (ds ++ a). split; [reflexivity|now right].
  - exists "-", (ds ++ a). split; [reflexivity|now left].
Qed.

Lemma expect_literal : forall q c y t, starts c t = None -> consume (q ++ c :: y) (q ++ t) = inr t.
Proof. induction q as [|d q IH]; intros c y t N; cbn [app consume]; [now rewrite N|]. rewrite starts_same. now apply IH. Qed.

Lemma fails_literal : forall q c y t, q <> [] -> In (q ++ c :: y) literals -> ~ next_is c t -> fails ValueInvalid t (q ++ t).
Proof.
  intros q c y t N L Nt [|n] k st Ln; [lia|]. apply starts_next in Nt. destruct q as [|d q]; [congruence|]. cbn [app] in *. rewrite drive_value_unfold.
  pose proof (expect_literal q c y t Nt) as E.
  destruct L as [L|[L|[L|[]]]]; injection L as <- L; cbn [Ascii.eqb Bool.eqb]; unfold drive_literal; cbn [list_ascii_of_string]; rewrite L, E; right; eauto.
Qed.

Lemma string_fails : forall p f t, in_string nearest p -> string_wrong f t -> fails_text f t (p ++ t).
Proof.
  intros p f t (p0 & k & b & P & C & ->) W. rewrite <- app_assoc. cbn [app]. pose proof (scan_string_stops k b t f C W) as E. destruct P as [P|P].
  - apply replay_opened; [exact P|left; cbn; tauto|]. intros [|n] kk st L; [lia|]. rewrite drive_value_unfold. change """" with quote. cbn [Ascii.eqb Bool.eqb quote]. rewrite E. right. eauto.
  - apply (proj2 replay); [exact P|reflexivity|intros [X _]; unfold next_is in X; rewrite next_cons in X; discriminate|].
    intros [|n] kk st L; [lia|]. rewrite drive_fields_unfold. change """" with quote. rewrite starts_same, E. right. eauto.
Qed.

Theorem wrong_fails : forall f p t, wrong nearest f p t -> fails_text f t (p ++ t).
Proof.
  intros f p t H. destruct f.
  - (* DocumentEmpty *)
    destruct H as [B ->]. intros k st. unfold root. rewrite skip_blank; [|exact B|exact I]. right. eauto.
  - (* RootNotSingular *)
    destruct H as ((j & Sp) & N & Nw & T). apply dark_next in Nw. intros k st. destruct Sp as [w x w' j B V B'].
    destruct (value_head x j (w' ++ t) V) as (D & _). unfold root. rewrite <- !app_assoc, skip_blank by assumption.
    destruct (x ++ w' ++ t) as [|c s] eqn:E; [apply value_first in V as (c & s' & -> & _); discriminate|]. rewrite <- E.
    destruct (value_passes x j (w' ++ t) (2 * List.length (x ++ w' ++ t) + 2) k st V) as [Ed|[st1 Ed]].
    + apply (untorn_whole w); [now apply place_root|exact B'|exact T].
    + lengths.
    + rewrite Ed. now left.
    + rewrite Ed, skip_blank by assumption. destruct t; [congruence|]. right. eauto.
  - (* ValueInvalid *)
    destruct H as [(P & NE & Nw & No & NB)|[(p0 & q & c & y & P & N & L & -> & Nt)|(p0 & P & -> & Nd)]].
    + apply dark_next in Nw. apply (proj1 replay); try assumption. destruct t as [|c t]; [intros [|n] k st L; [lia|right; eexists; reflexivity]|].
      rewrite next_cons in No. apply (fails_number ValueInvalid [] (c :: t) c t); [reflexivity|tauto|]. left. split; [reflexivity|]. split; [rewrite next_cons; intros X; apply No; now right|].
      unfold next_is. rewrite next_cons. intros <-. apply No. left. cbn; tauto.
    + rewrite <- app_assoc. pose proof (fails_literal q c y t N L Nt) as F. destruct q as [|d q]; [congruence|]. cbn [app] in *. apply replay_opened; [exact P| |exact F].
      left. destruct L as [L|[L|[L|[]]]]; injection L as <- _; cbn; tauto.
    + apply fails_number_in; [exact P|discriminate|exists "-", []; tauto|]. right. now split.
  - destruct H as (P & Nw & Nq & NB). apply dark_next in Nw. apply (proj2 replay); try assumption. intros [|n] k st L; [lia|]. rewrite drive_fields_unfold.
    apply starts_next in Nq. unfold quote. rewrite Nq. right. eauto.
  - destruct H as (p0 & k & b & w & P & C & B & -> & Nw & Nc). apply dark_next in Nw. apply starts_next in Nc. rewrite <- !app_assoc. apply (proj2 replay); [exact P|reflexivity| |].
    + intros [X _]. unfold marked, next_is in X. cbn [app] in X. rewrite next_cons in X. discriminate.
    + intros [|n] kk st L; [lia|]. unfold marked. cbn [app]. rewrite <- app_assoc. cbn [app]. rewrite drive_fields_unfold. change """" with quote. rewrite starts_same, (scan_string_passes k b) by assumption.
      unfold send. cbn [document_handler]. rewrite skip_blank by assumption. rewrite Nc. right. eauto.
  - destruct H as (p0 & s & l & P & Hs & -> & Nw & N1 & N2 & T). apply dark_next in Nw. rewrite <- app_assoc. cbn [app]. apply replay_opened; [exact P|left; cbn; tauto|].
    destruct (fields_end s l Hs p0 [] t) as [F1 F2]; try assumption; [left; constructor|]. now apply fails_object.
  - destruct H as (p0 & s & l & P & Hs & -> & Nw & N1 & N2 & T). apply dark_next in Nw. rewrite <- app_assoc. cbn [app]. apply replay_opened; [exact P|left; cbn; tauto|].
    destruct (items_end s l Hs p0 [] t) as [F1 F2]; try assumption; [left; constructor|]. now apply fails_array.
  - destruct H. now apply string_fails.
  - destruct H. now apply string_fails.
  - destruct H. now apply string_fails.
  - destruct H. now apply string_fails.
  - destruct H. now apply string_fails.
  - (* TooBig *)
    destruct H as (P & x & r & -> & Nx & W). pose proof Nx as (sign & ds & fr & ex & Hs & Hd & _ & _ & Ex). destruct (signed_head sign ds (fr ++ ex) Hs Hd) as (c & q' & E & O).
    rewrite <- Ex in E. rewrite E in *. cbn [app]. apply replay_opened; [exact P|destruct O as [->|O]; [left; cbn; tauto|now right]|].
    apply (fails_number TooBig [] (c :: q' ++ r) c (q' ++ r)); [reflexivity|tauto|]. split; [reflexivity|]. now exists (c :: q'), r.
  - destruct H as (p0 & sign & ds & P & Hs & Hd & -> & N). destruct (signed_head sign ds ["."] Hs Hd) as (c & q' & E & O).
    apply fails_number_in; [exact P|rewrite E; discriminate|rewrite E; eauto|]. now exists sign, ds.
  - destruct H as (p0 & sign & ds & fr & e & sg & P & Hs & Hd & Hf & He & Hg & -> & N). destruct (signed_head sign ds (fr ++ e :: sg) Hs Hd) as (c & q' & E & O).
    apply fails_number_in; [exact P|rewrite E; discriminate|rewrite E; eauto|]. now exists sign, ds, fr, e, sg.
Qed.

Lemma root_text : forall k st str, drive_text nearest document_handler k st str = root k st (list_ascii_of_string (c_string str)).
Proof. reflexivity. Qed.

Theorem text_fails : forall k st str f p t, list_ascii_of_string (c_string str) = p ++ t -> wrong nearest f p t ->
  result f t (drive_text nearest document_handler k st str).
Proof. intros k st str f p t E W. rewrite root_text, E. now apply wrong_fails. Qed.

End Reader.
