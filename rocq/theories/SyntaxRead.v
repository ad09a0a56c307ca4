(** What is wrong where the reader stops. *)
From Coq Require Import List Arith ZArith NArith Ascii String Bool Lia.
From Verif Require Import Base Float Decimal10 Json Events Types DeserializeModel ParseModel TextModel TextSpec TextChars TextProof ReaderModel
  ReaderProof DepthProof OffsetSpec OffsetProof OffsetRead SyntaxSpec SyntaxProof.
Import ListNotations.
Local Open Scope char_scope.

(** ** The last character *)

Definition solid (c : ascii) : Prop := ~ white c /\ ~ In c ["["; ","; ":"].

Lemma digit_solid : forall c, digit c -> solid c.
Proof.
  intros c H. split.
  - rewrite white_space, is_space_spec. unfold digit in H. cbn. lia.
  - intros I. cbn in I. destruct I as [<-|[<-|[<-|[]]]]; unfold digit in H; codes; lia.
Qed.

Lemma solid_all : forall c, In c ["-"; "+"; "."; "e"; "E"] -> solid c.
Proof.
  intros c I. split.
  - rewrite white_space. cbn in I. repeat (destruct I as [<-|I]; [discriminate|]). contradiction.
  - cbn in I. repeat (destruct I as [<-|I]; [cbn; intuition discriminate|]). contradiction.
Qed.

Lemma digits_solid : forall ds, Forall digit ds -> Forall solid ds.
Proof. intros ds H. eapply Forall_impl; [|exact H]. apply digit_solid. Qed.

Lemma number_solid : forall y, number y -> Forall solid y.
Proof.
  intros y (sign & ds & fr & ex & Hs & [[_ Hd] _] & Hf & Hx & ->). rewrite !Forall_app. split; [|split; [|split]].
  - destruct Hs as [<-|[<-|[]]]; repeat constructor; apply solid_all; cbn; tauto.
  - now apply digits_solid.
  - destruct Hf as [->|(es & [_ De] & ->)]; [constructor|]. constructor; [apply solid_all; cbn; tauto|now apply digits_solid].
  - destruct Hx as [->|(e & sg & es & He & Hg & [_ De] & ->)]; [constructor|]. constructor; [apply solid_all; cbn in *; tauto|]. apply Forall_app. split; [|now apply digits_solid].
    destruct Hg as [<-|[<-|[<-|[]]]]; repeat constructor; apply solid_all; cbn; tauto.
Qed.

Lemma digits_last : forall ds, digits ds -> exists ds' d, ds = ds' ++ [d] /\ digit d.
Proof.
  intros ds [N D]. destruct (exists_last N) as (ds' & d & ->). exists ds', d. split; [reflexivity|]. apply Forall_app in D as [_ D]. now inversion D.
Qed.

Lemma number_last : forall y, number y -> exists y' d, y = y' ++ [d] /\ digit d.
Proof.
  assert (Go : forall a ds, digits ds -> exists y' d, a ++ ds = y' ++ [d] /\ digit d).
  { intros a ds H. apply digits_last in H as (ds' & d & -> & Hd). exists (a ++ ds'), d. now rewrite app_assoc. }
  intros y (sign & ds & fr & ex & Hs & [Hd _] & Hf & Hx & ->). destruct Hx as [->|(e & sg & es & _ & _ & De & ->)].
  - destruct Hf as [->|(es & De & ->)].
    + rewrite !app_nil_r. now apply Go.
    + rewrite app_nil_r. replace (sign ++ ds ++ "." :: es) with ((sign ++ ds ++ ["."]) ++ es) by (rewrite <- !app_assoc; reflexivity). now apply Go.
  - replace (sign ++ ds ++ fr ++ e :: sg ++ es) with ((sign ++ ds ++ fr ++ e :: sg) ++ es) by (rewrite <- !app_assoc; reflexivity). now apply Go.
Qed.

Section Reader.
Variable nearest : list ascii -> option fl.
Notation value_place := (value_place nearest).
Notation name_place := (name_place nearest).

Lemma blank_last : forall a c w, blank w -> (white c \/ In c ["["; ","; ":"]) -> exists p' d, a ++ c :: w = p' ++ [d] /\ (white d \/ In d ["["; ","; ":"]).
Proof.
  intros a c w H Hc. destruct w as [|d w] using rev_ind; [now exists a, c|]. apply Forall_app in H as [_ H]. exists (a ++ c :: w), d. split; [now rewrite <- app_assoc|].
  now left.
Qed.

Lemma place_last : forall p, value_place p -> p = [] \/ exists p' c, p = p' ++ [c] /\ (white c \/ In c ["["; ","; ":"]).
Proof.
  intros p H. destruct H as [w H|p w _ H|p s l w _ _ H|p k b w w' _ _ _ H].
  - destruct w as [|c w]; [now left|right]. inversion H as [|? ? Hc Hw]; subst. apply (blank_last [] c w); [exact Hw|]. left. constructor; [exact Hc|constructor].
  - right. apply blank_last; [exact H|]. right. now left.
  - right. replace (p ++ "[" :: s ++ "," :: w) with ((p ++ "[" :: s) ++ "," :: w) by (rewrite <- app_assoc; reflexivity). apply blank_last; [exact H|]. right. cbn; tauto.
  - right. rewrite !app_assoc. apply blank_last; [exact H|]. right. cbn; tauto.
Qed.

Lemma value_digit : forall x j x' d, value nearest x j -> x = x' ++ [d] -> digit d -> number x.
Proof.
  intros x j x' d V E D.
  assert (No : forall a c, x = a ++ [c] -> ~ digit c -> False) by (intros a c E' N; rewrite E in E'; apply app_inj_tail in E' as [_ <-]; contradiction).
  assert (Q : forall c, (57 < code c)%Z \/ (code c < 48)%Z -> ~ digit c) by (unfold digit; intros; lia).
  destruct V as [| | |s b C|s z Hz _|s f Hn _ _|w _|s l _|w _|s l _]; try assumption.
  - exfalso. apply (No ["n"; "u"; "l"] "l" eq_refl), Q. codes; lia.
  - exfalso. apply (No ["t"; "r"; "u"] "e" eq_refl), Q. codes; lia.
  - exfalso. apply (No ["f"; "a"; "l"; "s"] "e" eq_refl), Q. codes; lia.
  - exfalso. apply (No ("""" :: s) """" eq_refl), Q. codes; lia.
  - now apply integer_number in Hz.
  - exfalso. apply (No ("[" :: w) "]" eq_refl), Q. codes; lia.
  - exfalso. apply (No ("[" :: s) "]" eq_refl), Q. codes; lia.
  - exfalso. apply (No ("{" :: w) "}" eq_refl), Q. codes; lia.
  - exfalso. apply (No ("{" :: s) "}" eq_refl), Q. codes; lia.
Qed.

Lemma not_torn : forall P x j w t, value_place P -> value nearest x j -> blank w -> (number x -> whole x (w ++ t)) -> ~ torn nearest (P ++ x ++ w) t.
Proof.
  intros P x j w t HP V B W (p0 & y & Hp & Ny & E & N). pose proof (number_solid _ Ny) as Sy. pose proof (number_last _ Ny) as (y' & d & Ey & Hd).
  rewrite Ey, !app_assoc in E. destruct w as [|c w _] using rev_ind.
  - rewrite app_nil_r, <- app_assoc, <- Ey in E. cbn [app] in W.
    assert (Bad : forall p l z, value_place p -> p = z ++ l -> l <> [] -> Forall solid l -> False).
    { intros p l z Pp Ep Nl Sl. destruct (exists_last Nl) as (l' & c & ->). apply Forall_app in Sl as [_ Sl]. inversion Sl as [|? ? [S1 S2] _]; subst.
      apply place_last in Pp as [Pp|(p' & c' & Pp & Hc)].
      - apply (f_equal (@List.length ascii)) in Pp. rewrite !app_length in Pp. cbn in Pp. lia.
      - rewrite app_assoc in Pp. apply app_inj_tail in Pp as [_ <-]. tauto. }
    assert (X : exists l, (P = p0 ++ l /\ y = l ++ x) \/ (p0 = P ++ l /\ x = l ++ y)).
    { clear - E. revert p0 E. induction P as [|a P IH]; intros [|b p0] E; cbn [app] in E.
      - exists []. now left.
      - exists (b :: p0). now right.
      - exists (a :: P). left. split; [reflexivity|now symmetry].
      - injection E as <- E. apply IH in E as [l [[-> ->]|[-> ->]]]; exists l; [left|right]; now split. }
    destruct X as [l [[EP Ey']|[Ep Ex]]].
    + destruct (list_eq_dec ascii_dec l []) as [->|Nl]; [|apply (Bad P l p0); try assumption; rewrite Ey' in Sy; now apply Forall_app in Sy].
      cbn [app] in Ey'. rewrite Ey' in N, Ny. now apply N, W.
    + assert (Nx : number x) by (apply (value_digit x j (l ++ y') d V); [rewrite Ex, Ey, app_assoc; reflexivity|exact Hd]).
      destruct (list_eq_dec ascii_dec l []) as [->|Nl].
      * cbn [app] in Ex. rewrite <- Ex in N. now apply N, W.
      * apply (Bad p0 l P); try assumption. apply number_solid in Nx. rewrite Ex in Nx. now apply Forall_app in Nx.
  - rewrite app_assoc in E. apply app_inj_tail in E as [_ <-]. apply Forall_app in B as [_ B]. apply digit_solid in Hd as [Hd _]. now apply Hd.
Qed.

(** ** Lists *)

Lemma items_snoc : forall s l s' j, items nearest s l -> spaced nearest s' j -> items nearest (s ++ "," :: s') (l ++ [j]).
Proof.
  intros s l s' j H H'. induction H as [s0 j0 H|s0 j0 s1 l H H1 IH]; cbn [app].
  - apply items_more; [exact H|now apply items_one].
  - rewrite <- app_assoc. cbn [app]. now apply items_more.
Qed.

Lemma fields_snoc : forall s l w k b w' s' j, fields nearest s l -> blank w -> chars k b -> blank w' -> spaced nearest s' j ->
  fields nearest (s ++ "," :: w ++ """" :: k ++ """" :: w' ++ ":" :: s') (l ++ [(string_of_list_ascii b, j)]).
Proof.
  intros s l w k b w' s' j H Hw Hk Hw' Hs. induction H as [w0 k0 b0 w0' s0 j0 H1 H2 H3 H4|w0 k0 b0 w0' s0 j0 s1 l H1 H2 H3 H4 H IH]; cbn [app].
  - replace ((w0 ++ """" :: k0 ++ """" :: w0' ++ ":" :: s0) ++ "," :: w ++ """" :: k ++ """" :: w' ++ ":" :: s')
      with (w0 ++ """" :: k0 ++ """" :: w0' ++ ":" :: s0 ++ "," :: (w ++ """" :: k ++ """" :: w' ++ ":" :: s')) by (repeat (rewrite <- app_assoc; cbn [app]); reflexivity).
    apply fields_more; try assumption. now apply fields_one.
  - replace ((w0 ++ """" :: k0 ++ """" :: w0' ++ ":" :: s0 ++ "," :: s1) ++ "," :: w ++ """" :: k ++ """" :: w' ++ ":" :: s')
      with (w0 ++ """" :: k0 ++ """" :: w0' ++ ":" :: s0 ++ "," :: (s1 ++ "," :: w ++ """" :: k ++ """" :: w' ++ ":" :: s')) by (repeat (rewrite <- app_assoc; cbn [app]); reflexivity).
    now apply fields_more.
Qed.

(** The elements, or the members, that came before. *)
Definition items_so_far (z : list ascii) : Prop := blank z \/ exists s l w, items nearest s l /\ blank w /\ z = s ++ "," :: w.
Definition fields_so_far (z : list ascii) : Prop := blank z \/ exists s l w, fields nearest s l /\ blank w /\ z = s ++ "," :: w.

Lemma items_place : forall p z, value_place p -> items_so_far z -> value_place (p ++ "[" :: z).
Proof. intros p z H [B|(s & l & w & Hs & B & ->)]; [now apply place_first|now apply (place_next nearest p s l w)]. Qed.

Lemma fields_place : forall p z, value_place p -> fields_so_far z -> name_place (p ++ "{" :: z).
Proof. intros p z H [B|(s & l & w & Hs & B & ->)]; [now apply name_first|now apply (name_next nearest p s l w)]. Qed.

Lemma items_go : forall z x j w, items_so_far z -> value nearest x j -> blank w -> exists l, items nearest (z ++ x ++ w) l.
Proof.
  intros z x j w [B|(s & l & w0 & Hs & B & ->)] V Bw.
  - exists [j]. apply items_one. now apply spaced_value.
  - exists (l ++ [j]). rewrite <- app_assoc. cbn [app]. apply items_snoc; [exact Hs|]. now apply spaced_value.
Qed.

Lemma fields_go : forall z k b w1 w2 x j w, fields_so_far z -> chars k b -> blank w1 -> blank w2 -> value nearest x j -> blank w ->
  exists l, fields nearest (z ++ marked k ++ w1 ++ ":" :: w2 ++ x ++ w) l.
Proof.
  intros z k b w1 w2 x j w Z Hk B1 B2 V Bw.
  assert (Sp : spaced nearest (w2 ++ x ++ w) j) by now apply spaced_value.
  assert (E : marked k ++ w1 ++ ":" :: w2 ++ x ++ w = """" :: k ++ """" :: w1 ++ ":" :: (w2 ++ x ++ w)) by (unfold marked; cbn [app]; rewrite <- app_assoc; reflexivity).
  rewrite E. destruct Z as [B|(s & l & w0 & Hs & B & ->)].
  - eexists. apply fields_one; eassumption.
  - eexists. rewrite <- app_assoc. cbn [app]. apply fields_snoc; eassumption.
Qed.

Lemma so_far_more_items : forall s l w, items nearest s l -> blank w -> items_so_far (s ++ "," :: w).
Proof. intros s l w H B. right. now exists s, l, w. Qed.

Lemma so_far_more_fields : forall s l w, fields nearest s l -> blank w -> fields_so_far (s ++ "," :: w).
Proof. intros s l w H B. right. now exists s, l, w. Qed.

Lemma after_inv : forall c d p w, just_after c (p ++ d :: w) -> blank w -> ~ white c -> ~ white d -> c = d.
Proof.
  intros c d p w (p0 & w0 & E & B0) B Nc Nd. revert w0 p0 E B0. induction w as [|x w IH] using rev_ind; intros w0 p0 E B0.
  - destruct w0 as [|x w0 _] using rev_ind; [now apply app_inj_tail in E as [_ E]|].
    apply Forall_app in B0 as [_ B0]. rewrite app_comm_cons, app_assoc in E. apply app_inj_tail in E as [_ <-]. contradiction.
  - apply Forall_app in B as [Bw Bx]. destruct w0 as [|y w0 _] using rev_ind.
    + rewrite app_comm_cons, app_assoc in E. apply app_inj_tail in E as [_ ->]. contradiction.
    + rewrite !app_comm_cons, !app_assoc in E. apply app_inj_tail in E as [E _]. apply Forall_app in B0 as [B0 _]. now apply (IH Bw w0 p0).
Qed.

Lemma after_blank : forall c w, blank w -> ~ white c -> ~ just_after c w.
Proof. intros c w B N (p0 & w0 & -> & _). apply Forall_app in B as [_ B]. inversion B as [|? ? Hc _]; subst. apply N. constructor; [exact Hc|constructor]. Qed.

Lemma not_white : forall c, is_space c = false -> ~ white c.
Proof. intros c H. rewrite white_space. congruence. Qed.

(** ** The reader *)

Section Handler.
Context {St Out : Type}.
Variable handle : event -> St -> answer St Out.

(** A value was read; a number does not go on. *)
Lemma passed_value : forall n k st s st' r, drive_value nearest handle n k st s = Passed st' r ->
  exists x j, s = x ++ r /\ value nearest x j /\ (number x -> whole x r).
Proof.
  intros n k st s st' r H. pose proof (proj1 (all_good nearest handle n) k st s) as G. rewrite H in G. destruct G as (x & evs & -> & (j & V & _) & _ & R).
  exists x, j. split; [reflexivity|]. split; [exact V|]. intros Nx N. destruct r as [|c r]; [now apply next_nil in N|]. rewrite next_cons in N. destruct N as [z N].
  destruct (R (c :: z) (S n) tt) as [j' E']; [reflexivity|lia|]. cbn [reading value_part] in E'.
  destruct (any_complete _ N) as [j2 E2]. pose proof (read_number_value any_number n (x ++ c :: z) j2 [] N) as E3. rewrite app_nil_r in E3. rewrite (E3 E2) in E'. discriminate E'.
Qed.

Lemma send_faulty : forall ev st at_ go st' f t, send handle ev st at_ go = Faulty st' f t -> exists st1, go st1 = @Faulty St Out st' f t.
Proof. intros ev st at_ go st' f t H. unfold send in H. destruct (handle ev st) as [st1|st1|x]; try discriminate. now exists st1. Qed.

Definition open_place (p s : list ascii) : Prop := value_place p /\ dark s /\ ~ (blank p /\ s = []) /\ ~ (next_is "]" s /\ just_after "[" p).
Definition stopped (p s : list ascii) (f : fault) (t : list ascii) : Prop := exists q, s = q ++ t /\ wrong nearest f (p ++ q) t.

Lemma stopped_app : forall p a s f t, stopped (p ++ a) s f t -> stopped p (a ++ s) f t.
Proof. intros p a s f t (q & -> & W). exists (a ++ q). split; [now rewrite app_assoc|]. now rewrite app_assoc. Qed.

Lemma literal_stops : forall p c word ev st s st' f t, value_place p -> In (c :: list_ascii_of_string word) literals ->
  drive_literal handle word ev st s = Faulty st' f t -> stopped p (c :: s) f t.
Proof.
  intros p c word ev st s st' f t P L H. unfold drive_literal in H. destruct (consume (list_ascii_of_string word) s) as [r|at_] eqn:E.
  - apply send_faulty in H as [st1 H]. discriminate.
  - injection H as _ <- <-. apply consume_before in E as (q & d & y & -> & W & N). exists (c :: q). split; [reflexivity|]. right. left.
    exists p, (c :: q), d, y. split; [exact P|]. split; [discriminate|]. split; [cbn [app]; now rewrite <- W|]. split; [reflexivity|]. now apply starts_next.
Qed.

Lemma string_stops : forall p s f t, value_place p \/ name_place p -> scan_string s = inr (f, t) -> stopped p (quote :: s) f t.
Proof.
  intros p s f t P H. pose proof (scan_string_chars _ _ _ H) as (q & b & -> & C). exists (quote :: q). split; [reflexivity|].
  apply string_wrong_wrong; [now apply (scan_string_wrong (List.length (q ++ t)) (q ++ t))|]. now exists p, q, b.
Qed.

Lemma number_stops : forall p s f t, open_place p s -> (forall c s', s = c :: s' -> ~ In c ["n"; "t"; "f"; quote; "["; "{"]) -> scan_number nearest s = inr (f, t) -> stopped p s f t.
Proof.
  intros p s f t (P & D & NE & NB) Nc H. apply scan_number_wrong in H as (q & -> & W). exists q. split; [reflexivity|]. destruct f; try contradiction; cbn [number_wrong] in W.
  - destruct W as [(-> & Nd & Nm)|(-> & Nd)].
    + left. rewrite app_nil_r. cbn [app] in *. split; [exact P|]. split; [exact NE|]. split; [now apply dark_next|]. split; [|exact NB].
      apply next_not. destruct t as [|c t]; [exact I|]. specialize (Nc c t eq_refl). unfold next_is in Nm. rewrite next_cons in Nm, Nd.
      intros [I|I]; [|contradiction]. cbn in I. unfold quote in Nc. cbn in Nc. intuition congruence.
    + right. right. exists p. now split.
  - destruct W as (-> & W). rewrite app_nil_r. now split.
  - destruct W as (sign & ds & Hs & Hd & -> & N). now exists p, sign, ds.
  - destruct W as (sign & ds & fr & e & sg & W). exists p, sign, ds, fr, e, sg. destruct W as (H1 & H2 & H3 & H4 & H5 & -> & H6). repeat (split; [assumption|]). split; [reflexivity|exact H6].
Qed.

Lemma all_stopped : forall n,
  (forall k st p s st' f t, open_place p s -> drive_value nearest handle n k st s = Faulty st' f t -> stopped p s f t) /\
  (forall k st p z s st' f t, value_place p -> items_so_far z -> open_place (p ++ "[" :: z) s -> drive_items nearest handle n k st s = Faulty st' f t -> stopped (p ++ "[" :: z) s f t) /\
  (forall k st p z s st' f t, value_place p -> fields_so_far z -> dark s -> ~ (next_is "}" s /\ just_after "{" (p ++ "{" :: z)) ->
    drive_fields nearest handle n k st s = Faulty st' f t -> stopped (p ++ "{" :: z) s f t).
Proof.
  induction n as [|n (IHv & IHi & IHf)]; [repeat split; discriminate|]. split; [|split].
  - intros k st p [|c s] st' f t P H.
    { injection H as _ <- <-. exists []. split; [reflexivity|]. rewrite app_nil_r. left. destruct P as (P & D & NE & NB). split; [exact P|]. split; [exact NE|].
      split; [apply next_nil|]. split; [apply next_nil|exact NB]. }
    pose proof P as (PV & D & NE & NB). rewrite drive_value_unfold in H.
    destruct (Ascii.eqb_spec c "n") as [->|N1]; [now apply (literal_stops p "n" "ull" ENull st s st'); [|left|]|].
    destruct (Ascii.eqb_spec c "t") as [->|N2]; [now apply (literal_stops p "t" "rue" (EBool true) st s st'); [|right; left|]|].
    destruct (Ascii.eqb_spec c "f") as [->|N3]; [now apply (literal_stops p "f" "alse" (EBool false) st s st'); [|right; right; left|]|].
    destruct (Ascii.eqb_spec c quote) as [->|N4].
    { destruct (scan_string s) as [[b r]|[f' at_]] eqn:E; [apply send_faulty in H as [? H]; discriminate|]. injection H as _ -> ->. apply string_stops; [now left|exact E]. }
    destruct (Ascii.eqb_spec c "[") as [->|N5].
    { destruct k as [|k]; [discriminate|]. apply send_faulty in H as [st1 H]. pose proof (skip_spec s) as (w & B & Es & Dk).
      destruct (starts "]" (skip s)) as [r|] eqn:Er; [apply send_faulty in H as [? H]; discriminate|].
      rewrite Es. change ("[" :: w ++ skip s) with (("[" :: w) ++ skip s). apply stopped_app.
      apply (IHi k st1 p w _ st' f t PV); [now left| |exact H]. split; [now apply items_place; [|left]|]. split; [exact Dk|]. split.
      - intros [Bp _]. apply Forall_app in Bp as [_ Bp]. inversion Bp as [|? ? Hc _]; subst. cbn in Hc. intuition discriminate.
      - intros [X _]. now apply starts_next in Er. }
    destruct (Ascii.eqb_spec c "{") as [->|N6].
    { destruct k as [|k]; [discriminate|]. apply send_faulty in H as [st1 H]. pose proof (skip_spec s) as (w & B & Es & Dk).
      destruct (starts "}" (skip s)) as [r|] eqn:Er; [apply send_faulty in H as [? H]; discriminate|].
      rewrite Es. change ("{" :: w ++ skip s) with (("{" :: w) ++ skip s). apply stopped_app.
      apply (IHf k st1 p w _ st' f t PV); [now left|exact Dk| |exact H]. intros [X _]. now apply starts_next in Er. }
    destruct (scan_number nearest (c :: s)) as [[j r]|[f' at_]] eqn:E; [destruct j; try discriminate; apply send_faulty in H as [? H]; discriminate|].
    injection H as _ -> ->. apply number_stops; [exact P| |exact E]. intros c' s' Ec. injection Ec as <- <-. cbn. intuition congruence.
  - intros k st p z s st' f t P Z O H. rewrite drive_items_unfold in H.
    destruct (drive_value nearest handle n k st s) as [st1 r|st1 f' t'|st1 t'|x| |] eqn:E; try discriminate.
    2: { injection H as -> -> ->. now apply (IHv k st (p ++ "[" :: z) s st'). }
    apply passed_value in E as (x & j & -> & V & W). pose proof (skip_spec r) as (w & B & Er & D). destruct (items_go z x j w Z V B) as [l L].
    destruct (starts "," (skip r)) as [r'|] eqn:Ec.
    + apply starts_spec in Ec. pose proof (skip_spec r') as (w' & B' & Er' & D'). rewrite Er, Ec.
      assert (Et : x ++ w ++ "," :: r' = (x ++ w ++ "," :: w') ++ skip r') by (rewrite Er' at 1; rewrite <- !app_assoc; reflexivity).
      rewrite Et. apply stopped_app. replace ((p ++ "[" :: z) ++ x ++ w ++ "," :: w') with (p ++ "[" :: (z ++ x ++ w) ++ "," :: w') by (repeat (rewrite <- app_assoc; cbn [app]); reflexivity).
      apply (IHi k st1 p ((z ++ x ++ w) ++ "," :: w') _ st' f t P); [now apply (so_far_more_items _ l)| |exact H].
      split; [apply items_place; [exact P|now apply (so_far_more_items _ l)]|]. split; [exact D'|]. split.
      * intros [Bp _]. apply Forall_app in Bp as [_ Bp]. inversion Bp as [|? ? Hc _]; subst. cbn in Hc. intuition discriminate.
      * intros [_ J]. replace (p ++ "[" :: (z ++ x ++ w) ++ "," :: w') with ((p ++ "[" :: (z ++ x ++ w)) ++ "," :: w') in J by (rewrite <- app_assoc; reflexivity).
        apply after_inv in J; [discriminate|exact B'|now apply not_white|now apply not_white].
    + destruct (starts "]" (skip r)) as [r'|] eqn:Eb; [apply send_faulty in H as [? H]; discriminate|]. injection H as _ <- <-. rewrite Er at 1.
      exists (x ++ w). split; [now rewrite <- app_assoc|]. rewrite <- app_assoc. cbn [app].
      exists p, (z ++ x ++ w), l. split; [exact P|]. split; [exact L|]. split; [reflexivity|]. split; [now apply dark_next|]. split; [now apply starts_next|]. split; [now apply starts_next|].
      replace (p ++ "[" :: z ++ x ++ w) with ((p ++ "[" :: z) ++ x ++ w) by (rewrite <- app_assoc; reflexivity).
      apply (not_torn (p ++ "[" :: z) x j w); [now apply items_place|exact V|exact B|]. now rewrite <- Er.
  - intros k st p z s st' f t P Z Dk NB H. rewrite drive_fields_unfold in H. pose proof (fields_place p z P Z) as PN.
    destruct (starts quote s) as [s1|] eqn:Eq.
    2: { injection H as _ <- <-. exists []. split; [reflexivity|]. rewrite app_nil_r. split; [exact PN|]. split; [now apply dark_next|]. split; [now apply starts_next|exact NB]. }
    apply starts_spec in Eq as ->. destruct (scan_string s1) as [[b s2]|[f' at_]] eqn:E.
    2: { injection H as _ -> ->. apply string_stops; [now right|exact E]. }
    apply scan_string_sound in E as (y & C & ->). apply send_faulty in H as [st1 H]. pose proof (skip_spec s2) as (w1 & B1 & Es2 & D1).
    assert (Em : quote :: y ++ quote :: s2 = marked y ++ s2) by (unfold marked; cbn [app]; rewrite <- app_assoc; reflexivity). rewrite Em.
    destruct (starts ":" (skip s2)) as [s3|] eqn:Ec.
    2: { injection H as _ <- <-. exists (marked y ++ w1). split; [rewrite <- app_assoc; now rewrite <- Es2|]. exists (p ++ "{" :: z), y, b, w1. split; [exact PN|].
         split; [exact C|]. split; [exact B1|]. split; [reflexivity|]. split; [now apply dark_next|now apply starts_next]. }
    apply starts_spec in Ec. pose proof (skip_spec s3) as (w2 & B2 & Es3 & D2).
    assert (PM : value_place ((p ++ "{" :: z) ++ marked y ++ w1 ++ ":" :: w2)) by now apply (place_member nearest _ y b).
    assert (OP : open_place ((p ++ "{" :: z) ++ marked y ++ w1 ++ ":" :: w2) (skip s3)).
    { split; [exact PM|]. split; [exact D2|]. split.
      - intros [Bp _]. apply Forall_app in Bp as [_ Bp]. inversion Bp as [|? ? Hc _]; subst. cbn in Hc. intuition discriminate.
      - intros [_ J]. rewrite !app_assoc in J. apply after_inv in J; [discriminate|exact B2|now apply not_white|now apply not_white]. }
    assert (Et : marked y ++ s2 = (marked y ++ w1 ++ ":" :: w2) ++ skip s3) by (rewrite Es2, Ec, Es3 at 1; rewrite <- !app_assoc; reflexivity).
    rewrite Et. apply stopped_app.
    destruct (drive_value nearest handle n k st1 (skip s3)) as [st2 r|st2 f' t'|st2 t'|x| |] eqn:Ev; try discriminate.
    2: { injection H as -> -> ->. now apply (IHv k st1 _ (skip s3) st'). }
    apply passed_value in Ev as (x & j & Ex & V & W). pose proof (skip_spec r) as (w & B & Er & D).
    destruct (fields_go z y b w1 w2 x j w Z C B1 B2 V B) as [l L]. rewrite Ex.
    destruct (starts "," (skip r)) as [r'|] eqn:Ek.
    + apply starts_spec in Ek. pose proof (skip_spec r') as (w' & B' & Er' & D'). rewrite Er, Ek.
      assert (Et' : x ++ w ++ "," :: r' = (x ++ w ++ "," :: w') ++ skip r') by (rewrite Er' at 1; rewrite <- !app_assoc; reflexivity).
      rewrite Et'. apply stopped_app.
      replace (((p ++ "{" :: z) ++ marked y ++ w1 ++ ":" :: w2) ++ x ++ w ++ "," :: w') with (p ++ "{" :: (z ++ marked y ++ w1 ++ ":" :: w2 ++ x ++ w) ++ "," :: w')
        by (repeat (rewrite <- app_assoc; cbn [app]); reflexivity).
      apply (IHf k st2 p ((z ++ marked y ++ w1 ++ ":" :: w2 ++ x ++ w) ++ "," :: w') _ st' f t P); [now apply (so_far_more_fields _ l)|exact D'| |exact H].
      intros [_ J]. rewrite app_comm_cons, app_assoc in J. apply after_inv in J; [discriminate|exact B'|now apply not_white|now apply not_white].
    + destruct (starts "}" (skip r)) as [r'|] eqn:Eb; [apply send_faulty in H as [? H]; discriminate|]. injection H as _ <- <-. rewrite Er at 1.
      exists (x ++ w). split; [now rewrite <- app_assoc|].
      assert (Ep : ((p ++ "{" :: z) ++ marked y ++ w1 ++ ":" :: w2) ++ x ++ w = p ++ "{" :: (z ++ marked y ++ w1 ++ ":" :: w2 ++ x ++ w)) by (repeat (rewrite <- app_assoc; cbn [app]); reflexivity).
      exists p, (z ++ marked y ++ w1 ++ ":" :: w2 ++ x ++ w), l. split; [exact P|]. split; [exact L|]. split; [exact Ep|]. split; [now apply dark_next|].
      split; [now apply starts_next|]. split; [now apply starts_next|]. apply (not_torn _ x j w); [exact PM|exact V|exact B|]. now rewrite <- Er.
Qed.

Theorem text_stopped : forall k st str st' f t, drive_text nearest handle k st str = Faulty st' f t ->
  exists p, list_ascii_of_string (c_string str) = p ++ t /\ wrong nearest f p t.
Proof.
  intros k st str st' f t H. unfold drive_text in H. set (s := list_ascii_of_string (c_string str)) in *. clearbody s. cbv zeta in H.
  pose proof (skip_spec s) as (w & B & Es & D). destruct (skip s) as [|c0 s0] eqn:E0.
  { injection H as _ <- <-. exists w. split; [exact Es|now split]. }
  set (s' := c0 :: s0) in *. assert (Ns : s' <> []) by discriminate. clearbody s'. clear c0 s0 E0. set (n := 2 * List.length s' + 2) in *. clearbody n.
  destruct (drive_value nearest handle n k st s') as [st1 r|st1 f' t'|st1 t'|x| |] eqn:E; try discriminate.
  - apply passed_value in E as (x & j & -> & V & W). pose proof (skip_spec r) as (w' & B' & Er & D'). destruct (skip r) as [|c r'] eqn:Ec; [discriminate|].
    injection H as _ <- <-. exists (w ++ x ++ w'). split; [rewrite Es, Er, <- !app_assoc; reflexivity|]. split; [exists j; now apply spaced_value|]. split; [discriminate|].
    split; [now apply dark_next|]. apply (not_torn w x j w'); [now apply place_root|exact V|exact B'|]. now rewrite <- Er.
  - injection H as -> -> ->. assert (O : open_place w s').
    { split; [now apply place_root|]. split; [exact D|]. split; [intros [_ X]; contradiction|]. intros [_ J]. apply after_blank in J; [exact J|exact B|now apply not_white]. }
    destruct (proj1 (all_stopped n) k st w s' st' f t O E) as (q & Eq & W). exists (w ++ q). split; [rewrite Es, Eq; apply app_assoc|exact W].
Qed.
End Handler.

End Reader.
