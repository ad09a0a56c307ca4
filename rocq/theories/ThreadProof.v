From Coq Require Import List ZArith Ascii Bool Lia.
From Verif Require Import Base DatetimeModel ThreadModel ThreadSpec.
Import ListNotations.
Local Open Scope Z_scope.

Lemma field_eqb_spec : forall f g, field_eqb f g = true <-> f = g.
Proof. intros [] []; cbn; split; (discriminate || reflexivity). Qed.

Lemma store_other : forall b f z g, store b f z g = b g \/ (g = f /\ store b f z g = z).
Proof.
  intros b f z g. unfold store. destruct (field_eqb f g) eqn:E; [|left; reflexivity].
  apply field_eqb_spec in E. subst. right. split; reflexivity.
Qed.

Lemma store_same : forall b f z, store b f z f = z.
Proof. intros b f z. unfold store. replace (field_eqb f f) with true by (destruct f; reflexivity). reflexivity. Qed.

(** ** The text as pieces *)

Lemma to_chars_length : forall field first v, (first <= List.length field)%nat ->
  List.length (to_chars field first v) = List.length field.
Proof.
  intros fl first v L. unfold to_chars. destruct (Nat.leb _ _) eqn:E; [|reflexivity]. apply Nat.leb_le in E.
  rewrite !app_length, firstn_length, skipn_length. lia.
Qed.

Lemma aligned2_length : forall v, List.length (aligned2 (zeros 2) v) = 2%nat.
Proof. intro v. unfold aligned2. destruct (v <? 10); apply to_chars_length; cbn; lia. Qed.

Lemma aligned4_length : forall v, List.length (aligned4 (zeros 4) v) = 4%nat.
Proof.
  intro v. unfold aligned4. destruct (v <? 10); [|destruct (v <? 100); [|destruct (v <? 1000)]]; apply to_chars_length; cbn; lia.
Qed.

Definition digits (f : field) (z : Z) : list ascii :=
  match f with
  | Year => aligned4 (zeros 4) (z + 1900)
  | Month => aligned2 (zeros 2) (z + 1)
  | _ => aligned2 (zeros 2) z
  end.

Lemma two : forall v, exists a b, aligned2 (zeros 2) v = [a; b].
Proof.
  intro v. pose proof (aligned2_length v) as L. destruct (aligned2 (zeros 2) v) as [|a [|b [|]]]; try discriminate. eauto.
Qed.

Lemma four : forall v, exists a b c d, aligned4 (zeros 4) v = [a; b; c; d].
Proof.
  intro v. pose proof (aligned4_length v) as L. destruct (aligned4 (zeros 4) v) as [|a [|b [|c [|d [|]]]]]; try discriminate. eauto 6.
Qed.

Lemma text_some : forall k l, in_int32 (l Year + 1900) = true -> exists s, text k l = Some s.
Proof.
  intros k l E. unfold text, full_year. rewrite E. cbn [bind]. destruct k; eexists; reflexivity.
Qed.

Lemma text_year : forall k l s, text k l = Some s -> in_int32 (l Year + 1900) = true.
Proof. intros k l s E. unfold text, full_year in E. destruct (in_int32 (l Year + 1900)); [reflexivity|discriminate]. Qed.

Lemma text_pieces : forall k l s, text k l = Some s -> layout k s /\ forall f, In f (fields k) -> piece f s = digits f (l f).
Proof.
  intros k l s E. pose proof (text_year k l s E) as Y. unfold text, full_year in E. rewrite Y in E. cbn [bind] in E.
  destruct (four (l Year + 1900)) as (a1 & a2 & a3 & a4 & A), (two (l Month + 1)) as (b1 & b2 & B), (two (l Day)) as (c1 & c2 & C),
    (two (l Hour)) as (d1 & d2 & D), (two (l Minute)) as (e1 & e2 & F), (two (l Second)) as (g1 & g2 & G).
  rewrite A, B, C, ?D, ?F, ?G in E. destruct k; injection E as <-; (split; [reflexivity|]); intros f I; cbn in I;
    repeat destruct I as [<-|I]; try destruct I; cbn [digits]; rewrite ?A, ?B, ?C, ?D, ?F, ?G; reflexivity.
Qed.

Lemma text_ext : forall k l l', (forall f, In f (fields k) -> l f = l' f) -> text k l = text k l'.
Proof.
  intros k l l' E. unfold text.
  rewrite (E Year), (E Month), (E Day) by (destruct k; cbn; auto). destruct k; [reflexivity|].
  rewrite (E Hour), (E Minute), (E Second) by (cbn; auto 7). reflexivity.
Qed.

Lemma text_own : forall tps c cal, gmtime (to_time_t tps (ticks c)) = Some cal -> text (which c) (calendar cal) = own_text tps c.
Proof.
  intros tps c cal E. unfold own_text, to_iso_date, to_iso_datetime. rewrite E. destruct cal as (((((y, m), d), hh), mi), ss).
  unfold text, calendar. cbn [bind]. destruct (which c); destruct (full_year y); try reflexivity.
  cbn [bind]. rewrite <- !app_assoc. reflexivity.
Qed.

Lemma datetime_own : forall tps t cal, gmtime (to_time_t tps t) = Some cal -> text Datetime (calendar cal) = to_iso_datetime tps t.
Proof. intros tps t cal E. exact (text_own tps {| which := Datetime; ticks := t |} cal E). Qed.

Lemma datetime_gmtime : forall tps t s, to_iso_datetime tps t = Some s -> exists cal, gmtime (to_time_t tps t) = Some cal.
Proof.
  intros tps t s E. unfold to_iso_datetime in E. destruct (gmtime (to_time_t tps t)) as [cal|]; [eauto|discriminate].
Qed.

(** ** A call in progress *)

(** [ok]: the values that may be in a member. *)
Definition sound (ok : field -> Z -> Prop) (b : tm) (k : kind) (p : list instruction) (l : tm) : Prop :=
  exists ps gs, p = map (fun x => Put (fst x) (snd x)) ps ++ map Get gs /\
    (forall f z, In (f, z) ps -> ok f z) /\
    (forall f, In f gs -> In f (map fst ps) \/ ok f (b f)) /\
    (forall f, In f (fields k) -> In f gs \/ ok f (l f)).

Lemma sound_code : forall (ok : field -> Z -> Prop) b order k (cal : tm) l, (forall f, In f order) -> (forall f, ok f (cal f)) ->
  sound ok b k (code order k cal) l.
Proof.
  intros ok b order k cal l A O. exists (map (fun f => (f, cal f)) order), (fields k). split; [|split; [|split]].
  - unfold code. rewrite map_map. reflexivity.
  - intros f z I. apply in_map_iff in I. destruct I as (g & E & _). injection E as -> <-. apply O.
  - intros f I. left. rewrite map_map. apply in_map_iff. exists f. split; [reflexivity|apply A].
  - intros f I. left. exact I.
Qed.

Lemma sound_put : forall (ok : field -> Z -> Prop) b k f z p l, sound ok b k (Put f z :: p) l -> ok f z /\ sound ok (store b f z) k p l.
Proof.
  intros ok b k f z p l (ps & gs & E & P & G & F). destruct ps as [|(g, y) ps].
  - destruct gs; discriminate.
  - injection E as -> -> ->. split; [apply P; left; reflexivity|]. exists ps, gs.
    split; [reflexivity|split; [intros; apply P; right; assumption|split; [|exact F]]].
    intros h I. destruct (store_other b g y h) as [S|(-> & S)].
    + rewrite S. destruct (G h I) as [[<-|J]|J]; [|left; exact J|right; exact J].
      right. cbn [fst] in *. rewrite store_same in S. rewrite <- S. apply P. left. reflexivity.
    + right. rewrite S. apply P. left. reflexivity.
Qed.

Lemma sound_get : forall (ok : field -> Z -> Prop) b k f p l, sound ok b k (Get f :: p) l -> sound ok b k p (store l f (b f)).
Proof.
  intros ok b k f p l (ps & gs & E & P & G & F). destruct ps as [|(g, y) ps]; [|discriminate].
  destruct gs as [|g gs]; [discriminate|]. injection E as -> ->. exists [], gs.
  split; [reflexivity|split; [exact P|split; [intros h I; apply G; right; exact I|]]].
  intros h I. destruct (store_other l g (b g) h) as [S|(-> & S)]; rewrite S.
  - destruct (F h I) as [[<-|J]|J]; [|left; exact J|right; exact J]. rewrite store_same in S. right. rewrite <- S.
    destruct (G g (or_introl eq_refl)) as [[]|J]; exact J.
  - right. destruct (G g (or_introl eq_refl)) as [[]|J]; exact J.
Qed.

Lemma sound_end : forall (ok : field -> Z -> Prop) b k l, sound ok b k [] l -> forall f, In f (fields k) -> ok f (l f).
Proof.
  intros ok b k l (ps & gs & E & P & G & F) f I. destruct ps; [|discriminate]. destruct gs; [|discriminate].
  destruct (F f I) as [[]|H]; exact H.
Qed.

Lemma sound_other : forall (ok : field -> Z -> Prop) b k p l f z, ok f z -> sound ok b k p l -> sound ok (store b f z) k p l.
Proof.
  intros ok b k p l f z O (ps & gs & E & P & G & F). exists ps, gs. split; [exact E|split; [exact P|split; [|exact F]]].
  intros h I. destruct (G h I) as [J|J]; [left; exact J|right]. destruct (store_other b f z h) as [S|(-> & S)]; rewrite S; assumption.
Qed.

(** ** Lists of threads *)

Lemma put_at_other : forall A (l : list A) i j x, i <> j -> nth_error (put_at i x l) j = nth_error l j.
Proof.
  induction l as [|y l IH]; intros [|i] [|j] x N; cbn; try reflexivity; try congruence. apply IH. congruence.
Qed.

Lemma put_at_same : forall A (l : list A) i x y, nth_error l i = Some y -> nth_error (put_at i x l) i = Some x.
Proof.
  induction l as [|y l IH]; intros [|i] x z E; cbn in *; try discriminate; [reflexivity|]. eapply IH. exact E.
Qed.

Lemma put_at_length : forall A (l : list A) i x, List.length (put_at i x l) = List.length l.
Proof. induction l as [|y l IH]; intros [|i] x; cbn; auto. Qed.

(** What is to say about a thread: [cs] are all its calls, [right] relates calls and texts. *)
Definition good (right : call -> list ascii -> Prop) (ok : call -> field -> Z -> Prop) (b : tm) (cs : list call) (t : thread) : Prop :=
  exists past, Forall2 right past (got t) /\
    match doing t with
    | None => cs = past ++ todo t
    | Some (k, p, l) => exists c, cs = past ++ c :: todo t /\ k = which c /\ sound (ok c) b k p l
    end.

Lemma good_step : forall right (ok : call -> field -> Z -> Prop) tps order b cs t,
  (forall f, In f order) ->
  (forall c cal f, In c cs -> gmtime (to_time_t tps (ticks c)) = Some cal -> ok c f (calendar cal f)) ->
  (forall c, In c cs -> gmtime (to_time_t tps (ticks c)) <> None) ->
  (forall c l, In c cs -> (forall f, In f (fields (which c)) -> ok c f (l f)) -> exists s, text (which c) l = Some s /\ right c s) ->
  good right ok b cs t ->
  exists b' t', thread_step tps order b t = Some (b', t') /\ good right ok b' cs t' /\
    (b' = b \/ exists c f z, In c cs /\ ok c f z /\ doing t <> None /\ b' = store b f z).
Proof.
  intros right ok tps order b cs t A O N T (past & R & D). unfold thread_step.
  destruct (doing t) as [((k, p), l)|] eqn:Dt.
  - destruct D as (c & E & -> & S). assert (I : In c cs) by (rewrite E; apply in_or_app; right; left; reflexivity).
    destruct p as [|[f z|f] p].
    + destruct (T c l I (sound_end _ _ _ _ S)) as (s & X & Y). rewrite X. cbn [bind]. do 2 eexists. split; [reflexivity|].
      split; [|left; reflexivity]. exists (past ++ [c]). cbn. split; [apply Forall2_app; [exact R|constructor; [exact Y|constructor]]|].
      rewrite <- app_assoc. exact E.
    + destruct (sound_put _ _ _ _ _ _ _ S) as (K & S'). do 2 eexists. split; [reflexivity|].
      split; [|right; exists c, f, z; split; [exact I|split; [exact K|split; [discriminate|reflexivity]]]].
      exists past. cbn. split; [exact R|]. exists c. auto.
    + do 2 eexists. split; [reflexivity|]. split; [|left; reflexivity]. exists past. cbn. split; [exact R|]. exists c.
      split; [exact E|split; [reflexivity|apply sound_get; exact S]].
  - destruct (todo t) as [|c cs'] eqn:Td.
    + do 2 eexists. split; [reflexivity|]. split; [|left; reflexivity]. exists past. rewrite Dt, Td. auto.
    + assert (I : In c cs) by (rewrite D; apply in_or_app; right; left; reflexivity).
      destruct (gmtime (to_time_t tps (ticks c))) as [cal|] eqn:G; [|exfalso; exact (N c I G)]. cbn [bind].
      do 2 eexists. split; [reflexivity|]. split; [|left; reflexivity]. exists past. cbn. split; [exact R|]. exists c.
      split; [exact D|split; [reflexivity|]]. apply sound_code; [exact A|]. intro f. apply (O c cal f I G).
Qed.

Definition all_good right ok (calls : list (list call)) (w : world) : Prop :=
  List.length (threads w) = List.length calls /\
  forall i cs t, nth_error calls i = Some cs -> nth_error (threads w) i = Some t -> good right ok (buffer w) cs t.

Lemma all_good_start : forall right ok calls b, all_good right ok calls (start b calls).
Proof.
  intros right ok calls b. split; [apply map_length|]. intros i cs t E F. cbn in F. rewrite nth_error_map, E in F.
  injection F as <-. exists []. split; [constructor|reflexivity].
Qed.

Lemma good_other : forall right (ok : call -> field -> Z -> Prop) b cs t f z, (forall c, In c cs -> doing t <> None -> ok c f z) ->
  good right ok b cs t -> good right ok (store b f z) cs t.
Proof.
  intros right ok b cs t f z O (past & R & D). exists past. split; [exact R|]. destruct (doing t) as [((k, p), l)|]; [|exact D].
  destruct D as (c & E & K & S). exists c. split; [exact E|split; [exact K|]]. apply sound_other; [|exact S]. apply O; [|discriminate].
  rewrite E. apply in_or_app. right. left. reflexivity.
Qed.

Lemma all_good_step : forall right (ok : call -> field -> Z -> Prop) calls tps order w i,
  (forall f, In f order) ->
  (forall cs c cal f, In cs calls -> In c cs -> gmtime (to_time_t tps (ticks c)) = Some cal -> ok c f (calendar cal f)) ->
  (forall cs c, In cs calls -> In c cs -> gmtime (to_time_t tps (ticks c)) <> None) ->
  (forall cs c l, In cs calls -> In c cs -> (forall f, In f (fields (which c)) -> ok c f (l f)) ->
    exists s, text (which c) l = Some s /\ right c s) ->
  ((forall c c' f z, ok c f z -> ok c' f z) \/ one_at_most w) ->
  all_good right ok calls w ->
  exists w', step tps order w i = Some w' /\ all_good right ok calls w'.
Proof.
  intros right ok calls tps order w i A O N T X (L & G). unfold step.
  destruct (nth_error (threads w) i) as [t|] eqn:Ei; [|exists w; split; [reflexivity|split; assumption]].
  destruct (nth_error calls i) as [cs|] eqn:Ci.
  2:{ exfalso. apply nth_error_None in Ci. assert (i < List.length (threads w))%nat by (apply nth_error_Some; congruence). lia. }
  assert (I : In cs calls) by (eapply nth_error_In; exact Ci).
  destruct (good_step right ok tps order (buffer w) cs t A) as (b' & t' & E & G' & B).
  - intros c cal f. apply (O cs c cal f I).
  - intros c. apply (N cs c I).
  - intros c l. apply (T cs c l I).
  - apply (G i); assumption.
  - rewrite E. cbn [bind fst snd]. eexists. split; [reflexivity|]. split; [cbn; rewrite put_at_length; exact L|]. cbn.
    intros j cj tj Cj Ej. destruct (Nat.eq_dec i j) as [<-|Nij].
    + rewrite (put_at_same _ _ _ _ _ Ei) in Ej. injection Ej as <-. rewrite Ci in Cj. injection Cj as <-. exact G'.
    + rewrite put_at_other in Ej by exact Nij. pose proof (G j cj tj Cj Ej) as Gj.
      destruct B as [->|(c & f & z & Ic & K & Bt & ->)]; [exact Gj|]. apply good_other; [|exact Gj].
      intros c' Ic' Bj. destruct X as [X|X]; [apply (X c); exact K|]. exfalso. apply Nij. apply (X i j t tj); assumption.
Qed.

Lemma good_got : forall right ok b cs t, good right ok b cs t -> Forall2 right (firstn (List.length (got t)) cs) (got t).
Proof.
  intros right ok b cs t (past & R & D). assert (L : List.length past = List.length (got t)).
  { clear D. induction R; cbn; congruence. }
  assert (E : exists rest, cs = past ++ rest) by (destruct (doing t) as [((k, p), l)|]; [destruct D as (c & E & _)|]; eauto).
  destruct E as (rest & ->). rewrite <- L, firstn_app, Nat.sub_diag, firstn_all, app_nil_r. exact R.
Qed.

(** ** Steps until a thread is finished *)

Definition cost (order : list field) (c : call) : nat := S (S (List.length order + List.length (fields (which c)))).

Definition total (order : list field) (cs : list call) : nat := list_sum (map (cost order) cs).

Definition left_over (order : list field) (t : thread) : nat :=
  (match doing t with None => 0 | Some (_, p, _) => S (List.length p) end + total order (todo t))%nat.

Lemma left_over_step : forall tps order b t b' t', thread_step tps order b t = Some (b', t') ->
  left_over order t' = pred (left_over order t).
Proof.
  intros tps order b t b' t' E. unfold thread_step in E. unfold left_over. destruct (doing t) as [((k, [|[f z|f] p]), l)|] eqn:D.
  - destruct (text k l); [|discriminate]. injection E as <- <-. reflexivity.
  - injection E as <- <-. reflexivity.
  - injection E as <- <-. reflexivity.
  - destruct (todo t) as [|c cs] eqn:T.
    + injection E as <- <-. rewrite D, T. reflexivity.
    + destruct (gmtime _); [|discriminate]. injection E as <- <-. cbn [doing todo]. unfold code.
      rewrite app_length, !map_length. unfold total, cost. cbn. reflexivity.
Qed.

Lemma left_over_run : forall tps order schedule w w' i t t', run tps order w schedule = Some w' ->
  nth_error (threads w) i = Some t -> nth_error (threads w') i = Some t' ->
  left_over order t' = (left_over order t - count_occ Nat.eq_dec schedule i)%nat.
Proof.
  intros tps order. induction schedule as [|j schedule IH]; intros w w' i t t' E T T'.
  - injection E as <-. rewrite T in T'. injection T' as <-. cbn. lia.
  - cbn [run] in E. destruct (step tps order w j) as [w1|] eqn:S1; [|discriminate]. cbn [bind] in E. unfold step in S1. cbn [count_occ].
    destruct (nth_error (threads w) j) as [tj|] eqn:Tj.
    + destruct (thread_step tps order (buffer w) tj) as [(b1, t1)|] eqn:TS; [|discriminate]. injection S1 as <-. cbn [fst snd] in E.
      destruct (Nat.eq_dec j i) as [->|N].
      * rewrite T in Tj. injection Tj as <-. erewrite (IH _ _ i t1 t' E); [|cbn; eapply put_at_same; exact T|exact T'].
        rewrite (left_over_step _ _ _ _ _ _ TS). lia.
      * apply (IH _ _ i t t' E); [cbn; rewrite put_at_other; assumption|exact T'].
    + injection S1 as <-. destruct (Nat.eq_dec j i) as [->|N]; [congruence|]. apply (IH _ _ i t t' E T T').
Qed.

Lemma good_finished : forall right ok order b cs t, good right ok b cs t -> left_over order t = 0%nat ->
  List.length (got t) = List.length cs.
Proof.
  intros right ok order b cs t (past & R & D) Z. unfold left_over in Z. destruct (doing t) as [((k, p), l)|]; [discriminate|].
  destruct (todo t) as [|c rest]; [|discriminate]. rewrite D, app_nil_r. symmetry. clear D. induction R; cbn; congruence.
Qed.

(** ** All executions *)

Lemma run_good : forall right (ok : call -> field -> Z -> Prop) calls tps order,
  (forall f, In f order) ->
  (forall cs c cal f, In cs calls -> In c cs -> gmtime (to_time_t tps (ticks c)) = Some cal -> ok c f (calendar cal f)) ->
  (forall cs c, In cs calls -> In c cs -> gmtime (to_time_t tps (ticks c)) <> None) ->
  (forall cs c l, In cs calls -> In c cs -> (forall f, In f (fields (which c)) -> ok c f (l f)) ->
    exists s, text (which c) l = Some s /\ right c s) ->
  forall schedule w,
  ((forall c c' f z, ok c f z -> ok c' f z) \/ exclusive tps order w schedule) ->
  all_good right ok calls w ->
  exists w', run tps order w schedule = Some w' /\ all_good right ok calls w'.
Proof.
  intros right ok calls tps order A O N T. induction schedule as [|i schedule IH]; intros w X G.
  - exists w. split; [reflexivity|exact G].
  - destruct (all_good_step right ok calls tps order w i A O N T) as (w1 & E & G1); [|exact G|].
    + destruct X as [X|(X & _)]; [left|right]; exact X.
    + cbn [run]. rewrite E. cbn [bind]. apply IH; [|exact G1]. destruct X as [X|(_ & X)]; [left; exact X|right; apply X; exact E].
Qed.

Lemma representable_gmtime : forall tps calls, representable tps calls ->
  forall cs c, In cs calls -> In c cs -> gmtime (to_time_t tps (ticks c)) <> None.
Proof.
  intros tps calls R cs c I J. destruct (R cs c I J) as (s & E). destruct (datetime_gmtime _ _ _ E) as (cal & ->). discriminate.
Qed.

(** The values of a call, and those of all calls. *)
Definition own tps (c : call) (f : field) (z : Z) : Prop :=
  exists cal, gmtime (to_time_t tps (ticks c)) = Some cal /\ z = calendar cal f.

Definition any tps (calls : list (list call)) (_ : call) (f : field) (z : Z) : Prop :=
  exists cs c, In cs calls /\ In c cs /\ own tps c f z.

Lemma own_right : forall tps calls, representable tps calls ->
  forall cs c l, In cs calls -> In c cs -> (forall f, In f (fields (which c)) -> own tps c f (l f)) ->
    exists s, text (which c) l = Some s /\ own_text tps c = Some s.
Proof.
  intros tps calls R cs c l I J O. destruct (R cs c I J) as (s & E). destruct (datetime_gmtime _ _ _ E) as (cal & G).
  assert (X : text (which c) l = own_text tps c).
  { rewrite <- (text_own _ _ _ G). apply text_ext. intros f F. destruct (O f F) as (cal' & G' & ->). congruence. }
  rewrite X. rewrite <- (datetime_own _ _ _ G) in E. pose proof (text_year _ _ _ E) as Y.
  destruct (text_some (which c) (calendar cal) Y) as (s' & E'). rewrite (text_own _ _ _ G) in E'. exists s'. auto.
Qed.

Lemma any_right : forall tps calls, representable tps calls ->
  forall cs c l, In cs calls -> In c cs -> (forall f, In f (fields (which c)) -> any tps calls c f (l f)) ->
    exists s, text (which c) l = Some s /\ pieced tps (concat calls) (which c) s.
Proof.
  intros tps calls R cs c l I J O.
  assert (P : forall f, In f (fields (which c)) -> exists c' t cal, In c' (concat calls) /\ to_iso_datetime tps (ticks c') = Some t /\
    text Datetime (calendar cal) = Some t /\ l f = calendar cal f).
  { intros f F. destruct (O f F) as (cs' & c' & I' & J' & cal & G & E). destruct (R cs' c' I' J') as (t & T).
    exists c', t, cal. split; [apply in_concat; eauto|]. rewrite (datetime_own _ _ _ G). auto. }
  assert (Y : in_int32 (l Year + 1900) = true).
  { destruct (P Year) as (c' & t & cal & _ & _ & T & ->); [destruct (which c); left; reflexivity|]. apply (text_year _ _ _ T). }
  destruct (text_some (which c) l Y) as (s & E). exists s. split; [exact E|]. destruct (text_pieces _ _ _ E) as (L & Q). split; [exact L|].
  intros f F. destruct (P f F) as (c' & t & cal & I' & T & T' & Ef). exists c', t. split; [exact I'|split; [exact T|]].
  rewrite (Q f F), Ef. symmetry. apply (text_pieces _ _ _ T'). destruct f; cbn; auto 7.
Qed.

Lemma exclusive_run : forall tps order calls b schedule, (forall f, In f order) -> representable tps calls ->
  exclusive tps order (start b calls) schedule ->
  exists w, run tps order (start b calls) schedule = Some w /\ all_good (fun c s => own_text tps c = Some s) (own tps) calls w.
Proof.
  intros tps order calls b schedule A R X. apply run_good; auto.
  - intros cs c cal f _ _ G. exists cal. auto.
  - apply representable_gmtime. exact R.
  - apply own_right. exact R.
  - apply all_good_start.
Qed.

Lemma any_run : forall tps order calls b schedule, (forall f, In f order) -> representable tps calls ->
  exists w, run tps order (start b calls) schedule = Some w /\
    all_good (fun c s => pieced tps (concat calls) (which c) s) (any tps calls) calls w.
Proof.
  intros tps order calls b schedule A R. apply run_good; auto.
  - intros cs c cal f I J G. exists cs, c. split; [exact I|split; [exact J|]]. exists cal. auto.
  - apply representable_gmtime. exact R.
  - apply any_right. exact R.
  - apply all_good_start.
Qed.

Lemma date_piece : forall tps v s t f, to_iso_date tps v = Some s -> to_iso_datetime tps v = Some t -> In f (fields Date) ->
  piece f t = piece f s.
Proof.
  intros tps v s t f S T F. destruct (datetime_gmtime _ _ _ T) as (cal & G). rewrite <- (datetime_own _ _ _ G) in T.
  pose proof (text_own tps {| which := Date; ticks := v |} cal G) as D. unfold own_text in D. cbn [which ticks] in D. rewrite S in D.
  rewrite (proj2 (text_pieces _ _ _ D) f F). apply (text_pieces _ _ _ T). destruct f; cbn; auto 7.
Qed.

Lemma date_some : forall tps v t, to_iso_datetime tps v = Some t -> exists s, to_iso_date tps v = Some s.
Proof.
  intros tps v t T. destruct (datetime_gmtime _ _ _ T) as (cal & G). rewrite <- (datetime_own _ _ _ G) in T.
  destruct (text_some Date _ (text_year _ _ _ T)) as (s & E). exists s. rewrite <- E. symmetry.
  exact (text_own tps {| which := Date; ticks := v |} cal G).
Qed.

Lemma date_layout : forall tps v s, to_iso_date tps v = Some s -> layout Date s.
Proof.
  intros tps v s S. assert (G : exists cal, gmtime (to_time_t tps v) = Some cal).
  { unfold to_iso_date in S. destruct (gmtime (to_time_t tps v)); [eauto|discriminate]. }
  destruct G as (cal & G). pose proof (text_own tps {| which := Date; ticks := v |} cal G) as D.
  unfold own_text in D. cbn [which ticks] in D. rewrite S in D. apply (text_pieces _ _ _ D).
Qed.
