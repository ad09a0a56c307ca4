(** Reading in place gives the same document as reading a copy. *)
From Coq Require Import List Arith ZArith NArith Ascii String Bool Lia.
From Verif Require Import Base Float Decimal10 Json Events Types SerializeModel DeserializeModel ParseModel TextModel TextSpec TextProof InsituModel InsituSpec.
Import ListNotations.
Local Open Scope char_scope.

(** * One character *)

Ltac cases := repeat match goal with |- context [match ?x with _ => _ end] => destruct x; try reflexivity end.

Lemma by_one : forall s, read_string s =
  match one s with
  | None => None
  | Some (None, r) => Some ([], r)
  | Some (Some b, r) => put b (read_string r)
  end.
Proof.
  intros [|c s1]; [reflexivity|]. unfold one. set (X := read_string (c :: s1)). unfold read_string in X. fold read_string in X. subst X. 
  destruct (Ascii.eqb c quote); [reflexivity|]. destruct (Ascii.eqb c backslash); [|destruct (N_of_ascii c <? 32)%N; reflexivity].
  destruct s1 as [|x s2]; [reflexivity|]. destruct (Ascii.eqb x quote || Ascii.eqb x backslash || Ascii.eqb x "/"); [reflexivity|].
  destruct (Ascii.eqb x "b"); [reflexivity|]. destruct (Ascii.eqb x "f"); [reflexivity|]. destruct (Ascii.eqb x "n"); [reflexivity|].
  destruct (Ascii.eqb x "r"); [reflexivity|]. destruct (Ascii.eqb x "t"); [reflexivity|]. destruct (Ascii.eqb x "u"); [|reflexivity].
  destruct s2 as [|h1 [|h2 [|h3 [|h4 s3]]]]; try reflexivity. destruct (hex4 h1 h2 h3 h4) as [cp|]; [|reflexivity].
  destruct ((55296 <=? cp) && (cp <=? 57343))%N; [|reflexivity]. destruct (cp <=? 56319)%N; [|reflexivity].
  destruct s3 as [|y [|z [|k1 [|k2 [|k3 [|k4 s4]]]]]]; try reflexivity. destruct (Ascii.eqb y backslash && Ascii.eqb z "u"); [|reflexivity].
  destruct (hex4 k1 k2 k3 k4) as [cp2|]; [|reflexivity]. destruct ((cp2 <? 56320) || (57343 <? cp2))%N; reflexivity.
Qed.

Lemma utf8_short : forall cp, List.length (utf8_bytes cp) <= 4 /\ 1 <= List.length (utf8_bytes cp).
Proof. intros cp. unfold utf8_bytes. destruct (cp <=? 127)%N, (cp <=? 2047)%N, (cp <=? 65535)%N; cbn; lia. Qed.

Lemma one_consumes : forall s o r, one s = Some (o, r) -> exists k, s = firstn k s ++ r /\ List.length s = k + List.length r /\ match o with Some b => List.length b <= k /\ 1 <= k | None => k = 1 end.
Proof.
  intros [|c s1] o r; [discriminate|]. unfold one. intros H.
  destruct (Ascii.eqb c quote); [injection H as <- <-; exists 1; cbn; auto|]. destruct (Ascii.eqb c backslash).
  2:{ destruct (N_of_ascii c <? 32)%N; [discriminate|]. injection H as <- <-. exists 1. cbn. auto. }
  destruct s1 as [|x s2]; [discriminate|].
  destruct (Ascii.eqb x quote || Ascii.eqb x backslash || Ascii.eqb x "/"); [injection H as <- <-; exists 2; cbn; auto|].
  destruct (Ascii.eqb x "b"); [injection H as <- <-; exists 2; cbn; auto|]. destruct (Ascii.eqb x "f"); [injection H as <- <-; exists 2; cbn; auto|].
  destruct (Ascii.eqb x "n"); [injection H as <- <-; exists 2; cbn; auto|]. destruct (Ascii.eqb x "r"); [injection H as <- <-; exists 2; cbn; auto|].
  destruct (Ascii.eqb x "t"); [injection H as <- <-; exists 2; cbn; auto|]. destruct (Ascii.eqb x "u"); [|discriminate].
  destruct s2 as [|h1 [|h2 [|h3 [|h4 s3]]]]; try discriminate. destruct (hex4 h1 h2 h3 h4) as [cp|]; [|discriminate].
  destruct ((55296 <=? cp) && (cp <=? 57343))%N.
  2:{ injection H as <- <-. pose proof (utf8_short cp). exists 6. split; [reflexivity|]. split; [reflexivity|lia]. }
  destruct (cp <=? 56319)%N; [|discriminate]. destruct s3 as [|y [|z [|k1 [|k2 [|k3 [|k4 s4]]]]]]; try discriminate.
  destruct (Ascii.eqb y backslash && Ascii.eqb z "u"); [|discriminate]. destruct (hex4 k1 k2 k3 k4) as [cp2|]; [|discriminate].
  destruct ((cp2 <? 56320) || (57343 <? cp2))%N; [discriminate|]. injection H as <- <-.
  pose proof (utf8_short (N.lor (N.shiftl (cp - 55296) 10) (cp2 - 56320) + 65536)). exists 12. split; [reflexivity|]. split; [reflexivity|lia].
Qed.

(** * The buffer *)

Lemma skipn_skipn : forall A (l : list A) x y, skipn x (skipn y l) = skipn (x + y) l.
Proof.
  intros A l x y. revert l. induction y as [|y IH]; intros l; [now rewrite Nat.add_0_r|]. rewrite Nat.add_succ_r. destruct l; [now rewrite !skipn_nil|]. apply IH.
Qed.

Lemma skipn_drop : forall A (l : list A) n k x r, skipn n l = x ++ r -> List.length x = k -> skipn (n + k) l = r.
Proof. intros A l n k x r E <-. rewrite Nat.add_comm, <- skipn_skipn, E. rewrite skipn_app, skipn_all, Nat.sub_diag. reflexivity. Qed.

(** The rest of the text is where its position says. *)
Lemma positioned : forall mem p x r, skipn p mem = x ++ r -> p <= List.length mem -> position mem r = p + List.length x /\ skipn (position mem r) mem = r /\ position mem r <= List.length mem.
Proof.
  intros mem p x r E L. pose proof (f_equal (@List.length _) E) as Len. rewrite skipn_length, app_length in Len.
  assert (P : position mem r = p + List.length x) by (unfold position; lia). split; [exact P|]. rewrite P. split; [eapply skipn_drop; eauto|lia].
Qed.

Lemma poked : forall mem d b, d + List.length b <= List.length mem -> exists mem', poke mem d b = Some mem' /\ List.length mem' = List.length mem /\
  firstn (d + List.length b) mem' = firstn d mem ++ b /\ forall k, d + List.length b <= k -> skipn k mem' = skipn k mem.
Proof.
  intros mem d b L. unfold poke. rewrite (proj2 (Nat.leb_le _ _) L). eexists. split; [reflexivity|]. assert (F : List.length (firstn d mem) = d) by (rewrite firstn_length; lia).
  split; [rewrite !app_length, skipn_length, F; lia|]. split.
  - rewrite firstn_app, F, firstn_all2 by lia. f_equal. rewrite firstn_app. replace (d + List.length b - d - List.length b) with 0 by lia. rewrite firstn_all2 by lia. cbn. now rewrite app_nil_r.
  - intros k K. rewrite app_assoc, skipn_app, app_length, F. rewrite skipn_all2 by (rewrite app_length, F; lia). cbn. rewrite skipn_skipn. f_equal. lia.
Qed.

(** * Strings *)

Lemma chars_in_place : forall n mem src dst, dst <= src -> src <= List.length mem -> List.length mem - src < n ->
  match read_string (skipn src mem) with
  | Some (b, r) => exists mem' src', in_chars n mem src dst = IOk (dst + List.length b) mem' src' /\ List.length mem' = List.length mem /\
      firstn (dst + List.length b) mem' = firstn dst mem ++ b /\ src < src' /\ src' <= List.length mem /\ dst + List.length b < src' /\ skipn src' mem' = r /\ forall k, src' <= k -> skipn k mem' = skipn k mem
  | None => in_chars n mem src dst = IErr
  end.
Proof.
  induction n as [|n IH]; intros mem src dst D Sr N; [lia|]. rewrite by_one. cbn [in_chars]. destruct (one (skipn src mem)) as [[[b|] r]|] eqn:E; [| |reflexivity].
  - destruct (one_consumes _ _ _ E) as (k & Ek & Lk & Lb & K1). rewrite skipn_length in Lk. destruct (positioned mem src _ r Ek Sr) as (P1 & P2 & P3).
    rewrite firstn_length, skipn_length in P1. destruct (poked mem dst b) as (mem1 & -> & L1 & F1 & K2); [lia|].
    specialize (IH mem1 (position mem r) (dst + List.length b)). assert (S1 : skipn (position mem r) mem1 = r) by (rewrite K2 by lia; exact P2). rewrite S1 in IH.
    assert (IH' := IH ltac:(lia) ltac:(lia) ltac:(lia)). clear IH. destruct (read_string r) as [[b' r']|]; cbn [put]; [|exact IH'].
    destruct IH' as (mem' & src' & R & L2 & F2 & A1 & A2 & A3 & A4 & A5). exists mem', src'. rewrite app_length. rewrite R.
    split; [f_equal; lia|]. split; [lia|]. rewrite Nat.add_assoc, F2, F1, app_assoc. split; [reflexivity|]. split; [lia|]. split; [lia|]. split; [lia|]. split; [exact A4|].
    intros j J. rewrite A5 by exact J. apply K2. lia.
  - destruct (one_consumes _ _ _ E) as (k & Ek & Lk & ->). rewrite skipn_length in Lk. destruct (positioned mem src _ r Ek Sr) as (P1 & P2 & P3).
    rewrite firstn_length, skipn_length in P1. destruct (poked mem dst ["000"]) as (mem1 & -> & L1 & F1 & K2); [cbn; lia|]. cbn [List.length] in F1, K2.
    exists mem1, (position mem r). cbn [List.length]. rewrite Nat.add_0_r. split; [reflexivity|]. split; [exact L1|].
    split. { rewrite app_nil_r. apply (f_equal (firstn dst)) in F1. rewrite firstn_firstn in F1. replace (Nat.min dst (dst + 1)) with dst in F1 by lia. rewrite F1, firstn_app, firstn_firstn, firstn_length.
      replace (Nat.min dst dst) with dst by lia. replace (dst - Nat.min dst (List.length mem)) with 0 by lia. cbn. now rewrite app_nil_r. }
    split; [lia|]. split; [lia|]. split; [lia|]. split; [rewrite K2 by lia; exact P2|]. intros j J. apply K2. lia.
Qed.

Lemma string_in_place : forall mem src, src <= List.length mem ->
  match read_string (skipn src mem) with
  | Some (b, r) => exists p mem' src', in_string mem src = IOk p mem' src' /\ List.length mem' = List.length mem /\ firstn src mem' = firstn src mem /\ p_start p + p_length p <= src' /\
      src < src' /\ src' <= List.length mem /\ skipn src' mem' = r /\ peek (Some mem') p = Some (string_of_list_ascii b)
  | None => in_string mem src = IErr
  end.
Proof.
  intros mem src L. unfold in_string. pose proof (chars_in_place (S (List.length mem)) mem src src (le_n _) L) as H. destruct (read_string (skipn src mem)) as [[b r]|].
  - destruct H as (mem' & src' & -> & L' & F & A1 & A2 & A3 & A4 & _); [lia|]. eexists. exists mem', src'. split; [reflexivity|]. split; [exact L'|]. cbn [p_start p_length].
    assert (Fs : List.length (firstn src mem) = src) by (rewrite firstn_length; lia).
    split. { apply (f_equal (firstn src)) in F. rewrite firstn_firstn in F. replace (Nat.min src (src + List.length b)) with src in F by lia. rewrite F, firstn_app, Fs, Nat.sub_diag, firstn_firstn, Nat.min_id. cbn. now rewrite app_nil_r. }
    split; [lia|]. split; [lia|]. split; [lia|]. split; [exact A4|]. cbn [peek]. f_equal. f_equal. cbn [p_start p_length].
    replace (src + List.length b - src) with (List.length b) by lia. apply (f_equal (skipn src)) in F. rewrite skipn_app, Fs, Nat.sub_diag, (skipn_all2 (firstn src mem)) in F by lia. cbn in F.
    rewrite firstn_skipn_comm. exact F.
  - rewrite H by lia. reflexivity.
Qed.

(** * Documents *)

(** The pieces that a document refers to. *)
Fixpoint pieces (d : idoc) : list piece :=
  match d with
  | IPlain _ => []
  | IStr p => [p]
  | IArr l => flat_map pieces l
  | IObj l => flat_map (fun q => fst q :: pieces (snd q)) l
  end.

Definition before (pos : nat) (q : piece) : Prop := p_start q + p_length q <= pos.

Definition inside (pos : nat) (d : idoc) : Prop := Forall (before pos) (pieces d).

Lemma peek_stable : forall pos mem mem' p, before pos p -> firstn pos mem' = firstn pos mem -> peek (Some mem') p = peek (Some mem) p.
Proof.
  intros pos mem mem' p B F. unfold peek. f_equal. f_equal. rewrite !firstn_skipn_comm. f_equal. unfold before in B.
  replace (p_start p + p_length p) with (Nat.min (p_start p + p_length p) pos) by lia. now rewrite <- !firstn_firstn, F.
Qed.

Lemma view_stable : forall pos mem mem', firstn pos mem' = firstn pos mem -> forall d, inside pos d -> view (Some mem') d = view (Some mem) d.
Proof.
  intros pos mem mem' F d. unfold inside. induction d as [j|p|l IH|l IH] using idoc_ind'; intros I; cbn [view pieces] in *.
  - reflexivity.
  - inversion I; subst. f_equal. eapply peek_stable; eauto.
  - f_equal. f_equal. apply map_ext_in. intros d In_. rewrite Forall_forall in IH. apply IH; [exact In_|]. rewrite Forall_forall in I |- *. intros q Iq. apply I. apply in_flat_map. eauto.
  - f_equal. f_equal. apply map_ext_in. intros [key d] In_. cbn [fst snd]. rewrite Forall_forall in IH, I. specialize (IH _ In_). cbn [snd] in IH.
    rewrite (peek_stable pos mem mem' key), IH; [reflexivity| | |exact F].
    + rewrite Forall_forall. intros q Iq. apply I. apply in_flat_map. exists (key, d). split; [exact In_|now right].
    + apply I. apply in_flat_map. exists (key, d). split; [exact In_|now left].
Qed.

Lemma before_weaken : forall p p' q, p <= p' -> before p q -> before p' q.
Proof. unfold before. lia. Qed.

Lemma inside_weaken : forall p p' d, p <= p' -> inside p d -> inside p' d.
Proof. intros p p' d L I. eapply Forall_impl; [|exact I]. intros q. now apply before_weaken. Qed.

Section Values.
Variable nearest : list ascii -> option fl.

(** From one state of the buffer to a later one. *)
Definition moves (mem : list ascii) (pos : nat) (mem' : list ascii) (pos' : nat) : Prop :=
  List.length mem' = List.length mem /\ firstn pos mem' = firstn pos mem /\ pos <= pos' /\ pos' <= List.length mem.

Lemma moves_trans : forall m p m1 p1 m2 p2, moves m p m1 p1 -> moves m1 p1 m2 p2 -> moves m p m2 p2.
Proof.
  intros m p m1 p1 m2 p2 (A1 & A2 & A3 & A4) (B1 & B2 & B3 & B4). split; [lia|]. split; [|lia]. rewrite <- A2.
  replace p with (Nat.min p p1) by lia. now rewrite <- !firstn_firstn, B2.
Qed.

Lemma moves_on : forall m p x r, skipn p m = x ++ r -> p <= List.length m -> moves m p m (position m r) /\ skipn (position m r) m = r.
Proof. intros m p x r E L. destruct (positioned m p x r E L) as (A & B & C). split; [|exact B]. split; [reflexivity|]. split; [reflexivity|]. lia. Qed.

Definition read_to (j : json) (r : list ascii) (mem : list ascii) (pos : nat) (x : ires idoc) : Prop :=
  exists d mem' pos', x = IOk d mem' pos' /\ moves mem pos mem' pos' /\ skipn pos' mem' = r /\ inside pos' d /\ view (Some mem') d = Some j.

Definition same (res : rres json) (mem : list ascii) (pos : nat) (x : ires idoc) : Prop :=
  match res with ROk j r => read_to j r mem pos x | RErr _ => x = IErr | RDeep => x = IDeep end.

Lemma same_later : forall res mem pos mem1 pos1 x, moves mem pos mem1 pos1 -> same res mem1 pos1 x -> same res mem pos x.
Proof.
  intros [j r|evs|] mem pos mem1 pos1 x M H; cbn in *; [|exact H|exact H]. destruct H as (d & mem' & pos' & E & M' & R). exists d, mem', pos'. split; [exact E|]. split; [eapply moves_trans; eauto|exact R].
Qed.

Lemma same_plain : forall res mem pos, (forall j r, res = ROk j r -> exists k, skipn pos mem = k ++ r) -> pos <= List.length mem -> same res mem pos (in_plain mem res).
Proof.
  intros [j r|evs|] mem pos H L; cbn; [|reflexivity|reflexivity]. destruct (H j r eq_refl) as (k & E). destruct (moves_on mem pos k r E L) as [M S].
  exists (IPlain j), mem, (position mem r). split; [reflexivity|]. split; [exact M|]. split; [exact S|]. split; [constructor|reflexivity].
Qed.

Definition viewed (mem : list ascii) (pos : nat) (d : idoc) (j : json) : Prop := inside pos d /\ view (Some mem) d = Some j.
Definition viewed_member (mem : list ascii) (pos : nat) (q : piece * idoc) (p : string * json) : Prop :=
  before pos (fst q) /\ inside pos (snd q) /\ peek (Some mem) (fst q) = Some (fst p) /\ view (Some mem) (snd q) = Some (snd p).

Lemma viewed_later : forall mem pos mem' pos' d j, moves mem pos mem' pos' -> viewed mem pos d j -> viewed mem' pos' d j.
Proof.
  intros mem pos mem' pos' d j (L & F & P & _) [I V]. split; [eapply inside_weaken; eauto|]. now rewrite (view_stable pos mem mem' F).
Qed.

Lemma member_later : forall mem pos mem' pos' q p, moves mem pos mem' pos' -> viewed_member mem pos q p -> viewed_member mem' pos' q p.
Proof.
  intros mem pos mem' pos' q p (L & F & P & _) (B & I & V & W). split; [eapply before_weaken; eauto|]. split; [eapply inside_weaken; eauto|].
  rewrite (peek_stable pos mem mem' _ B F). split; [exact V|]. now rewrite (view_stable pos mem mem' F).
Qed.

Lemma forall2_weaken : forall A B (R S : A -> B -> Prop) l m, (forall x y, R x y -> S x y) -> Forall2 R l m -> Forall2 S l m.
Proof. intros A B R S l m H F. induction F; constructor; auto. Qed.

Lemma array_viewed : forall mem pos ds js, Forall2 (viewed mem pos) ds js -> viewed mem pos (IArr ds) (JArr js).
Proof.
  intros mem pos ds js F. unfold viewed, inside. cbn [pieces view].
  enough (G : Forall (before pos) (flat_map pieces ds) /\ all_some (map (view (Some mem)) ds) = Some js) by (destruct G as [G ->]; auto).
  induction F as [|d j ds js [I V] F [IH1 IH2]]; [split; [constructor|reflexivity]|]. cbn. rewrite V, IH2. split; [apply Forall_app; split; assumption|reflexivity].
Qed.

Lemma object_viewed : forall mem pos ds js, Forall2 (viewed_member mem pos) ds js -> viewed mem pos (IObj ds) (JObj js).
Proof.
  intros mem pos ds js F. unfold viewed, inside. cbn [pieces view].
  enough (G : Forall (before pos) (flat_map (fun q => fst q :: pieces (snd q)) ds) /\
    all_some (map (fun q => match peek (Some mem) (fst q), view (Some mem) (snd q) with Some key, Some j => Some (key, j) | _, _ => None end) ds) = Some js) by (destruct G as [G ->]; auto).
  induction F as [|q [key j] ds js (B & I & V & W) F [IH1 IH2]]; [split; [constructor|reflexivity]|]. cbn [map all_some flat_map]. rewrite V, W, IH2. cbn [fst snd].
  split; [constructor; [exact B|]; apply Forall_app; split; assumption|reflexivity].
Qed.

Lemma rest_moves : forall mem pos c r, starts c (skip (skipn pos mem)) = Some r -> pos <= List.length mem -> moves mem pos mem (position mem r) /\ skipn (position mem r) mem = r.
Proof.
  intros mem pos c r St L. destruct (split_skip (skipn pos mem)) as (w & _ & E). apply starts_spec in St. rewrite St in E.
  apply (moves_on mem pos (w ++ [c]) r); [|exact L]. rewrite <- app_assoc. exact E.
Qed.

Lemma skip_moves : forall mem pos r, skipn pos mem = r -> pos <= List.length mem -> moves mem pos mem (position mem (skip r)) /\ skipn (position mem (skip r)) mem = skip r.
Proof. intros mem pos r <- L. destruct (split_skip (skipn pos mem)) as (w & _ & E). now apply (moves_on mem pos w). Qed.

Lemma in_value_unfold : forall n mem pos, in_value nearest (S n) mem pos =
    match skipn pos mem with
    | [] => IErr
    | c :: s' =>
      if Ascii.eqb c "n" then in_plain mem (literal "ull" JNull s')
      else if Ascii.eqb c "t" then in_plain mem (literal "rue" (JBool true) s')
      else if Ascii.eqb c "f" then in_plain mem (literal "alse" (JBool false) s')
      else if Ascii.eqb c quote then
        match in_string mem (S pos) with IOk p mem' pos' => IOk (IStr p) mem' pos' | IErr => IErr | IUndef => IUndef | IDeep => IDeep end
      else if Ascii.eqb c "[" then
        match starts "]" (skip s') with Some r => IOk (IArr []) mem (position mem r) | None => in_items nearest n [] mem (position mem (skip s')) end
      else if Ascii.eqb c "{" then
        match starts "}" (skip s') with Some r => IOk (IObj []) mem (position mem r) | None => in_fields nearest n [] mem (position mem (skip s')) end
      else in_plain mem (match read_number nearest (c :: s') with Some (j, r) => ROk j r | None => RErr [] end)
    end.
Proof. reflexivity. Qed.

Lemma in_items_unfold : forall n acc mem pos, in_items nearest (S n) acc mem pos =
    match in_value nearest n mem pos with
    | IOk d mem pos =>
      let r := skip (skipn pos mem) in
      match starts "," r, starts "]" r with
      | Some r', _ => in_items nearest n (acc ++ [d]) mem (position mem (skip r'))
      | None, Some r' => IOk (IArr (acc ++ [d])) mem (position mem r')
      | None, None => IErr
      end
    | IErr => IErr
    | IUndef => IUndef
    | IDeep => IDeep
    end.
Proof. reflexivity. Qed.

Lemma in_fields_unfold : forall n acc mem pos, in_fields nearest (S n) acc mem pos =
    match starts quote (skipn pos mem) with
    | None => IErr
    | Some s1 =>
      match in_string mem (position mem s1) with
      | IOk key mem pos =>
        match starts ":" (skip (skipn pos mem)) with
        | None => IErr
        | Some s3 =>
          match in_value nearest n mem (position mem (skip s3)) with
          | IOk d mem pos =>
            let r := skip (skipn pos mem) in
            match starts "," r, starts "}" r with
            | Some r', _ => in_fields nearest n (acc ++ [(key, d)]) mem (position mem (skip r'))
            | None, Some r' => IOk (IObj (acc ++ [(key, d)])) mem (position mem r')
            | None, None => IErr
            end
          | IErr => IErr
          | IUndef => IUndef
          | IDeep => IDeep
          end
        end
      | IErr => IErr
      | IUndef => IUndef
      | IDeep => IDeep
      end
    end.
Proof. reflexivity. Qed.

Lemma in_place : forall n,
  (forall mem pos, pos <= List.length mem -> same (read_value nearest n (skipn pos mem)) mem pos (in_value nearest n mem pos)) /\
  (forall acc ds mem pos, pos <= List.length mem -> Forall2 (viewed mem pos) ds acc -> same (read_items nearest n acc (skipn pos mem)) mem pos (in_items nearest n ds mem pos)) /\
  (forall acc ds mem pos, pos <= List.length mem -> Forall2 (viewed_member mem pos) ds acc -> same (read_fields nearest n acc (skipn pos mem)) mem pos (in_fields nearest n ds mem pos)).
Proof.
  induction n as [|n (IHv & IHi & IHf)]; [repeat split; reflexivity|]. split; [|split].
  - intros mem pos L. destruct (skipn pos mem) as [|c s'] eqn:E; rewrite in_value_unfold, E; [reflexivity|]. rewrite value_unfold.
    assert (E1 : skipn (S pos) mem = s') by (pose proof (skipn_drop _ mem pos 1 [c] s' E eq_refl) as X; now rewrite Nat.add_1_r in X).
    assert (L1 : S pos <= List.length mem) by (pose proof (f_equal (@List.length _) E) as X; rewrite skipn_length in X; cbn in X; lia).
    assert (M1 : moves mem pos mem (S pos)) by (repeat split; lia).
    assert (Lit : forall w j, same (literal w j s') mem pos (in_plain mem (literal w j s'))).
    { intros w j. apply same_plain; [|exact L]. unfold literal. intros j' r H. destruct (expect (list_ascii_of_string w) s') as [r'|] eqn:X; [|discriminate]. injection H as <- <-.
      apply expect_sound in X. exists (c :: list_ascii_of_string w). now rewrite E, X. }
    destruct (Ascii.eqb c "n"); [apply Lit|]. destruct (Ascii.eqb c "t"); [apply Lit|]. destruct (Ascii.eqb c "f"); [apply Lit|]. destruct (Ascii.eqb c quote).
    { pose proof (string_in_place mem (S pos) L1) as H. rewrite E1 in H. destruct (read_string s') as [[b r]|]; [|cbn; now rewrite H].
      destruct H as (p & mem' & src' & -> & A1 & A2 & A3 & A4 & A5 & A6 & A7). exists (IStr p), mem', src'. split; [reflexivity|].
      split; [apply (moves_trans _ _ _ _ _ _ M1); repeat split; auto; lia|]. split; [exact A6|]. split; [constructor; [exact A3|constructor]|]. cbn [view]. now rewrite A7. }
    destruct (skip_moves mem (S pos) s' E1 L1) as [M2 E2]. pose proof (proj2 (proj2 (proj2 M2))) as L2. destruct (Ascii.eqb c "[").
    { destruct (starts "]" (skip s')) as [r|] eqn:St.
      - destruct (rest_moves mem (S pos) "]" r) as [M3 E3]; [rewrite E1; exact St|exact L1|]. exists (IArr []), mem, (position mem r). split; [reflexivity|].
        split; [eapply moves_trans; eauto|]. split; [exact E3|]. split; [constructor|reflexivity].
      - apply (same_later _ _ _ mem (position mem (skip s'))); [eapply moves_trans; eauto|]. rewrite <- E2 at 1. apply IHi; [exact L2|constructor]. }
    destruct (Ascii.eqb c "{").
    { destruct (starts "}" (skip s')) as [r|] eqn:St.
      - destruct (rest_moves mem (S pos) "}" r) as [M3 E3]; [rewrite E1; exact St|exact L1|]. exists (IObj []), mem, (position mem r). split; [reflexivity|].
        split; [eapply moves_trans; eauto|]. split; [exact E3|]. split; [constructor|reflexivity].
      - apply (same_later _ _ _ mem (position mem (skip s'))); [eapply moves_trans; eauto|]. rewrite <- E2 at 1. apply IHf; [exact L2|constructor]. }
    apply same_plain; [|exact L]. intros j r H. destruct (read_number nearest (c :: s')) as [[j' r']|] eqn:Rn; [|discriminate]. injection H as <- <-.
    destruct (read_number_sound nearest _ _ _ Rn) as (k & Ek & _). exists k. now rewrite E.
  - intros acc ds mem pos L F. rewrite items_unfold, in_items_unfold. specialize (IHv mem pos L). unfold same in IHv.
    destruct (read_value nearest n (skipn pos mem)) as [j r|evs|]; [|now rewrite IHv|now rewrite IHv]. destruct IHv as (d & m1 & p1 & -> & M1 & E1 & I1 & V1).
    cbv zeta. rewrite E1. pose proof (proj2 (proj2 (proj2 M1))) as L1. rewrite <- (proj1 M1) in L1.
    assert (F1 : Forall2 (viewed m1 p1) (ds ++ [d]) (acc ++ [j])).
    { apply Forall2_app; [|constructor; [split; assumption|constructor]]. eapply forall2_weaken; [|exact F]. intros x y V. eapply viewed_later; eauto. }
    destruct (starts "," (skip r)) as [r'|] eqn:S1.
    { destruct (rest_moves m1 p1 "," r') as [M2 E2]; [now rewrite E1|exact L1|]. destruct (skip_moves m1 _ r' E2) as [M3 E3]; [apply M2|].
      apply (same_later _ _ _ m1 (position m1 (skip r'))); [eapply moves_trans; [exact M1|]; eapply moves_trans; eauto|]. rewrite <- E3 at 1. apply IHi; [apply M3|].
      eapply forall2_weaken; [|exact F1]. intros x y V. eapply viewed_later; [|exact V]. eapply moves_trans; eauto. }
    destruct (starts "]" (skip r)) as [r'|] eqn:S2; [|reflexivity]. destruct (rest_moves m1 p1 "]" r') as [M2 E2]; [now rewrite E1|exact L1|].
    exists (IArr (ds ++ [d])), m1, (position m1 r'). split; [reflexivity|]. split; [eapply moves_trans; eauto|]. split; [exact E2|]. apply array_viewed.
    eapply forall2_weaken; [|exact F1]. intros x y V. eapply viewed_later; eauto.
  - intros acc ds mem pos L F. rewrite fields_unfold, in_fields_unfold. cbv zeta. destruct (starts quote (skipn pos mem)) as [s1|] eqn:Q; [|reflexivity]. apply starts_spec in Q.
    destruct (moves_on mem pos [quote] s1 Q L) as [M0 E0]. pose proof (proj2 (proj2 (proj2 M0))) as L0. pose proof (string_in_place mem (position mem s1) L0) as H. rewrite E0 in H.
    destruct (read_string s1) as [[b s2]|]; [|now rewrite H]. destruct H as (p & m1 & p1 & -> & A1 & A2 & A3 & A4 & A5 & A6 & A7). rewrite A6.
    assert (M1 : moves mem pos m1 p1) by (apply (moves_trans _ _ _ _ _ _ M0); repeat split; auto; lia). rewrite <- A1 in A5.
    destruct (starts ":" (skip s2)) as [s3|] eqn:Co; [|reflexivity]. destruct (rest_moves m1 p1 ":" s3) as [M2 E2]; [now rewrite A6|exact A5|]. destruct (skip_moves m1 _ s3 E2) as [M3 E3]; [apply M2|].
    specialize (IHv m1 (position m1 (skip s3)) ltac:(apply M3)). rewrite E3 in IHv. unfold same in IHv.
    destruct (read_value nearest n (skip s3)) as [j r|evs|]; [|now rewrite IHv|now rewrite IHv]. destruct IHv as (d & m4 & p4 & -> & M4 & E4 & I4 & V4).
    cbv zeta. rewrite E4. assert (M14 : moves m1 p1 m4 p4) by (eapply moves_trans; [exact M2|]; eapply moves_trans; eauto). assert (M04 : moves mem pos m4 p4) by (eapply moves_trans; eauto).
    pose proof (proj2 (proj2 (proj2 M04))) as L4. rewrite <- (proj1 M04) in L4.
    assert (F1 : Forall2 (viewed_member m4 p4) (ds ++ [(p, d)]) (acc ++ [(string_of_list_ascii b, j)])).
    { apply Forall2_app; [eapply forall2_weaken; [|exact F]; intros x y V; eapply member_later; eauto|]. constructor; [|constructor].
      split; [eapply before_weaken; [|exact A3]; apply M14|]. split; [exact I4|]. cbn [fst snd]. split; [|exact V4]. rewrite <- A7. apply (peek_stable p1); [exact A3|apply M14]. }
    destruct (starts "," (skip r)) as [r'|] eqn:S1.
    { destruct (rest_moves m4 p4 "," r') as [M5 E5]; [now rewrite E4|exact L4|]. destruct (skip_moves m4 _ r' E5) as [M6 E6]; [apply M5|].
      apply (same_later _ _ _ m4 (position m4 (skip r'))); [eapply moves_trans; [exact M04|]; eapply moves_trans; eauto|]. rewrite <- E6 at 1. apply IHf; [apply M6|].
      eapply forall2_weaken; [|exact F1]. intros x y V. eapply member_later; [|exact V]. eapply moves_trans; eauto. }
    destruct (starts "}" (skip r)) as [r'|] eqn:S2; [|reflexivity]. destruct (rest_moves m4 p4 "}" r') as [M5 E5]; [now rewrite E4|exact L4|].
    exists (IObj (ds ++ [(p, d)])), m4, (position m4 r'). split; [reflexivity|]. split; [eapply moves_trans; eauto|]. split; [exact E5|]. apply object_viewed.
    eapply forall2_weaken; [|exact F1]. intros x y V. eapply member_later; eauto.
Qed.

(** * Texts *)

Theorem text_in_place : forall str,
  match read_text nearest str with
  | ROk j _ => exists d mem pos, in_text nearest str = IOk d mem pos /\ view (Some mem) d = Some j
  | RErr _ => in_text nearest str = IErr
  | RDeep => in_text nearest str = IDeep
  end.
Proof.
  intros str. unfold read_text, in_text. cbv zeta. set (mem := list_ascii_of_string (c_string str)). destruct (split_skip mem) as (w & _ & E).
  destruct (skip mem) as [|c s'] eqn:Sk; [reflexivity|]. rewrite <- Sk in *. clear Sk.
  destruct (moves_on mem 0 w (skip mem) E (Nat.le_0_l _)) as [M E1]. pose proof (proj1 (in_place (2 * List.length (skip mem) + 2)) mem (position mem (skip mem)) ltac:(apply M)) as H.
  rewrite E1 in H. destruct (read_value nearest _ (skip mem)) as [j r|evs|]; cbn [same] in H; [|now rewrite H|now rewrite H].
  destruct H as (d & m1 & p1 & -> & M1 & E2 & I1 & V1). rewrite E2. destruct (skip r); [|reflexivity]. exists d, m1, p1. auto.
Qed.
End Values.

(** * When the buffer is gone *)

Fixpoint tidy (d : idoc) : bool :=
  match d with
  | IPlain j => wordless j
  | IStr _ => true
  | IArr l => forallb tidy l
  | IObj l => forallb (fun q => tidy (snd q)) l
  end.

Section Tidy.
Variable nearest : list ascii -> option fl.

Definition tidied (x : ires idoc) : Prop := match x with IOk d _ _ => tidy d = true | _ => True end.

Lemma tidy_plain : forall mem r, (forall j s, r = ROk j s -> wordless j = true) -> tidied (in_plain mem r).
Proof. intros mem [j s|evs|] H; cbn; auto. eapply H. reflexivity. Qed.

Lemma number_wordless : forall s j r, read_number nearest s = Some (j, r) -> wordless j = true.
Proof.
  intros s j r H. unfold read_number in H. destruct (match starts "-" s with Some s' => (["-"], s') | None => ([], s) end) as [minus s1].
  destruct (read_int_part s1) as [[ds s2]|]; [|discriminate]. destruct (read_fraction s2) as [[frac s3]|]; [|discriminate]. destruct (read_exponent s3) as [[ex s4]|]; [|discriminate].
  cbv zeta in H. assert (D : forall x, match nearest x with Some f => Some (JDbl f, s4) | None => None end = Some (j, r) -> wordless j = true).
  { intros x X. destruct (nearest x); [|discriminate]. injection X as <- _. reflexivity. }
  destruct frac; [|now apply D in H]. destruct ex; [|now apply D in H]. destruct (_ && _)%bool in H; [|now apply D in H]. injection H as <- _. reflexivity.
Qed.

Lemma tidy_in_place : forall n,
  (forall mem pos, tidied (in_value nearest n mem pos)) /\
  (forall ds mem pos, forallb tidy ds = true -> tidied (in_items nearest n ds mem pos)) /\
  (forall ds mem pos, forallb (fun q => tidy (snd q)) ds = true -> tidied (in_fields nearest n ds mem pos)).
Proof.
  induction n as [|n (IHv & IHi & IHf)]; [repeat split|]. split; [|split].
  - intros mem pos. rewrite in_value_unfold. destruct (skipn pos mem) as [|c s']; [exact I|].
    assert (Lit : forall w j, wordless j = true -> tidied (in_plain mem (literal w j s'))).
    { intros w j Wj. apply tidy_plain. unfold literal. intros j' s H. destruct (expect _ s'); [|discriminate]. injection H as <- _. exact Wj. }
    destruct (Ascii.eqb c "n"); [now apply Lit|]. destruct (Ascii.eqb c "t"); [now apply Lit|]. destruct (Ascii.eqb c "f"); [now apply Lit|].
    destruct (Ascii.eqb c quote); [destruct (in_string mem (S pos)); exact I || reflexivity|].
    destruct (Ascii.eqb c "["); [destruct (starts "]" (skip s')); [reflexivity|now apply IHi]|]. destruct (Ascii.eqb c "{"); [destruct (starts "}" (skip s')); [reflexivity|now apply IHf]|].
    apply tidy_plain. intros j s H. destruct (read_number nearest (c :: s')) as [[j' r]|] eqn:E; [|discriminate]. injection H as <- _. eapply number_wordless; eauto.
  - intros ds mem pos T. rewrite in_items_unfold. specialize (IHv mem pos). destruct (in_value nearest n mem pos) as [d m p| | |]; try exact I. cbn in IHv. cbv zeta.
    assert (T1 : forallb tidy (ds ++ [d]) = true) by (rewrite forallb_app, T; cbn; now rewrite IHv). destruct (starts "," _); [now apply IHi|]. destruct (starts "]" _); [exact T1|exact I].
  - intros ds mem pos T. rewrite in_fields_unfold. destruct (starts quote _) as [s1|]; [|exact I]. destruct (in_string _ _) as [key m p| | |]; try exact I. destruct (starts ":" _) as [s3|]; [|exact I].
    specialize (IHv m (position m (skip s3))). destruct (in_value nearest n m _) as [d m' p'| | |]; try exact I. cbn in IHv. cbv zeta.
    assert (T1 : forallb (fun q => tidy (snd q)) (ds ++ [(key, d)]) = true) by (rewrite forallb_app, T; cbn; now rewrite IHv). destruct (starts "," _); [now apply IHf|]. destruct (starts "}" _); [exact T1|exact I].
Qed.

Lemma text_tidy : forall str, tidied (in_text nearest str).
Proof.
  intros str. unfold in_text. cbv zeta. set (mem := list_ascii_of_string (c_string str)). destruct (skip mem) as [|c s']; [exact I|].
  pose proof (proj1 (tidy_in_place (2 * List.length (c :: s') + 2)) mem (position mem (c :: s'))) as H. destruct (in_value nearest _ mem _) as [d m p| | |]; try exact I.
  destruct (skip (skipn p m)); [exact H|exact I].
Qed.
End Tidy.

Lemma view_gone : forall mem d j, tidy d = true -> view (Some mem) d = Some j -> view None d = if wordless j then Some j else None.
Proof.
  intros mem d. induction d as [j'|p|l IH|l IH] using idoc_ind'; intros j T V; cbn [view tidy] in *.
  - injection V as <-. now rewrite T.
  - injection V as <-. reflexivity.
  - destruct (all_some (map (view (Some mem)) l)) as [js|] eqn:E; [|discriminate]. injection V as <-. cbn [wordless].
    enough (G : all_some (map (view None) l) = if forallb wordless js then Some js else None) by (rewrite G; destruct (forallb wordless js); reflexivity).
    revert js E. induction l as [|d l IHl]; intros js E; cbn in E |- *; [injection E as <-; reflexivity|]. inversion IH as [|? ? Hd Hl]; subst. cbn in T. apply andb_true_iff in T as [Td Tl].
    destruct (view (Some mem) d) as [j|] eqn:Ej; [|discriminate]. destruct (all_some (map (view (Some mem)) l)) as [js'|]; [|discriminate]. injection E as <-. cbn.
    rewrite (Hd j Td eq_refl). destruct (wordless j); [|reflexivity]. rewrite (IHl Hl Tl js' eq_refl). now destruct (forallb wordless js').
  - destruct l as [|[key d] l]; cbn in *; [injection V as <-; reflexivity|]. destruct (view (Some mem) d) as [j0|]; [|discriminate V].
    destruct (all_some _) as [js|] in V; [|discriminate V]. injection V as <-. reflexivity.
Qed.
