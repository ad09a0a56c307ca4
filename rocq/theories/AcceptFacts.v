(** What the parser accepts, in terms of its results. *)
From Coq Require Import List Arith Lia ZArith NArith Ascii String Bool Permutation Sorted.
From Verif Require Import Base Float NumericModel NumericSpec NumericProof HashModel DispatchModel Json Events Types SerializeModel DeserializeModel
  ParseModel ParseRead DenoteSpec DenoteProof DenoteFacts ParseSpec MapFacts PlaceFacts ParseProof ParseFacts ParseLimit ParseStack MergeSpec MergeProof
  MergeFacts AgreeSpec AgreeProof.
Import ListNotations.

(** * The result and the specification *)
Lemma parse_sound : forall e fuel fits t j obj v, supported e fuel -> ordinary_type t -> shaped e t obj ->
  parse_into e fuel fits t j obj = Parsed true v -> merges e t obj j v.
Proof.
  intros e fuel fits t j obj v (O & S & R) [P I] Ho H. apply (parse_exactly e fuel O S R t j obj v P I Ho).
  destruct (parse_limited e fuel fits t j obj) as [X|X]; congruence.
Qed.

Lemma parse_complete : forall e fuel fits t j obj v, supported e fuel -> ordinary_type t -> shaped e t obj ->
  merges e t obj j v -> parse_into e fuel fits t j obj = OutOfSpace \/ parse_into e fuel fits t j obj = Parsed true v.
Proof.
  intros e fuel fits t j obj v (O & S & R) [P I] Ho H. apply (parse_exactly e fuel O S R t j obj v P I Ho) in H.
  destruct (parse_limited e fuel fits t j obj) as [X|X]; [now left|right; congruence].
Qed.

Lemma parse_84 : forall e fuel t j obj v, supported e fuel -> ordinary_type t -> shaped e t obj -> nesting j <= 84 ->
  (parse_into e fuel real_capacity t j obj = Parsed true v <-> merges e t obj j v).
Proof.
  intros e fuel t j obj v H T Ho N. split; [now apply parse_sound|]. intros M.
  destruct (parse_complete e fuel real_capacity t j obj v H T Ho M) as [X|X]; auto.
  exfalso. eapply nesting_84; eauto. apply H.
Qed.

Lemma parse_unlimited : forall e fuel t j obj v, supported e fuel -> ordinary_type t -> shaped e t obj ->
  (parse_into e fuel unlimited t j obj = Parsed true v <-> merges e t obj j v).
Proof. intros e fuel t j obj v (O & S & R) [P I] Ho. now apply parse_exactly. Qed.

Lemma parse_rejects : forall e fuel fits t j obj v, supported e fuel -> ordinary_type t -> shaped e t obj -> ~ accepted e t j ->
  parse_into e fuel fits t j obj <> Parsed true v.
Proof. intros e fuel fits t j obj v H T Ho N X. apply N. exists obj, v. eapply parse_sound; eauto. Qed.

Lemma parse_room : forall e fuel fits t j obj obj', shaped_classes e -> shaped e t obj -> shaped e t obj' ->
  parse_into e fuel fits t j obj = OutOfSpace -> parse_into e fuel fits t j obj' = OutOfSpace.
Proof.
  intros e fuel fits t j obj obj' S Ho Ho' H.
  pose proof (parse_into_spec e fuel fits t j obj S Ho) as A. pose proof (parse_into_spec e fuel fits t j obj' S Ho') as B.
  pose proof (ropen_steady e fits (pread e fuel fits j) [] t obj 0 obj' 0 (pread_steady e fuel fits j)) as V.
  destruct (ropen e fits [] t (pread e fuel fits j) obj 0); try congruence; [destruct A; congruence|].
  destruct (ropen e fits [] t (pread e fuel fits j) obj' 0); cbn in V; try discriminate. exact B.
Qed.

(** With another old value. *)
Lemma parse_again : forall e fuel fits t j obj v obj' v', supported e fuel -> ordinary_type t -> shaped e t obj -> shaped e t obj' ->
  parse_into e fuel fits t j obj = Parsed true v -> merges e t obj' j v' -> parse_into e fuel fits t j obj' = Parsed true v'.
Proof.
  intros e fuel fits t j obj v obj' v' H T Ho Ho' X M.
  destruct (parse_complete e fuel fits t j obj' v' H T Ho' M) as [Y|Y]; auto.
  apply (parse_room e fuel fits t j obj' obj) in Y; auto; [congruence|apply H].
Qed.

Lemma supported_distinct : forall e fuel, supported e fuel -> distinct e.
Proof. intros e fuel (_ & _ & R). eapply routed_distinct; eauto. Qed.

(** * C12 *)
Lemma parse_int : forall e fuel k j obj, existsb (Z.eqb (width k)) [8; 16; 32; 64]%Z = true ->
  (forall z, j = JInt z -> in_range k z -> parse_into e fuel real_capacity (TInt k) j obj = Parsed true (VInt z)) /\
  ((forall z, j = JInt z -> ~ in_range k z) -> parse_into e fuel real_capacity (TInt k) j obj = Parsed false obj).
Proof.
  intros e fuel k j obj W.
  set (e1 := {| classes := classes e; tick := 1; endian := endian e; Types.after := Types.after e; less := less e; iteration := iteration e |}).
  split.
  - intros z -> R. unfold parse_into, parse_events. cbn [open core initial stack sizes map construct events ParseModel.run].
    change (real_capacity [] (size_of (KValue (TInt k)))) with true. cbn [emplace stack initial sizes map]. unfold emplace. cbn [stack initial sizes map].
    change (real_capacity [] (size_of (KValue (TInt k)))) with true. cbn [ParseModel.run step stack h_kind on_value].
    assert (X : scalar e (TInt k) (EInt z) = SAssign (VInt z)).
    { apply (scalar_given e1 (TInt k) VIndet (JInt z) (VInt z)); auto; now constructor. }
    rewrite X. reflexivity.
  - intros N.
    assert (X : scalar e (TInt k) (head j) = SReject).
    { destruct (scalar e (TInt k) (head j)) as [v|v| |v|] eqn:E; auto; exfalso.
      - destruct (scalar_means e1 (TInt k) VIndet j v) as (D & _); auto; [reflexivity|]. inversion D; subst. now apply (N z).
      - cbn [scalar] in E. destruct (number_event (head j)); [destruct (assign_number _ _)|]; discriminate.
      - cbn [scalar] in E. destruct (number_event (head j)); [destruct (assign_number _ _)|]; discriminate.
      - cbn [scalar] in E. destruct (number_event (head j)); [destruct (assign_number _ _)|]; discriminate. }
    unfold parse_into, parse_events. cbn [open core initial stack sizes map construct].
    change (real_capacity [] (size_of (KValue (TInt k)))) with true. unfold emplace. cbn [stack initial sizes map].
    change (real_capacity [] (size_of (KValue (TInt k)))) with true.
    destruct (events_head j) as (evs & Ev). rewrite Ev. cbn [ParseModel.run step stack h_kind on_value].
    rewrite X. reflexivity.
Qed.

(** * C29, C41, C42, C43: what makes documents unacceptable *)
Section Reject.
Variables (e : env) (fuel : nat) (fits : capacity) (t : ty) (j : json) (obj v : val).
Hypothesis sup : supported e fuel.
Hypothesis ord : ordinary_type t.
Hypothesis shp : shaped e t obj.

Lemma reject_at : forall u j', reads_at e t j u j' -> ~ accepted e u j' -> parse_into e fuel fits t j obj <> Parsed true v.
Proof.
  intros u j' R N. apply parse_rejects; auto. intros A. apply N. eapply reads_accepted; eauto. eapply supported_distinct; eauto.
Qed.

Lemma reject_unknown : forall c l k, reads_at e t j (TClass c) (JObj l) -> In k (map fst l) ->
  ~ In k (map m_name (c_members (class_of e c))) -> parse_into e fuel fits t j obj <> Parsed true v.
Proof.
  intros c l k R I N. eapply reject_at; [exact R|]. intros (old & w & M). inversion M as [? ? ? ? S X D| | | | | | |? ? ? vs D|]; subst; [discriminate|].
  apply N. eapply members_known; eauto.
Qed.

Lemma reject_enum : forall t1 j1 u j2, reads_at e t j t1 j1 -> part e t1 j1 u j2 -> unfinished u = true ->
  parse_into e fuel fits t j obj <> Parsed true v.
Proof.
  intros t1 j1 u j2 R P U. eapply reject_at; [exact R|]. intros A. destruct (part_accepted e t1 j1 u j2) as [_ X]; auto; [eapply supported_distinct; eauto|congruence].
Qed.

Lemma reject_small : forall t1 u js, reads_at e t j t1 (JArr js) -> t1 = TVector u \/ t1 = TSet u -> odd_number u = true -> js <> [] ->
  parse_into e fuel fits t j obj <> Parsed true v.
Proof.
  intros t1 u js R T U N. eapply reject_at; [exact R|]. intros (old & w & M).
  destruct T as [-> | ->]; inversion M as [? ? ? ? S X D|? ? ? vs C F|? ? ? vs C F| | | | | |]; subst; try discriminate;
    destruct C as [C|C]; auto; unfold element in C; rewrite U, andb_false_r in C; discriminate.
Qed.

Definition arity (u : ty) : option nat :=
  match u with TArray n _ => Some n | TPair _ _ => Some 2 | TTuple ts => Some (List.length ts) | _ => None end.

Lemma reject_count : forall u n js, reads_at e t j u (JArr js) -> arity u = Some n -> List.length js <> n ->
  parse_into e fuel fits t j obj <> Parsed true v.
Proof.
  intros u n js R T N. eapply reject_at; [exact R|]. intros (old & w & M).
  destruct u; try discriminate T; cbn in T; inversion T; subst; inversion M as [? ? ? ? S X D| | |? ? ? ? vs C F|? ? ? ? vs C F|? ? ? vs C F| | |]; subst; try discriminate;
    apply N; apply parts_length in F; destruct F as [F _]; rewrite F; auto; now rewrite repeat_length.
Qed.

Lemma reject_kind : forall u j' n, reads_at e t j u j' -> arity u = Some n -> (forall js, j' <> JArr js) ->
  parse_into e fuel fits t j obj <> Parsed true v.
Proof.
  intros u j' n R T N. eapply reject_at; [exact R|]. intros (old & w & M).
  destruct u; try discriminate T; inversion M; subst; try discriminate; eapply N; eauto.
Qed.
End Reject.

(** Component [i] comes from item [i]. *)
Lemma component_read : forall e fuel fits t ts js obj v, supported e fuel -> ordinary_type t ->
  (exists n u, t = TArray n u /\ ts = repeat u n) \/ (exists a b, t = TPair a b /\ ts = [a; b]) \/ t = TTuple ts ->
  shaped e t (VList obj) -> parse_into e fuel fits t (JArr js) (VList obj) = Parsed true v ->
  exists vs, v = VList vs /\ List.length vs = List.length ts /\ List.length js = List.length ts /\
  forall i u j old, nth_error ts i = Some u -> nth_error js i = Some j -> nth_error obj i = Some old ->
  exists w, nth_error vs i = Some w /\ parse_into e fuel unlimited u j old = Parsed true w.
Proof.
  intros e fuel fits t ts js obj v H T K Ho X. apply parse_sound in X; auto.
  destruct (shaped_components e t ts (VList obj) Ho K) as (l & El & Sl). inversion El; subst l.
  assert (D : exists vs, v = VList vs /\ parts_denote (merges e) ts obj js vs).
  { destruct K as [(n & u & -> & ->)|[(a & b & -> & ->)| ->]];
      inversion X as [? ? ? ? S Y D| | |? ? ? ? vs C F|? ? ? ? vs C F|? ? ? vs C F| | |]; subst; try discriminate; eauto. }
  destruct D as (vs & -> & D). exists vs. split; auto. destruct (parts_length _ _ _ _ _ D) as [L1 L2]. split; auto. split; auto.
  intros i u j old Hu Hj Hold. destruct (parts_nth _ _ _ _ _ D i u j Hu Hj) as (w & Hw & M). exists w. split; auto.
  rewrite (nth_error_nth _ _ _ Hold) in M. apply parse_unlimited; auto.
  - assert (forallb plain ts = true /\ forallb real_ints ts = true) as [P1 P2].
    { destruct T as [T1 T2]. destruct K as [(n & x & -> & ->)|[(a & b & -> & ->)| ->]]; cbn in *; auto; [split; now apply forallb_repeat|now rewrite !andb_true_r]. }
    rewrite forallb_forall in P1, P2. apply nth_error_In in Hu. split; auto.
  - destruct (forall2_nth _ _ _ _ _ _ _ Sl Hu) as (y & Hy & Sy). congruence.
Qed.

(** * C30 *)
Lemma missing_kept : forall e fuel fits c l olds v, supported e fuel -> shaped e (TClass c) (VObj olds) ->
  parse_into e fuel fits (TClass c) (JObj l) (VObj olds) = Parsed true v ->
  exists vs, v = VObj vs /\ List.length vs = List.length olds /\
  forall i m, nth_error (c_members (class_of e c)) i = Some m -> ~ In (m_name m) (map fst l) -> nth_error vs i = nth_error olds i.
Proof.
  intros e fuel fits c l olds v H Ho X. apply parse_sound in X; auto; [|now split].
  inversion X as [? ? ? ? S Y D| | | | | | |? ? ? vs D|]; subst; [discriminate|]. cbn [components] in D. exists vs. split; auto.
  inversion Ho as [| | | | | | |? ? F]; subst; [discriminate|]. pose proof (forall2_len _ _ _ _ _ F) as L.
  pose proof (members_length _ _ _ _ _ _ L D) as L'. split; [congruence|]. intros i m Hm N.
  pose proof (members_kept _ _ _ _ _ _ L (supported_distinct e fuel H c) D i m Hm N) as E.
  assert (i < List.length (c_members (class_of e c))) by (apply nth_error_Some; congruence).
  rewrite !(nth_error_nth' _ VIndet) by lia. now rewrite E.
Qed.

Lemma fewer_parsed : forall e fuel fits t j j' obj v, supported e fuel -> ordinary_type t -> shaped e t obj ->
  parse_into e fuel fits t j obj = Parsed true v -> fewer j j' -> nesting j' <= 84 ->
  exists v', parse_into e fuel real_capacity t j' obj = Parsed true v'.
Proof.
  intros e fuel fits t j j' obj v H T Ho X F N. apply parse_sound in X; auto.
  destruct (merges_any e j' t (fewer_accepted e (supported_distinct e fuel H) j t j' F (ex_intro _ _ (ex_intro _ _ X))) obj) as (v' & M).
  exists v'. now apply parse_84.
Qed.

(** * C31 *)
Lemma nesting_reordered : forall j j', reordered j j' -> nesting j' = nesting j.
Proof.
  induction j using json_ind'; intros j' R; inversion R as [? C|? js' F|? l1 l' N F P]; subst; try contradiction C; auto.
  - cbn [nesting]. f_equal. f_equal. clear R. revert H. induction F as [|x y js js' Rxy F IH]; intros Hf; cbn; auto. inversion Hf; subst. f_equal; auto.
  - cbn [nesting]. f_equal.
    assert (E : map (fun p => nesting (snd p)) l1 = map (fun p => nesting (snd p)) l).
    { clear - F H. induction F as [|p q l l1 [_ Rpq] F IH]; cbn; auto. inversion H; subst. f_equal; auto. }
    rewrite <- E. clear - P. apply Nat.le_antisymm; apply list_max_le, Forall_forall; intros n I;
      [eapply Permutation_in in I; [|apply Permutation_map, Permutation_sym; exact P]|eapply Permutation_in in I; [|apply Permutation_map; exact P]];
      pose proof (proj1 (list_max_le _ _) (Nat.le_refl (list_max (map (fun p => nesting (snd p)) l1)))) as A;
      pose proof (proj1 (list_max_le _ _) (Nat.le_refl (list_max (map (fun p => nesting (snd p)) l')))) as B;
      rewrite Forall_forall in A, B; auto.
Qed.

Lemma order_parsed : forall e fuel t j j' obj, supported e fuel -> ordinary_type t -> shaped e t obj -> reordered j j' -> nesting j <= 84 ->
  forall v, parse_into e fuel real_capacity t j obj = Parsed true v <-> parse_into e fuel real_capacity t j' obj = Parsed true v.
Proof.
  intros e fuel t j j' obj H T Ho R N v. pose proof (nesting_reordered j j' R) as E. rewrite !parse_84 by (auto; lia).
  pose proof (supported_distinct e fuel H) as D. destruct H as (O & S & _).
  split; intros M; eapply reordered_merges; eauto. now apply reordered_sym.
Qed.

(** * C33 *)
Lemma vector_appended : forall e fuel fits u j l v, supported e fuel -> ordinary_type (TVector u) ->
  (parse_into e fuel fits (TVector u) j (VList l) = Parsed true v <->
   exists vs, v = VList (l ++ vs) /\ parse_into e fuel fits (TVector u) j (VList []) = Parsed true (VList vs)).
Proof.
  intros e fuel fits u j l v H T. split.
  - intros X. pose proof (parse_sound _ _ _ _ _ _ _ H T (shaped_vector e u l) X) as M.
    inversion M as [? ? ? ? S Y D|? ? js vs C F| | | | | | |]; subst; [discriminate|]. exists vs. split; auto.
    eapply parse_again; [exact H|exact T|apply shaped_vector|apply shaped_vector|exact X|]. now apply (merges_vector e u (VList []) js vs).
  - intros (vs & -> & X). pose proof (parse_sound _ _ _ _ _ _ _ H T (shaped_vector e u []) X) as M.
    inversion M as [? ? ? ? S Y D|? ? js vs' C F E| | | | | | |]; subst; [discriminate|].
    eapply parse_again; [exact H|exact T|apply shaped_vector|apply shaped_vector|exact X|]. now apply (merges_vector e u (VList l) js vs).
Qed.

Lemma map_kept : forall e fuel fits o u l m v, supported e fuel -> ordinary_type (TMap o u) -> shaped e (TMap o u) (VMap m) ->
  parse_into e fuel fits (TMap o u) (JObj l) (VMap m) = Parsed true v ->
  exists m', v = VMap m' /\ forall k,
    (~ In k (map fst l) -> entry m' k = entry m k) /\
    (NoDup (map fst l) -> forall j, In (k, j) l -> exists w, entry m' k = Some w /\
       parse_into e fuel unlimited u j (match entry m k with Some x => x | None => vinit e u end) = Parsed true w).
Proof.
  intros e fuel fits o u l m v H T Ho X. apply parse_sound in X; auto.
  inversion X as [? ? ? ? S Y D| | | | | |? ? ? ? m' C D| |]; subst; [discriminate|]. exists m'. split; auto. cbn [entries_of] in D.
  inversion Ho as [| | | |? ? ? Sm Fm| | |]; subst; [discriminate|]. intros k. split.
  - intros N. eapply entries_kept; eauto.
  - intros Nd j I. apply entries_each in D; auto. destruct D as [_ E]. specialize (E k). unfold entry_merges in E.
    rewrite (proj2 (find_member_nodup l k j Nd) I) in E. destruct E as (w & Ew & M). exists w. split; auto.
    apply parse_unlimited; auto. apply (entry_shaped e); auto. apply H.
Qed.

Lemma replaced_parsed : forall e fuel fits t j obj obj' v, supported e fuel -> ordinary_type t -> shaped e t obj -> shaped e t obj' -> replacing t ->
  parse_into e fuel fits t j obj = Parsed true v -> parse_into e fuel fits t j obj' = Parsed true v.
Proof.
  intros e fuel fits t j obj obj' v H T Ho Ho' R X. eapply parse_again; [exact H|exact T|exact Ho|exact Ho'|exact X|].
  apply (replaced_merges e t R obj j v). eapply parse_sound; eauto.
Qed.

(** * C36 *)
Lemma last_parsed : forall e fuel fits c l1 k j l2 olds v i m, supported e fuel -> shaped e (TClass c) (VObj olds) ->
  parse_into e fuel fits (TClass c) (JObj (l1 ++ (k, j) :: l2)) (VObj olds) = Parsed true v -> ~ In k (map fst l2) ->
  nth_error (c_members (class_of e c)) i = Some m -> m_name m = k -> m_kind m = MOptional \/ replacing (m_ty m) ->
  exists vs w, v = VObj vs /\ nth_error vs i = Some (match m_kind m with MOptional => VSome w | _ => w end) /\
  parse_into e fuel unlimited (m_ty m) j (vinit e (m_ty m)) = Parsed true w.
Proof.
  intros e fuel fits c l1 k j l2 olds v i m H Ho X N Hm Ek R. apply parse_sound in X; auto; [|now split].
  inversion X as [? ? ? ? S Y D| | | | | | |? ? ? vs D|]; subst; [discriminate|]. cbn [components] in D. exists vs.
  inversion Ho as [| | | | | | |? ? F]; subst; [discriminate|]. pose proof (forall2_len _ _ _ _ _ F) as L.
  destruct (members_last e _ _ _ _ _ _ _ i m L (supported_distinct e fuel H c) D N Hm eq_refl R) as (w & M & E). exists w. split; auto. split; auto.
  destruct H as ((Pc & Rc & Tk) & S & Rt). apply nth_error_In in Hm.
  apply parse_unlimited; auto; [now split| |now apply vinit_shaped].
  pose proof (Pc c) as P1. pose proof (Rc c) as P2. rewrite forallb_forall in P1, P2. split; auto.
Qed.

(** * C20 *)
Lemma agree_forward : forall e fuel fits t j v, supported e fuel -> fresh_classes e -> ordinary_type t -> clean j -> complete e t j ->
  parse e fuel fits t j = PReturned v -> deserialize_throw e t j = Returned v.
Proof.
  intros e fuel fits t j v H F T C K X. unfold parse in X.
  destruct (parse_into e fuel fits t j (dinit e t)) as [[|] w| | |] eqn:E; try discriminate. inversion X; subst w.
  apply accepts_exactly; [apply H|exact T|]. apply parse_sound in E; auto; [|apply dinit_shaped, H].
  eapply merges_denotes; eauto; [eapply supported_distinct; eauto|apply H|apply T|now apply complete_everywhere|apply fresh_init; auto; apply T].
Qed.

Lemma agree_backward : forall e fuel t j v, supported e fuel -> fresh_classes e -> ordinary_type t -> clean j ->
  known e t j -> exact e t j -> parseable e t j -> nesting j <= 84 ->
  deserialize_throw e t j = Returned v -> parse e fuel real_capacity t j = PReturned v.
Proof.
  intros e fuel t j v H F T C K X P N D. apply accepts_exactly in D; [|apply H|exact T]. unfold parse.
  assert (M : merges e t (dinit e t) j v).
  { eapply denotes_merges; eauto; [eapply supported_distinct; eauto|apply H|apply T|now apply allowed_everywhere|apply fresh_init; auto; apply T]. }
  apply (parse_84 e fuel) in M; auto; [now rewrite M|apply dinit_shaped, H].
Qed.

(** * C27 *)
Lemma ritems_no_open : forall e fits u below fs acc a v b, ritems e fits u below fs acc a <> ROpen v b.
Proof.
  induction fs as [|[ev f] fs IH]; intros; cbn; [discriminate|]. destruct (is_json_type u ev); [|discriminate].
  destruct (ropen e fits below u f (vinit e u) a); cbn; try discriminate. apply IH.
Qed.

Lemma rfast_no_open : forall e u add evs acc a v b, rfast e u add evs acc a <> ROpen v b.
Proof. induction evs as [|ev evs IH]; intros; cbn; [discriminate|]. destruct (scalar e u ev); try discriminate. apply IH. Qed.

Lemma rfixed_no_open : forall e fits fs i ts below vs a v b, rfixed e fits i ts below fs vs a <> ROpen v b.
Proof.
  induction fs as [|[ev f] fs IH]; intros i ts; destruct ts as [|t ts]; intros; cbn; try discriminate.
  destruct (fits below _); [|discriminate]. destruct (ropen e fits _ t f _ a); cbn; try discriminate. apply IH.
Qed.

Lemma rentries_no_open : forall e fits u below fs acc a v b, rentries e fits u below fs acc a <> ROpen v b.
Proof.
  induction fs as [|[k f] fs IH]; intros; cbn; [discriminate|].
  destruct (ropen e fits below u f _ a); cbn; try discriminate. apply IH.
Qed.

Lemma rmembers_no_open : forall e fuel fits ms below fs vs a v b, rmembers e fuel fits ms below fs vs a <> ROpen v b.
Proof.
  induction fs as [|[k f] fs IH]; intros; cbn; [discriminate|].
  destruct (dispatch _ _ _) as [[i|]| |]; try discriminate. destruct (nth_error ms i); [|discriminate].
  destruct (rmember e fits below m f _ a); cbn; try discriminate. apply IH.
Qed.

Lemma scalar_stays : forall e t ev v, scalar e t ev = SStay v -> exists names s, t = TEnumStr names /\ ev = EStr s.
Proof.
  intros e t ev v H. destruct t; cbn [scalar] in H; try discriminate;
    repeat match type of H with context [match ?x with _ => _ end] => destruct x; try discriminate end; eauto.
Qed.

Lemma pread_open : forall e fuel fits j below t old a v b, pread e fuel fits j below t old a = ROpen v b ->
  exists names, t = TEnumStr names /\ scalar e t (head j) = SStay v.
Proof.
  intros e fuel fits j below t old a v b H.
  destruct (ParseProof.scalar_type t) eqn:S.
  - rewrite pread_scalar in H by auto. unfold scalar_result in H. destruct (scalar e t (head j)) eqn:E; try discriminate.
    inversion H; subst. destruct (scalar_stays _ _ _ _ E) as (names & s & -> & _). eauto.
  - exfalso. destruct t; try discriminate S; destruct j; cbn [pread] in H; try discriminate; unfold replaced in H.
    + destruct (fits _ _); [|discriminate]. destruct (fast t); [eapply rfast_no_open|eapply ritems_no_open]; eauto.
    + destruct (fits _ _); [|discriminate]. eapply rfixed_no_open; eauto.
    + destruct (fast t); (destruct (fits _ _); [|discriminate]); [eapply rfast_no_open; eauto|].
      destruct (ritems e fits t _ _ [] a) eqn:E; try discriminate. eapply ritems_no_open; eauto.
    + destruct (fits _ _); [|discriminate]. eapply rentries_no_open; eauto.
    + destruct (fits _ _); [|discriminate]. eapply rfixed_no_open; eauto.
    + destruct (fits _ _); [|discriminate]. eapply rfixed_no_open; eauto.
    + destruct (fits _ _); [|discriminate]. eapply rmembers_no_open; eauto.
Qed.

Lemma reads_one_value : forall e fuel fits j t old a m hs r rest, shaped_classes e -> load m r = Some old -> shaped e t old ->
  let h := {| h_kind := KValue t; h_ref := r |} in
  let start := {| mem := m; stack := h :: hs; fresh_address := a |} in
  let x := run e fuel fits (events j ++ rest) start in
  (exists v a', x = run e fuel fits rest {| mem := store m r v; stack := hs; fresh_address := a' |}) \/
  (exists names v, t = TEnumStr names /\ x = run e fuel fits rest {| mem := store m r v; stack := h :: hs; fresh_address := a |}) \/
  (exists s w extra, x = PFail s /\ mem s = store m r w ++ extra) \/
  x = POver \/ x = PUndef \/ x = POutside.
Proof.
  intros e fuel fits j t old a m hs r rest S Hl Hs h start x. pose proof (all_read e fuel fits S j t old a m hs r rest Hl Hs) as A.
  destruct (pread e fuel fits j (sizes hs) t old a) as [v b|v b| | | |] eqn:E; cbn [agrees] in A.
  - left. exists v, b. exact A.
  - right. left. destruct (pread_open _ _ _ _ _ _ _ _ _ _ E) as (names & -> & X). exists names, v. split; auto. subst x start h.
    destruct (scalar_stays _ _ _ _ X) as (? & s & _ & Eh). destruct j; try discriminate Eh. cbn [events head app] in *.
    rewrite run_cons. unfold step. cbn [stack h_kind h_ref]. rewrite on_scalar by reflexivity. now rewrite X.
  - right. right. left. destruct A as (m' & hs' & b & A & w & extra & E'). exists (st m' hs' b), w, extra. split; auto.
  - do 3 right. auto.
  - do 3 right. auto.
  - do 3 right. auto.
Qed.

(** * C39 *)
Lemma handlers_needed : forall e fuel t j obj, shaped_classes e -> shaped e t obj ->
  parse_into e fuel (fun used _ => List.length used <=? nesting j) t j obj = parse_into e fuel unlimited t j obj.
Proof.
  intros e fuel t j obj He Ho. destruct (parse_limited e fuel (fun used _ => List.length used <=? nesting j) t j obj) as [X|X]; auto.
  exfalso. revert X.
  assert (R : forall used size, List.length used <= nesting j -> Forall (fun s => s <= 48) used -> size <= 48 ->
              (fun (used : list nat) (_ : nat) => List.length used <=? nesting j) used size = true) by (intros; now apply Nat.leb_le).
  apply (room_suffices e fuel _ (nesting j) 48 R ltac:(lia) (fun _ => true)); auto.
  intros t' _. destruct t'; auto; apply forallb_forall; auto.
Qed.

(** * C41, C42, C43 *)
Lemma enum_alone : forall e fuel names s z obj, EnumModel.enum_from_string names s = Some z ->
  parse_into e fuel real_capacity (TEnumStr names) (JStr s) obj = Parsed true (VInt z).
Proof.
  intros e fuel names s z obj H. unfold parse_into, parse_events. cbn [open core initial stack sizes map construct].
  change (real_capacity [] (size_of (KValue (TEnumStr names)))) with true. unfold emplace. cbn [stack initial sizes map].
  change (real_capacity [] (size_of (KValue (TEnumStr names)))) with true. cbn [events ParseModel.run step stack h_kind on_value scalar].
  rewrite H. reflexivity.
Qed.

Lemma enum_list : forall e names ss zs, ordinary e -> Forall2 (fun s z => EnumModel.enum_from_string names s = Some z) ss zs ->
  deserialize_throw e (TVector (TEnumStr names)) (JArr (map JStr ss)) = Returned (VList (map VInt zs)).
Proof.
  intros e names ss zs H F. apply accepts_exactly; [exact H|now split|].
  constructor. induction F; cbn; constructor; auto. now constructor.
Qed.

Lemma empty_array : forall e fuel u t l, supported e fuel -> ordinary_type u -> t = TVector u \/ t = TSet u ->
  parse_into e fuel real_capacity t (JArr []) (VList l) = Parsed true (VList l).
Proof.
  intros e fuel u t l H [P I] T. apply parse_84; auto; [destruct T; subst; now split|destruct T; subst; [apply shaped_vector|apply shaped_set]|cbn; lia|].
  destruct T; subst.
  - replace l with (components (VList l) ++ []) at 2 by apply app_nil_r. apply merges_vector; auto.
  - apply (merges_set e u (VList l) [] []); auto.
Qed.

Lemma reject_arity : forall e fuel fits t j obj v, supported e fuel -> ordinary_type t -> shaped e t obj ->
  forall u j' n, reads_at e t j u j' -> arity u = Some n -> (forall js, j' = JArr js -> List.length js <> n) ->
  parse_into e fuel fits t j obj <> Parsed true v.
Proof.
  intros e fuel fits t j obj v H T Ho u j' n R A N.
  destruct j'; try (eapply reject_kind; eauto; discriminate). eapply reject_count; eauto.
Qed.

Lemma reject_enum_inside : forall e fuel fits t j obj v, supported e fuel -> ordinary_type t -> shaped e t obj ->
  forall t1 j1 u j2, reads_at e t j t1 j1 -> part e t1 j1 u j2 -> (exists names, behind u = TEnumStr names) ->
  parse_into e fuel fits t j obj <> Parsed true v.
Proof.
  intros e fuel fits t j obj v H T Ho t1 j1 u j2 R P (names & X). eapply reject_enum; eauto. unfold unfinished. now rewrite X.
Qed.
