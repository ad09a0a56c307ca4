(** Where the handlers of the parser stand after some tokens. *)
From Coq Require Import List Arith Lia ZArith NArith Ascii String Bool.
From Verif Require Import Base Float NumericModel NumericSpec EnumModel HashModel DispatchModel Json Events Types SerializeModel DeserializeModel
  DenoteSpec MergeSpec ParseModel ParseRead ParseProof MergeProof MergeFacts MessageModel MessageSpec.
Import ListNotations.
Local Open Scope list_scope.

Lemma core_pointee : forall t, core t = pointee t.
Proof. induction t; cbn; auto. Qed.

Lemma pointee_idem : forall t, pointee (pointee t) = pointee t.
Proof. induction t; cbn; auto. Qed.

(** What a handler on top becomes when it takes an event: the handlers in its place, top first. *)
Inductive moves (e : env) : kind -> event -> list kind -> Prop :=
| moves_done : forall t ev j, events j = [ev] -> holds_on t = false -> pointee t = t -> moves e (KValue t) ev []
| moves_stay : forall names s, moves e (KValue (TEnumStr names)) (EStr s) [KValue (TEnumStr names)]
| moves_vector : forall u, moves e (KValue (TVector u)) EStartArray [KVector u]
| moves_set : forall u id, fast u = false -> moves e (KValue (TSet u)) EStartArray [KSet u id]
| moves_fast_set : forall u, fast u = true -> moves e (KValue (TSet u)) EStartArray [KFastSet u]
| moves_fixed : forall t ts, fixed t = Some ts -> moves e (KValue t) EStartArray [KFixed 0 ts]
| moves_map : forall o u, moves e (KValue (TMap o u)) EStartObject [KMap u]
| moves_class : forall c, moves e (KValue (TClass c)) EStartObject [KObject c]
| moves_vector_end : forall u, moves e (KVector u) EEndArray []
| moves_set_end : forall u id, moves e (KSet u id) EEndArray []
| moves_fast_end : forall u, moves e (KFastSet u) EEndArray []
| moves_vector_fast : forall u ev j, events j = [ev] -> holds_on u = false -> moves e (KVector u) ev [KVector u]
| moves_set_fast : forall u ev j, events j = [ev] -> holds_on u = false -> moves e (KFastSet u) ev [KFastSet u]
| moves_vector_item : forall u ev ks, moves e (KValue (core u)) ev ks -> moves e (KVector u) ev (ks ++ [KVector u])
| moves_set_item : forall u id ev ks, moves e (KValue (core u)) ev ks -> moves e (KSet u id) ev (ks ++ [KSet u id])
| moves_map_end : forall u, moves e (KMap u) EEndObject []
| moves_entry : forall u k, moves e (KMap u) (EKey k) [KValue (core u); KMap u]
| moves_object_end : forall c, moves e (KObject c) EEndObject []
| moves_member : forall c m, In m (c_members (class_of e c)) -> moves e (KObject c) (EKey (m_name m)) [KValue (core (m_ty m)); KObject c]
| moves_close : forall i, moves e (KFixed i []) EEndArray []
| moves_component : forall i t ts ev ks, moves e (KValue (core t)) ev ks -> moves e (KFixed i (t :: ts)) ev (ks ++ [KFixed (S i) ts]).

Section Moves.
Variable e : env.
Variable fuel : nat.
Variable fits : capacity.
Hypothesis Hr : routed e fuel.

Definition kinds (s : pstate) : list kind := map h_kind (stack s).

Lemma scalar_event : forall t ev v, scalar e t ev = SAssign v -> (exists j, events j = [ev]) /\ holds_on t = false /\ pointee t = t.
Proof.
  intros t ev v H.
  assert (V : forall n, number_event ev = Some n -> exists j, events j = [ev]).
  { intros n Hn. destruct ev; try discriminate; [now exists (JInt z)|now exists (JDbl f)]. }
  destruct t; cbn [scalar] in H; try discriminate; try (split; [|split; reflexivity]);
    try (destruct (number_event ev) as [n|] eqn:E; [now apply (V n)|discriminate]).
  - destruct ev; try discriminate. now exists JNull.
  - destruct ev; try discriminate. now exists (JBool b).
  - destruct ev; try discriminate. now exists (JStr s).
  - destruct ev; try discriminate. now exists (JStr s).
  - destruct ev; try discriminate. now exists (JStr s).
  - destruct ev; try discriminate. now exists (JStr s).
  - destruct ev; try discriminate. destruct (enum_from_string names s); discriminate.
Qed.

Lemma construct_stack : forall t r s r' s', construct e t r s = (r', s') -> stack s' = stack s.
Proof.
  induction t; intros r s r' s' H; cbn [construct] in H; try (injection H as <- <-; reflexivity); apply IHt in H; exact H.
Qed.

Lemma open_kinds : forall t r s s', open e fits t r s = POk s' -> exists r', stack s' = {| h_kind := KValue (core t); h_ref := r' |} :: stack s.
Proof.
  intros t r s s'. unfold open. destruct (core t); try discriminate; destruct (fits _ _); try discriminate;
    destruct (construct e t r s) as [r1 s1] eqn:C; unfold emplace; destruct (fits _ _); try discriminate; intros H; injection H as <-; cbn [stack];
    rewrite (construct_stack _ _ _ _ _ C); eauto.
Qed.

Lemma member_kinds : forall m r s s', open_member e fits m r s = POk s' -> exists r', stack s' = {| h_kind := KValue (core (m_ty m)); h_ref := r' |} :: stack s.
Proof.
  intros m r s s'. unfold open_member. destruct (m_kind m); try apply open_kinds.
  destruct (core (m_ty m)) eqn:C; try discriminate; destruct (fits _ _); try discriminate; intros H; apply open_kinds in H as [r' H]; rewrite C in H; eauto.
Qed.

Lemma replace_kinds : forall k r s s', replace fits k r s = POk s' -> stack s' = {| h_kind := k; h_ref := r |} :: tl (stack s).
Proof. intros k r s s'. unfold replace, emplace. destruct (fits _ _); [|discriminate]. intros H. injection H as <-. reflexivity. Qed.

Lemma value_kinds : forall t r ev s s' h hs, on_value e fits t r ev s = POk s' -> stack s = h :: hs -> h_kind h = KValue t ->
  exists ks, moves e (KValue t) ev ks /\ kinds s' = ks ++ map h_kind hs.
Proof.
  intros t r ev s s' h hs H S K.
  assert (R : forall k, replace fits k r s = POk s' -> moves e (KValue t) ev [k] -> exists ks, moves e (KValue t) ev ks /\ kinds s' = ks ++ map h_kind hs).
  { intros k Hk M. exists [k]. split; [exact M|]. apply replace_kinds in Hk. unfold kinds. rewrite Hk, S. reflexivity. }
  assert (V : match scalar e t ev with
    | SAssign v => POk (pop (put r v s)) | SStay v => POk (put r v s) | SReject => PFail s
    | SRejectAssign v => PFail (put r v s) | SUndefined => PUndef end = POk s' -> exists ks, moves e (KValue t) ev ks /\ kinds s' = ks ++ map h_kind hs).
  { destruct (scalar e t ev) as [v|v| | |] eqn:E; intros X; try discriminate; injection X as <-.
    - destruct (scalar_event _ _ _ E) as ([j Hj] & Ho & Hp). exists []. split; [exact (moves_done e t ev j Hj Ho Hp)|]. unfold kinds, pop, put. cbn. now rewrite S.
    - assert (exists names x, t = TEnumStr names /\ ev = EStr x) as (names & x & -> & ->).
      { destruct t; cbn [scalar] in E; try discriminate; repeat match type of E with context [match ?x with _ => _ end] => destruct x; try discriminate end. eauto. }
      exists [KValue (TEnumStr names)]. split; [apply moves_stay|]. unfold kinds, put. cbn. rewrite S. cbn. now rewrite K. }
  destruct t; cbn [on_value] in H; try discriminate; try (exact (V H));
    destruct ev; try discriminate; try (eapply R; [exact H|]); try (now constructor).
  destruct (fast t) eqn:Ef.
  - eapply R; [exact H|]. now constructor.
  - cbv zeta in H. destruct (replace fits (KSet t (List.length (mem s))) r s) as [s1| | | |] eqn:E; try discriminate. injection H as <-.
    exists [KSet t (List.length (mem s))]. split; [now constructor|]. apply replace_kinds in E. unfold kinds. cbn. rewrite E, S. reflexivity.
Qed.

Lemma forward_kinds : forall t r ev s s' hs, forward e fits ev (open e fits t r s) = POk s' -> map h_kind (stack s) = hs ->
  exists ks, moves e (KValue (core t)) ev ks /\ kinds s' = ks ++ hs.
Proof.
  intros t r ev s s' hs H S. destruct (open e fits t r s) as [s1| | | |] eqn:O; try discriminate. apply open_kinds in O as [r1 O]. cbn [forward] in H. rewrite O in H.
  destruct (value_kinds _ _ _ _ _ _ _ H O eq_refl) as (ks & M & K). exists ks. split; [exact M|]. now rewrite K, S.
Qed.

Lemma step_moves : forall ev s s' h hs, step e fuel fits ev s = POk s' -> stack s = h :: hs ->
  exists ks, moves e (h_kind h) ev ks /\ kinds s' = ks ++ map h_kind hs.
Proof.
  intros ev s s' h hs H S. unfold step in H. rewrite S in H. destruct h as [k r]. cbn [h_kind h_ref] in *.
  assert (P : forall s1, POk (pop s1) = POk s' -> stack s1 = stack s -> moves e k ev [] -> exists ks, moves e k ev ks /\ kinds s' = ks ++ map h_kind hs).
  { intros s1 X E M. injection X as <-. exists []. split; [exact M|]. unfold kinds, pop. cbn. now rewrite E, S. }
  assert (F : forall u add, fast_item e u r add ev s = POk s' -> (forall j, events j = [ev] -> holds_on u = false -> moves e k ev [k]) ->
    exists ks, moves e k ev ks /\ kinds s' = ks ++ map h_kind hs).
  { intros u add X M. unfold fast_item in X. destruct (scalar e u ev) as [v| | | |] eqn:E; try discriminate. destruct (scalar_event _ _ _ E) as ([j Hj] & Ho & Hp).
    injection X as <-. exists [k]. split; [now apply (M j)|]. unfold kinds, put. cbn. now rewrite S. }
  destruct k as [t|u|u id|u|u|c|i ts].
  - eapply value_kinds; [exact H|exact S|reflexivity].
  - unfold on_vector in H.
    assert (X : ev <> EEndArray -> exists ks, moves e (KVector u) ev ks /\ kinds s' = ks ++ map h_kind hs).
    { intros N. assert (Y : (if fast u then fast_item e u r push_back ev s
         else if is_json_type u ev then
           let l := items (mem s) r in forward e fits ev (open e fits u (into r (SItem (List.length l))) (put r (VList (push_back l (vinit e u))) s))
         else PFail s) = POk s') by (destruct ev; try exact H; congruence).
      clear H. destruct (fast u); [eapply F; [exact Y|]; intros j Hj Ho; now apply (moves_vector_fast e u ev j)|].
      destruct (is_json_type u ev); [|discriminate]. cbv zeta in Y.
      destruct (forward_kinds _ _ _ _ _ (KVector u :: map h_kind hs) Y) as (ks & M & E); [cbn [put stack]; now rewrite S|].
      exists (ks ++ [KVector u]). split; [now constructor|]. now rewrite E, <- app_assoc. }
    destruct ev; try (apply X; discriminate). eapply P; [exact H|reflexivity|constructor].
  - unfold on_set in H.
    assert (X : ev <> EEndArray -> exists ks, moves e (KSet u id) ev ks /\ kinds s' = ks ++ map h_kind hs).
    { intros N. assert (Y : (if is_json_type u ev then
           let l := items (mem s) {| object := id; path := [] |} in
           forward e fits ev (open e fits u (into {| object := id; path := [] |} (SItem (List.length l))) (put {| object := id; path := [] |} (VList (push_back l (vinit e u))) s))
         else PFail s) = POk s') by (destruct ev; try exact H; congruence).
      clear H. destruct (is_json_type u ev); [|discriminate]. cbv zeta in Y.
      destruct (forward_kinds _ _ _ _ _ (KSet u id :: map h_kind hs) Y) as (ks & M & E); [cbn [put stack]; now rewrite S|].
      exists (ks ++ [KSet u id]). split; [now constructor|]. now rewrite E, <- app_assoc. }
    destruct ev; try (apply X; discriminate). eapply P; [exact H|reflexivity|constructor].
  - unfold on_fast_set in H. destruct ev; try (eapply F; [exact H|]; intros j Hj Ho; now apply (moves_set_fast e u _ j)). eapply P; [exact H|reflexivity|constructor].
  - unfold on_map in H. destruct ev; try discriminate.
    + apply open_kinds in H as [r' H]. exists [KValue (core u); KMap u]. split; [constructor|]. unfold kinds. rewrite H. cbn [put stack map]. now rewrite S.
    + eapply P; [exact H|reflexivity|constructor].
  - unfold on_object in H. destruct ev as [| | | | | | | |n|]; try discriminate.
    + cbv zeta in H. change (map (fun m => list_ascii_of_string (m_name m)) (c_members (class_of e c))) with (names_of (c_members (class_of e c))) in H.
      destruct (dispatch fuel (names_of (c_members (class_of e c))) (list_ascii_of_string n)) as [[i|]| |] eqn:D; try discriminate.
      destruct (dispatch_some e fuel Hr _ _ _ D) as (m & Hm & <-). rewrite Hm in H. apply member_kinds in H as [r' H].
      exists [KValue (core (m_ty m)); KObject c]. split; [constructor; eapply nth_error_In; eassumption|]. unfold kinds. rewrite H. cbn [map]. now rewrite S.
    + eapply P; [exact H|reflexivity|constructor].
  - unfold on_fixed in H. destruct ts as [|t ts].
    + destruct ev; try discriminate. eapply P; [exact H|reflexivity|constructor].
    + assert (X : match replace fits (KFixed (Datatypes.S i) ts) r s with POk s => forward e fits ev (open e fits t (into r (SItem i)) s) | x => x end = POk s' ->
         exists ks, moves e (KFixed i (t :: ts)) ev ks /\ kinds s' = ks ++ map h_kind hs).
      { intros Y. destruct (replace fits (KFixed (Datatypes.S i) ts) r s) as [s1| | | |] eqn:E; try discriminate. apply replace_kinds in E.
        destruct (forward_kinds _ _ _ _ _ (KFixed (Datatypes.S i) ts :: map h_kind hs) Y) as (ks & M & Ek); [rewrite E, S; reflexivity|].
        exists (ks ++ [KFixed (Datatypes.S i) ts]). split; [now constructor|]. now rewrite Ek, <- app_assoc. }
      destruct ev; try discriminate; exact (X H).
Qed.

(** The handler on top, after the tokens [evs] of a value of type [t]. *)
Inductive rests : ty -> kind -> list event -> Prop :=
| rests_value : forall t, rests t (KValue (core t)) []
| rests_again : forall t names ss, pointee t = TEnumStr names -> rests t (KValue (TEnumStr names)) (map EStr ss)
| rests_sequence : forall t u k js, sequence (pointee t) = Some u -> (k = KVector u \/ k = KFastSet u /\ fast u = true \/ exists id, k = KSet u id /\ fast u = false) ->
    (js <> [] -> holds_on u = false) -> rests t k (EStartArray :: flat_map events js)
| rests_fixed : forall t ts js, fixed (pointee t) = Some ts -> Forall (fun u => holds_on u = false) (firstn (List.length js) ts) -> List.length js <= List.length ts ->
    rests t (KFixed (List.length js) (skipn (List.length js) ts)) (EStartArray :: flat_map events js)
| rests_map : forall t o u l, pointee t = TMap o u -> (l <> [] -> holds_on u = false) -> rests t (KMap u) (EStartObject :: member_tokens l)
| rests_object : forall t c l, pointee t = TClass c ->
    Forall (fun p => forall m, In m (c_members (class_of e c)) -> m_name m = fst p -> holds_on (m_ty m) = false) l ->
    rests t (KObject c) (EStartObject :: member_tokens l).

(** A handler with another one on top, for a value of type [u]. *)
Inductive covers : ty -> kind -> list event -> ty -> bool -> Prop :=
| covers_sequence : forall t u k js, sequence (pointee t) = Some u -> (k = KVector u \/ k = KFastSet u /\ fast u = true \/ exists id, k = KSet u id /\ fast u = false) ->
    (js <> [] -> holds_on u = false) -> covers t k (EStartArray :: flat_map events js) u true
| covers_fixed : forall t ts u js, fixed (pointee t) = Some ts -> Forall (fun u => holds_on u = false) (firstn (List.length js) ts) ->
    nth_error ts (List.length js) = Some u ->
    covers t (KFixed (S (List.length js)) (skipn (S (List.length js)) ts)) (EStartArray :: flat_map events js) u true
| covers_map : forall t o u l k, pointee t = TMap o u -> (l <> [] -> holds_on u = false) ->
    covers t (KMap u) (EStartObject :: member_tokens l ++ [EKey k]) u false
| covers_object : forall t c l m, pointee t = TClass c ->
    Forall (fun p => forall m, In m (c_members (class_of e c)) -> m_name m = fst p -> holds_on (m_ty m) = false) l ->
    In m (c_members (class_of e c)) -> covers t (KObject c) (EStartObject :: member_tokens l ++ [EKey (m_name m)]) (m_ty m) false.

(** All handlers, top first. *)
Inductive on_path : ty -> list kind -> list event -> Prop :=
| path_top : forall t k evs, rests t k evs -> on_path t [k] evs
| path_sub : forall t k p u b ks q, covers t k p u b -> (b = true -> q <> []) -> on_path u ks q -> on_path t (ks ++ [k]) (p ++ q).

(** A value is complete. *)
Definition complete (t : ty) (evs : list event) : Prop := holds_on t = false /\ exists j, evs = events j.

Lemma flat_snoc : forall js j, flat_map events (js ++ [j]) = flat_map events js ++ events j.
Proof. intros. rewrite flat_map_app. cbn. now rewrite app_nil_r. Qed.

Lemma tokens_snoc : forall l k j, member_tokens (l ++ [(k, j)]) = member_tokens l ++ EKey k :: events j.
Proof. intros. unfold member_tokens. rewrite flat_map_app. cbn. now rewrite app_nil_r. Qed.

(** A component that is complete. *)
Lemma covers_complete : forall t k p u b j, covers t k p u b -> holds_on u = false -> rests t k (p ++ events j).
Proof.
  intros t k p u b j H N. destruct H as [t u k js S K _|t ts u js F A E|t o u l n P _|t c l m P A I].
  - cbn [app]. rewrite <- flat_snoc. now apply (rests_sequence t u).
  - cbn [app]. rewrite <- flat_snoc.
    assert (L : List.length (js ++ [j]) = S (List.length js)) by (rewrite app_length; cbn; lia). rewrite <- L. apply rests_fixed; [assumption| |].
    + rewrite L. rewrite (firstn_last _ _ _ _ E). apply Forall_app. auto.
    + rewrite L. apply nth_error_Some. congruence.
  - cbn [app]. rewrite <- app_assoc. cbn [app]. rewrite <- tokens_snoc. now apply (rests_map t o u).
  - cbn [app]. rewrite <- app_assoc. cbn [app]. rewrite <- tokens_snoc. apply (rests_object t c); [assumption|]. apply Forall_app. split; [assumption|].
    constructor; [|constructor]. cbn [fst]. intros m' I' E. destruct Hr as [_ Hc]. destruct (Hc c) as (D & _).
    now rewrite (name_unique _ _ _ D I' I E).
Qed.

Lemma value_moves : forall t ev ks, moves e (KValue (core t)) ev ks -> ks = [] /\ complete t [ev] \/ on_path t ks [ev].
Proof.
  intros t ev ks H. rewrite core_pointee in H. inversion H; subst.
  - left. split; [reflexivity|]. split; [|exists j; now symmetry]. unfold holds_on in *. now rewrite pointee_idem in *.
  - right. constructor. apply (rests_again t names [s]). congruence.
  - right. constructor. apply (rests_sequence t u (KVector u) []); [now rewrite <- H1|auto|congruence].
  - right. constructor. apply (rests_sequence t u (KSet u id) []); [now replace (pointee t) with (TSet u)|eauto|congruence].
  - right. constructor. apply (rests_sequence t u (KFastSet u) []); [now replace (pointee t) with (TSet u)|auto|congruence].
  - right. constructor. apply (rests_fixed t ts []); [assumption|constructor|cbn; lia].
  - right. constructor. apply (rests_map t o u []); [now symmetry|congruence].
  - right. constructor. apply (rests_object t c []); [now symmetry|constructor].
Qed.

Lemma covered : forall t k p u b ks q, covers t k p u b -> q <> [] -> (ks = [] /\ complete u q \/ on_path u ks q) -> on_path t (ks ++ [k]) (p ++ q).
Proof.
  intros t k p u b ks q C N [[-> [Ho [j ->]]]|H].
  - constructor. eapply covers_complete; eassumption.
  - eapply path_sub; [eassumption|auto|assumption].
Qed.

Lemma rests_moves : forall t k evs ev ks, rests t k evs -> moves e k ev ks -> ks = [] /\ complete t (evs ++ [ev]) \/ on_path t ks (evs ++ [ev]).
Proof.
  intros t k evs ev ks R M. destruct R as [t|t names ss P|t u k js S K N|t ts js F A L|t o u l P N|t c l P A].
  - now apply value_moves.
  - inversion M; subst; try discriminate. right. constructor. change [EStr s] with (map EStr [s]). rewrite <- map_app. now apply rests_again.
  - assert (Ho : holds_on t = false) by (unfold holds_on; destruct (pointee t); try discriminate; reflexivity).
    assert (En : complete t ((EStartArray :: flat_map events js) ++ [EEndArray])) by (split; [exact Ho|]; now exists (JArr js)).
    assert (Go : forall ks1, moves e (KValue (core u)) ev ks1 -> on_path t (ks1 ++ [k]) ((EStartArray :: flat_map events js) ++ [ev])).
    { intros ks1 M1. eapply covered; [now apply (covers_sequence t u k js)|discriminate|now apply value_moves]. }
    assert (Fa : forall j, events j = [ev] -> holds_on u = false -> on_path t [k] ((EStartArray :: flat_map events js) ++ [ev])).
    { intros j Hj Hu. change [k] with (@nil kind ++ [k]). eapply covered; [now apply (covers_sequence t u k js)|discriminate|]. left. split; [reflexivity|]. split; [exact Hu|exists j; now symmetry]. }
    destruct K as [-> |[[-> _]|(id & -> & _)]]; inversion M; subst; auto; right; eauto.
  - assert (Ho : holds_on t = false) by (unfold holds_on; destruct (pointee t); try discriminate; reflexivity).
    destruct (skipn (List.length js) ts) as [|u us] eqn:E.
    + inversion M; subst. left. split; [reflexivity|]. split; [exact Ho|]. now exists (JArr js).
    + inversion M; subst. right. assert (L' : List.length js < List.length ts) by (rewrite <- (firstn_skipn (List.length js) ts), E, app_length, firstn_length; cbn; lia).
      destruct (skipn_cons _ _ _ L') as (u' & E1 & E2). rewrite E in E1. injection E1 as <- ->.
      eapply covered; [now apply (covers_fixed t ts u js)|discriminate|now apply value_moves].
  - assert (Ho : holds_on t = false) by (unfold holds_on; now rewrite P).
    inversion M; subst.
    + left. split; [reflexivity|]. split; [exact Ho|]. now exists (JObj l).
    + right. change [KValue (core u); KMap u] with ([KValue (core u)] ++ [KMap u]).
      replace ((EStartObject :: member_tokens l) ++ [EKey k]) with ((EStartObject :: member_tokens l ++ [EKey k]) ++ []) by (rewrite app_nil_r; reflexivity).
      eapply path_sub; [now apply (covers_map t o u l k)|discriminate|]. constructor. constructor.
  - assert (Ho : holds_on t = false) by (unfold holds_on; now rewrite P).
    inversion M; subst.
    + left. split; [reflexivity|]. split; [exact Ho|]. now exists (JObj l).
    + right. change [KValue (core (m_ty m)); KObject c] with ([KValue (core (m_ty m))] ++ [KObject c]).
      replace ((EStartObject :: member_tokens l) ++ [EKey (m_name m)]) with ((EStartObject :: member_tokens l ++ [EKey (m_name m)]) ++ []) by (rewrite app_nil_r; reflexivity).
      eapply path_sub; [now apply (covers_object t c l m)|discriminate|]. constructor. constructor.
Qed.

Lemma path_moves : forall t l evs, on_path t l evs -> forall k ks ev ks', l = k :: ks -> moves e k ev ks' ->
  ks' ++ ks = [] /\ complete t (evs ++ [ev]) \/ on_path t (ks' ++ ks) (evs ++ [ev]).
Proof.
  intros t l evs H. induction H as [t k0 evs R|t k0 p u b ks0 q C N H IH]; intros k ks ev ks' E M.
  - injection E as -> <-. rewrite app_nil_r. now apply (rests_moves t k).
  - destruct ks0 as [|k1 ks1]; [inversion H; destruct ks0; discriminate|]. injection E as -> <-. right. rewrite <- app_assoc, app_assoc.
    eapply covered; [eassumption|now destruct q|]. eapply IH; [reflexivity|exact M].
Qed.

Lemma run_path : forall evs t s s', run e fuel fits evs s = POk s' -> stack s' <> [] -> forall p, on_path t (kinds s) p -> on_path t (kinds s') (p ++ evs).
Proof.
  induction evs as [|ev evs IH]; intros t s s' H N p P; cbn [run] in H.
  - injection H as <-. now rewrite app_nil_r.
  - destruct (step e fuel fits ev s) as [s1| | | |] eqn:S; try discriminate. destruct (stack s) as [|h hs] eqn:Hs.
    { unfold step in S. rewrite Hs in S. discriminate. }
    destruct (step_moves _ _ _ _ _ S Hs) as (ks & M & K). unfold kinds in P. rewrite Hs in P. cbn [map] in P.
    destruct (path_moves _ _ _ P _ _ _ _ eq_refl M) as [[E _]|P1].
    + rewrite <- K in E. apply map_eq_nil in E. destruct evs as [|ev' evs]; cbn [run] in H; [congruence|]. unfold step in H. rewrite E in H. discriminate.
    + rewrite <- K in P1. specialize (IH t s1 s' H N _ P1). now rewrite <- app_assoc in IH.
Qed.

(** What the handler on top waits for. *)
Inductive faces : kind -> await -> Prop :=
| faces_value : forall t, pointee t = t -> faces (KValue t) (AValue t)
| faces_vector : forall u, faces (KVector u) (AElement u)
| faces_set : forall u id, fast u = false -> faces (KSet u id) (AElement u)
| faces_fast_set : forall u, fast u = true -> faces (KFastSet u) (AElement u)
| faces_component : forall i u us, faces (KFixed i (u :: us)) (AComponent u)
| faces_close : forall i, faces (KFixed i []) AClose
| faces_key : forall u, faces (KMap u) AKey
| faces_name : forall c, faces (KObject c) (AName c).

Lemma awaits_behind : forall t evs w, awaits e (pointee t) evs w -> awaits e t evs w.
Proof. induction t; intros evs w H; try exact H; constructor; now apply IHt. Qed.

Lemma rests_awaits : forall t k evs, rests t k evs -> exists w, awaits e t evs w /\ faces k w.
Proof.
  intros t k evs H. destruct H as [t|t names ss P|t u k js S K N|t ts js F A L|t o u l P N|t c l P A].
  - exists (AValue (pointee t)). split; [apply awaits_behind; constructor; apply pointee_idem|]. rewrite core_pointee. constructor. apply pointee_idem.
  - exists (AValue (TEnumStr names)). split; [|now constructor]. apply awaits_behind. rewrite P. destruct ss; [now apply awaits_start|apply awaits_again].
  - exists (AElement u). split; [apply awaits_behind; now apply awaits_element|]. destruct K as [-> |[[-> Kf]|(id & -> & Kf)]]; now constructor.
  - destruct (nth_error ts (List.length js)) as [u|] eqn:E.
    + exists (AComponent u). split; [apply awaits_behind; eapply awaits_component; eassumption|].
      destruct (skipn_cons _ ts (List.length js)) as (u' & E1 & E2); [apply nth_error_Some; congruence|]. rewrite E1. assert (u' = u) by congruence. subst. constructor.
    + apply nth_error_None in E. exists AClose. split; [apply awaits_behind; eapply awaits_close; [eassumption| |lia]|].
      * now rewrite firstn_all2 in A by lia.
      * rewrite skipn_all2 by lia. constructor.
  - exists AKey. split; [apply awaits_behind; rewrite P; now constructor|constructor].
  - exists (AName c). split; [apply awaits_behind; rewrite P; now constructor|constructor].
Qed.

Lemma path_awaits : forall t l evs, on_path t l evs -> forall k ks, l = k :: ks -> exists w, awaits e t evs w /\ faces k w.
Proof.
  intros t l evs H. induction H as [t k0 evs R|t k0 p u b ks0 q C N H IH]; intros k ks E.
  - injection E as -> _. now apply rests_awaits.
  - destruct ks0 as [|k1 ks1]; [inversion H; destruct ks0; discriminate|]. injection E as -> _. destruct (IH _ _ eq_refl) as (w & W & F).
    exists w. split; [|exact F]. apply awaits_behind. destruct C as [t u k' js S K Nj|t ts u js Fx A En|t o u l n P Nl|t c l m P A I].
    + cbn [app]. eapply awaits_in_element; try eassumption. auto.
    + cbn [app]. eapply awaits_in_component; try eassumption. auto.
    + rewrite P. cbn [app]. rewrite <- app_assoc. cbn [app]. now apply awaits_entry.
    + rewrite P. cbn [app]. rewrite <- app_assoc. cbn [app]. now apply awaits_member.
Qed.
End Moves.
