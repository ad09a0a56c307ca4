(** What is awaited is unique, and the messages of the handlers are the complaints. *)
From Coq Require Import List Arith Lia ZArith NArith Ascii String Bool.
From Verif Require Import Base Float NumericModel NumericSpec EnumModel HashModel DispatchModel Json Events Types SerializeModel DeserializeModel
  DenoteSpec MergeSpec ParseModel ParseRead ParseProof MergeProof MergeFacts EnumProof OffsetRead MessageModel MessageSpec MessageProof.
Import ListNotations.
Local Open Scope list_scope.

(** * Tokens of a value are not tokens of two *)

Definition weight (ev : event) : Z :=
  match ev with EStartArray | EStartObject => 1 | EEndArray | EEndObject => -1 | _ => 0 end%Z.

Fixpoint depth (evs : list event) : Z := match evs with [] => 0%Z | ev :: evs' => (weight ev + depth evs')%Z end.

Lemma depth_app : forall a b, depth (a ++ b) = (depth a + depth b)%Z.
Proof. induction a as [|x a IH]; intros b; cbn [app depth]; [lia|]. rewrite IH. lia. Qed.

Lemma depth_flat : forall js, Forall (fun j => depth (events j) = 0%Z) js -> depth (flat_map events js) = 0%Z.
Proof. intros js H. induction H as [|j js Hj _ IH]; cbn; [reflexivity|]. rewrite depth_app. lia. Qed.

Lemma depth_members : forall l, Forall (fun p => depth (events (snd p)) = 0%Z) l -> depth (member_tokens l) = 0%Z.
Proof. intros l H. induction H as [|[k j] l Hj _ IH]; cbn; [reflexivity|]. rewrite depth_app. cbn in Hj. fold (member_tokens l). lia. Qed.

Lemma depth_events : forall j, depth (events j) = 0%Z.
Proof.
  induction j using json_ind'; try reflexivity; cbn [events depth weight]; rewrite depth_app.
  - rewrite depth_flat by assumption. reflexivity.
  - fold (member_tokens l). rewrite depth_members by assumption. reflexivity.
Qed.

(** A value starts with a token that is not an end or a key, and before its end there are more
    starts than ends. *)
Definition value_first (evs : list event) : Prop :=
  match evs with [] => False | EEndArray :: _ | EEndObject :: _ | EKey _ :: _ => False | _ => True end.

Lemma events_first : forall j, value_first (events j).
Proof. destruct j; exact I. Qed.

Lemma prefix_depth : forall j p q, events j = p ++ q -> (0 <= depth p)%Z.
Proof.
  assert (F : forall js, Forall (fun j => forall p q, events j = p ++ q -> (0 <= depth p)%Z) js -> forall p q, flat_map events js = p ++ q -> (0 <= depth p)%Z).
  { intros js H. induction H as [|j js Hj _ IH]; intros p q E; cbn in E.
    - symmetry in E. apply app_eq_nil in E as [-> _]. reflexivity.
    - destruct (app_eq_app _ _ _ _ E) as (l & [[E1 E2]|[E1 E2]]); [now apply (Hj p l)|]. subst p. rewrite depth_app, depth_events. specialize (IH l q E2). lia. }
  assert (G : forall l, Forall (fun x => forall p q, events (snd x) = p ++ q -> (0 <= depth p)%Z) l -> forall p q, member_tokens l = p ++ q -> (0 <= depth p)%Z).
  { intros l H. induction H as [|[k j] l Hj _ IH]; intros p q E; cbn in E.
    - symmetry in E. apply app_eq_nil in E as [-> _]. reflexivity.
    - fold (member_tokens l) in E. destruct p as [|x p]; [reflexivity|]. cbn in E. injection E as <- E. cbn [depth weight].
      destruct (app_eq_app _ _ _ _ E) as (l' & [[E1 E2]|[E1 E2]]); [specialize (Hj p l' E1); lia|]. subst p. rewrite depth_app, depth_events. specialize (IH l' q E2). lia. }
  induction j using json_ind'; intros p q E; cbn [events] in E;
    try (destruct p as [|x [|y p]]; [reflexivity| |discriminate]; injection E as <- _; reflexivity).
  - destruct p as [|x p]; [reflexivity|]. injection E as <- E. cbn [depth weight].
    destruct (app_eq_app _ _ _ _ E) as (l' & [[E1 E2]|[E1 E2]]); [specialize (F l H p l' E1); lia|]. subst p. rewrite depth_app, depth_flat by (apply Forall_forall; intros; apply depth_events).
    destruct l' as [|y [|z l']]; [cbn; lia|injection E2 as <- _; cbn; lia|discriminate].
  - destruct p as [|x p]; [reflexivity|]. injection E as <- E. cbn [depth weight]. fold (member_tokens l) in E.
    destruct (app_eq_app _ _ _ _ E) as (l' & [[E1 E2]|[E1 E2]]); [specialize (G l H p l' E1); lia|]. subst p. rewrite depth_app, depth_members by (apply Forall_forall; intros; apply depth_events).
    destruct l' as [|y [|z l']]; [cbn; lia|injection E2 as <- _; cbn; lia|discriminate].
Qed.

Lemma flat_prefix : forall js p q, flat_map events js = p ++ q -> (0 <= depth p)%Z.
Proof.
  induction js as [|j js IH]; intros p q E; cbn in E.
  - symmetry in E. apply app_eq_nil in E as [-> _]. reflexivity.
  - destruct (app_eq_app _ _ _ _ E) as (l & [[E1 E2]|[E1 E2]]); [now apply (prefix_depth j p l)|]. subst p. rewrite depth_app, depth_events. specialize (IH l q E2). lia.
Qed.

Lemma members_prefix : forall l p q, member_tokens l = p ++ q -> (0 <= depth p)%Z.
Proof.
  induction l as [|[k j] l IH]; intros p q E; cbn in E.
  - symmetry in E. apply app_eq_nil in E as [-> _]. reflexivity.
  - fold (member_tokens l) in E. destruct p as [|x p]; [reflexivity|]. cbn in E. injection E as <- E. cbn [depth weight].
    destruct (app_eq_app _ _ _ _ E) as (l' & [[E1 E2]|[E1 E2]]); [pose proof (prefix_depth j p l' E1); lia|]. subst p. rewrite depth_app, depth_events. specialize (IH l' q E2). lia.
Qed.

Lemma flat_depth : forall js, depth (flat_map events js) = 0%Z.
Proof. intros js. apply depth_flat, Forall_forall. intros. apply depth_events. Qed.

Lemma members_depth : forall l, depth (member_tokens l) = 0%Z.
Proof. intros l. apply depth_members, Forall_forall. intros. apply depth_events. Qed.

Lemma prefix_of_app : forall (a b p q : list event), a ++ b = p ++ q -> q <> [] -> (exists l, a = p ++ l) \/ (exists l, p = a ++ l /\ b = l ++ q).
Proof. intros a b p q E N. destruct (app_eq_app _ _ _ _ E) as (l & [[E1 E2]|[E1 E2]]); eauto. Qed.

Lemma proper_prefix : forall j p q, events j = p ++ q -> p <> [] -> q <> [] -> (1 <= depth p)%Z.
Proof.
  intros j p q E Np Nq. destruct p as [|x p]; [congruence|]. destruct j; cbn [events] in E; injection E as Ex E; subst x;
    try (destruct p; [destruct q; [congruence|discriminate]|discriminate]); cbn [depth weight].
  - destruct (prefix_of_app _ _ _ _ E Nq) as [[r E1]|(r & -> & E1)].
    + pose proof (flat_prefix l p r E1). lia.
    + destruct r as [|? r]; [rewrite app_nil_r, flat_depth; lia|]. injection E1 as _ E1. destruct r; [destruct q; [congruence|discriminate]|discriminate].
  - fold (member_tokens l) in E. destruct (prefix_of_app _ _ _ _ E Nq) as [[r E1]|(r & -> & E1)].
    + pose proof (members_prefix l p r E1). lia.
    + destruct r as [|? r]; [rewrite app_nil_r, members_depth; lia|]. injection E1 as _ E1. destruct r; [destruct q; [congruence|discriminate]|discriminate].
Qed.

Lemma events_nonempty : forall j, events j <> [].
Proof. destruct j; discriminate. Qed.

Lemma events_split : forall j j' a b, events j ++ a = events j' ++ b -> events j = events j' /\ a = b.
Proof.
  assert (X : forall j j' l, events j = events j' ++ l -> l = []).
  { intros j j' l E. destruct l as [|x l]; [reflexivity|]. exfalso.
    pose proof (proper_prefix _ _ _ E (events_nonempty j')) as H. rewrite depth_events in H. specialize (H ltac:(discriminate)). lia. }
  intros j j' a b E. destruct (app_eq_app _ _ _ _ E) as (l & [[E1 E2]|[E1 E2]]); pose proof (X _ _ _ E1); subst l; rewrite app_nil_r in *; cbn in *; auto.
Qed.

(** More starts than ends in every beginning. *)
Definition deep (a : list event) : Prop := forall p q, a = p ++ q -> p <> [] -> (1 <= depth p)%Z.

Lemma deep_not : forall j b, ~ deep (events j ++ b).
Proof. intros j b H. specialize (H (events j) b eq_refl (events_nonempty j)). rewrite depth_events in H. lia. Qed.

Lemma flat_split : forall js js' a b, flat_map events js ++ a = flat_map events js' ++ b -> (List.length js < List.length js' -> deep a) ->
  (List.length js' < List.length js -> deep b) -> List.length js = List.length js' /\ a = b.
Proof.
  induction js as [|j js IH]; intros [|j' js'] a b E A B; cbn in *.
  - auto.
  - exfalso. rewrite <- app_assoc in E. subst a. eapply deep_not. apply A. lia.
  - exfalso. rewrite <- app_assoc in E. subst b. eapply deep_not. apply B. lia.
  - rewrite <- !app_assoc in E. apply events_split in E as [_ E]. destruct (IH js' a b E) as [L ->]; [intros; apply A; lia|intros; apply B; lia|]. auto.
Qed.

Lemma members_split : forall l l' a b, member_tokens l ++ a = member_tokens l' ++ b ->
  (forall k x, nth_error (map fst l') (List.length l) = Some k -> a = EKey k :: x -> deep x) ->
  (forall k x, nth_error (map fst l) (List.length l') = Some k -> b = EKey k :: x -> deep x) -> map fst l = map fst l' /\ a = b.
Proof.
  induction l as [|[k j] l IH]; intros [|[k' j'] l'] a b E A B; cbn in *.
  - auto.
  - exfalso. fold (member_tokens l') in E. subst a. eapply deep_not with (j := j'). rewrite <- app_assoc in A. now apply (A k').
  - exfalso. fold (member_tokens l) in E. subst b. eapply deep_not with (j := j). rewrite <- app_assoc in B. now apply (B k).
  - fold (member_tokens l) (member_tokens l') in E. injection E as -> E. rewrite <- !app_assoc in E. apply events_split in E as [_ E].
    destruct (IH l' a b E) as [L ->]; [exact A|exact B|]. split; [now f_equal|reflexivity].
Qed.

Lemma awaits_prefix : forall e t evs w, awaits e t evs w -> (forall p q, evs = p ++ q -> (0 <= depth p)%Z) /\ (holds_on t = false -> deep evs).
Proof.
  intros e t evs w H.
  assert (X : forall ev a, weight ev = 1%Z -> (forall p q, a = p ++ q -> (0 <= depth p)%Z) -> (forall p q, ev :: a = p ++ q -> (0 <= depth p)%Z) /\ deep (ev :: a)).
  { intros ev a Hw Ha. split; [intros [|x p] q E|intros [|x p] q E N]; try reflexivity; try congruence; injection E as <- E; cbn [depth]; specialize (Ha p q E); lia. }
  assert (Y : forall a b, depth a = 0%Z -> (forall p q, a = p ++ q -> (0 <= depth p)%Z) -> (forall p q, b = p ++ q -> (0 <= depth p)%Z) -> forall p q, a ++ b = p ++ q -> (0 <= depth p)%Z).
  { intros a b Da Ha Hb p q E. destruct (app_eq_app _ _ _ _ E) as (l & [[E1 E2]|[E1 E2]]); [now apply (Ha p l)|]. subst p. rewrite depth_app. specialize (Hb l q E2). lia. }
  induction H as [t P|u evs w H IH|u evs w H IH|names s ss|t u js S N|t u js evs w S N Ne H IH|t ts u js F A E|t ts u js evs w F A E Ne H IH|t ts js F A L|o u l N|o u l k evs w N H IH|c l A|c l m evs w A I H IH].
  - split; [intros [|] q E; [reflexivity|discriminate]|]. intros _ [|] q E N; [congruence|discriminate].
  - exact IH.
  - exact IH.
  - split; [|discriminate]. generalize (s :: ss). induction l as [|x l IH]; intros [|y p] q E; try reflexivity; [discriminate|]. cbn in E. injection E as <- E. cbn. exact (IH p q E).
  - destruct (X EStartArray (flat_map events js) eq_refl) as [X1 X2]; [apply flat_prefix|]. auto.
  - destruct (X EStartArray (flat_map events js ++ evs) eq_refl) as [X1 X2]; [apply Y; [apply flat_depth|apply flat_prefix|apply IH]|]. auto.
  - destruct (X EStartArray (flat_map events js) eq_refl) as [X1 X2]; [apply flat_prefix|]. auto.
  - destruct (X EStartArray (flat_map events js ++ evs) eq_refl) as [X1 X2]; [apply Y; [apply flat_depth|apply flat_prefix|apply IH]|]. auto.
  - destruct (X EStartArray (flat_map events js) eq_refl) as [X1 X2]; [apply flat_prefix|]. auto.
  - destruct (X EStartObject (member_tokens l) eq_refl) as [X1 X2]; [apply members_prefix|]. auto.
  - destruct (X EStartObject (member_tokens l ++ EKey k :: evs) eq_refl) as [X1 X2]; [apply Y; [apply members_depth|apply members_prefix|]|auto].
    intros [|x p] q E; [reflexivity|]. injection E as <- E. exact (proj1 IH p q E).
  - destruct (X EStartObject (member_tokens l) eq_refl) as [X1 X2]; [apply members_prefix|]. auto.
  - destruct (X EStartObject (member_tokens l ++ EKey (m_name m) :: evs) eq_refl) as [X1 X2]; [apply Y; [apply members_depth|apply members_prefix|]|auto].
    intros [|x p] q E; [reflexivity|]. injection E as <- E. exact (proj1 IH p q E).
Qed.

(** * One thing is awaited *)

Lemma sequence_cases : forall e t u evs w, sequence t = Some u -> awaits e t evs w -> evs = [] /\ w = AValue t \/
  exists js a, evs = EStartArray :: flat_map events js ++ a /\ (js <> [] -> holds_on u = false) /\ (a = [] /\ w = AElement u \/ a <> [] /\ awaits e u a w).
Proof.
  intros e t u evs w S H. destruct H; try discriminate; try (destruct t; discriminate).
  - auto.
  - right. exists js, []. rewrite app_nil_r. assert (u0 = u) by congruence. subst. auto.
  - right. exists js, evs. assert (u0 = u) by congruence. subst. auto.
Qed.

Lemma fixed_cases : forall e t ts evs w, fixed t = Some ts -> awaits e t evs w -> evs = [] /\ w = AValue t \/
  exists js a, evs = EStartArray :: flat_map events js ++ a /\ Forall (fun u => holds_on u = false) (firstn (List.length js) ts) /\
    (a = [] /\ List.length js = List.length ts /\ w = AClose \/
     exists u, nth_error ts (List.length js) = Some u /\ (a = [] /\ w = AComponent u \/ a <> [] /\ awaits e u a w)).
Proof.
  intros e t ts evs w S H. destruct H; try discriminate; try (destruct t; discriminate).
  - auto.
  - right. exists js, []. rewrite app_nil_r. assert (ts0 = ts) by congruence. subst. split; auto. split; auto. right. exists u. auto.
  - right. exists js, evs. assert (ts0 = ts) by congruence. subst. split; auto. split; auto. right. exists u. auto.
  - right. exists js, []. rewrite app_nil_r. assert (ts0 = ts) by congruence. subst. split; auto. split; [|auto]. rewrite firstn_all2 by lia. assumption.
Qed.

Lemma map_cases : forall e o u evs w, awaits e (TMap o u) evs w -> evs = [] /\ w = AValue (TMap o u) \/
  exists l a, evs = EStartObject :: member_tokens l ++ a /\ (l <> [] -> holds_on u = false) /\ (a = [] /\ w = AKey \/ exists k x, a = EKey k :: x /\ awaits e u x w).
Proof.
  intros e o u evs w H. inversion H; subst; try discriminate.
  - auto.
  - right. exists l, []. rewrite app_nil_r. auto.
  - right. exists l, (EKey k :: evs0). split; auto. split; auto. right. eauto.
Qed.

Lemma class_cases : forall e c evs w, awaits e (TClass c) evs w -> evs = [] /\ w = AValue (TClass c) \/
  exists l a, evs = EStartObject :: member_tokens l ++ a /\
    Forall (fun p => forall m, In m (c_members (class_of e c)) -> m_name m = fst p -> holds_on (m_ty m) = false) l /\
    (a = [] /\ w = AName c \/ exists m x, a = EKey (m_name m) :: x /\ In m (c_members (class_of e c)) /\ awaits e (m_ty m) x w).
Proof.
  intros e c evs w H. inversion H; subst; try discriminate.
  - auto.
  - right. exists l, []. rewrite app_nil_r. auto.
  - right. exists l, (EKey (m_name m) :: evs0). split; auto. split; auto. right. eauto.
Qed.

Lemma pointee_plain : forall t u, pointee t <> TUnique u /\ pointee t <> TShared u.
Proof. induction t using ty_ind'; intros u; cbn; try (split; discriminate); auto. Qed.

Lemma nil_deep : deep [].
Proof. intros [|] q E N; [congruence|discriminate]. Qed.

Lemma forall_names : forall e c (l : list (string * json)) i m, Forall (fun p => forall m, In m (c_members (class_of e c)) -> m_name m = fst p -> holds_on (m_ty m) = false) l ->
  nth_error (map fst l) i = Some (m_name m) -> In m (c_members (class_of e c)) -> holds_on (m_ty m) = false.
Proof.
  intros e c l i m A E I. rewrite nth_error_map in E. destruct (nth_error l i) as [[k j]|] eqn:El; [|discriminate]. injection E as E.
  rewrite Forall_forall in A. apply (A _ (nth_error_In _ _ El) m I). now symmetry.
Qed.

Lemma awaits_one : forall e, (forall c, NoDup (map m_name (c_members (class_of e c)))) -> forall t evs w, awaits e t evs w -> forall w', awaits e t evs w' -> w = w'.
Proof.
  intros e D t evs w H.
  assert (Sq : forall u t js a w w', sequence t = Some u -> (js <> [] -> holds_on u = false) -> (a = [] /\ w = AElement u \/ a <> [] /\ awaits e u a w) ->
    (forall w', awaits e u a w' -> a <> [] -> w = w') -> awaits e t (EStartArray :: flat_map events js ++ a) w' -> w = w').
  { clear. intros u t js a w w' S N A U H. destruct (sequence_cases _ _ _ _ _ S H) as [[X _]|(js' & a' & E & N' & A')]; [discriminate|].
    injection E as E.
    assert (Dp : forall a w, holds_on u = false -> (a = [] /\ w = AElement u \/ a <> [] /\ awaits e u a w) -> deep a).
    { intros a0 w0 Ho [[-> _]|[_ X]]; [apply nil_deep|]. now apply (proj2 (awaits_prefix _ _ _ _ X)). }
    destruct (flat_split _ _ _ _ E) as [L ->].
    - intros L. apply (Dp a w); [apply N'; destruct js'; [cbn in L; lia|discriminate]|exact A].
    - intros L. apply (Dp a' w'); [apply N; destruct js; [cbn in L; lia|discriminate]|exact A'].
    - destruct A as [[-> ->]|[Na A]], A' as [[Z ->]|[Na' A']]; try congruence. now apply U. }
  assert (Fx : forall t ts js a w w', fixed t = Some ts -> Forall (fun u => holds_on u = false) (firstn (List.length js) ts) ->
    (a = [] /\ List.length js = List.length ts /\ w = AClose \/ exists u, nth_error ts (List.length js) = Some u /\ (a = [] /\ w = AComponent u \/ a <> [] /\ awaits e u a w)) ->
    (forall u w', nth_error ts (List.length js) = Some u -> awaits e u a w' -> a <> [] -> w = w') -> awaits e t (EStartArray :: flat_map events js ++ a) w' -> w = w').
  { clear. intros t ts js a w w' S N A U H. destruct (fixed_cases _ _ _ _ _ S H) as [[X _]|(js' & a' & E & N' & A')]; [discriminate|].
    injection E as E.
    assert (Dp : forall (js js' : list json) a w, Forall (fun u => holds_on u = false) (firstn (List.length js') ts) -> List.length js < List.length js' ->
      (a = [] /\ List.length js = List.length ts /\ w = AClose \/ exists u, nth_error ts (List.length js) = Some u /\ (a = [] /\ w = AComponent u \/ a <> [] /\ awaits e u a w)) -> deep a).
    { clear. intros js js' a w F L [[-> _]|(u & Eu & [[-> _]|[_ X]])]; try apply nil_deep. apply (proj2 (awaits_prefix _ _ _ _ X)).
      rewrite Forall_forall in F. apply F. apply nth_error_In with (n := List.length js). rewrite <- Eu.
      rewrite <- (firstn_skipn (List.length js') ts) at 2. symmetry. apply nth_error_app1. rewrite firstn_length. apply Nat.min_glb_lt; [exact L|].
      apply nth_error_Some. congruence. }
    destruct (flat_split _ _ _ _ E) as [L ->].
    - intros L. exact (Dp js js' a w N' L A).
    - intros L. exact (Dp js' js a' w' N L A').
    - rewrite <- L in A'. destruct A as [(Z & Ll & Zw)|(u & Eu & [[Z Zw]|[Na A]])], A' as [(Z' & Ll' & Zw')|(u' & Eu' & [[Z' Zw']|[Na' A']])]; try congruence.
      + exfalso. assert (nth_error ts (List.length js) = None) by (apply nth_error_None; lia). congruence.
      + exfalso. assert (nth_error ts (List.length js) = None) by (apply nth_error_None; lia). congruence.
      + apply (U u'); auto. }
  induction H as [t P|u evs w H IH|u evs w H IH|names s ss|t u js S N|t u js evs w S N Ne H IH|t ts u js F A E|t ts u js evs w F A E Ne H IH|t ts js F A L|o u l N|o u l k evs w N H IH|c l A|c l m evs w A I H IH]; intros w' H'.
  - inversion H'; subst; try discriminate; try reflexivity; exfalso; [exact (proj1 (pointee_plain _ _) P)|exact (proj2 (pointee_plain _ _) P)].
  - inversion H'; subst; try discriminate; [|now apply IH]. match goal with X : pointee _ = _ |- _ => exfalso; exact (proj1 (pointee_plain _ _) X) end.
  - inversion H'; subst; try discriminate; [|now apply IH]. match goal with X : pointee _ = _ |- _ => exfalso; exact (proj2 (pointee_plain _ _) X) end.
  - inversion H'; subst; try discriminate; reflexivity.
  - rewrite <- (app_nil_r (flat_map events js)) in H'. eapply (Sq u t js []); eauto. congruence.
  - eapply (Sq u t js evs); eauto.
  - rewrite <- (app_nil_r (flat_map events js)) in H'. apply (Fx t ts js [] (AComponent u) w' F A); [right; exists u; auto|congruence|exact H'].
  - apply (Fx t ts js evs w w' F A); [right; exists u; auto| |exact H']. intros u' w1 Eu X _. assert (u' = u) by congruence. subst. auto.
  - rewrite <- (app_nil_r (flat_map events js)) in H'. apply (Fx t ts js [] AClose w' F); [now rewrite firstn_all2 by lia|left; auto|congruence|exact H'].
  - destruct (map_cases _ _ _ _ _ H') as [[X _]|(l' & a' & E & N' & A')]; [discriminate|]. injection E as E. rewrite <- (app_nil_r (member_tokens l)) in E.
    destruct (members_split _ _ _ _ E) as [_ X]; [discriminate| |].
    { intros k x En ->. destruct A' as [[Z _]|(k' & x' & Z & A')]; [discriminate|]. injection Z as <- <-. apply (proj2 (awaits_prefix _ _ _ _ A')). apply N.
      destruct l; [destruct (List.length l'); discriminate|discriminate]. }
    subst a'. destruct A' as [[_ ->]|(k' & x' & Z & A')]; [reflexivity|discriminate].
  - destruct (map_cases _ _ _ _ _ H') as [[X _]|(l' & a' & E & N' & A')]; [discriminate|]. injection E as E.
    destruct (members_split _ _ _ _ E) as [_ X].
    { intros k0 x En Z. injection Z as <- <-. apply (proj2 (awaits_prefix _ _ _ _ H)). apply N'. destruct l'; [destruct (List.length l); discriminate|discriminate]. }
    { intros k0 x En ->. destruct A' as [[Z _]|(k' & x' & Z & A')]; [discriminate|]. injection Z as <- <-. apply (proj2 (awaits_prefix _ _ _ _ A')). apply N.
      destruct l; [destruct (List.length l'); discriminate|discriminate]. }
    subst a'. destruct A' as [[Z _]|(k' & x' & Z & A')]; [discriminate|]. injection Z as <- <-. now apply IH.
  - destruct (class_cases _ _ _ _ H') as [[X _]|(l' & a' & E & N' & A')]; [discriminate|]. injection E as E. rewrite <- (app_nil_r (member_tokens l)) in E.
    destruct (members_split _ _ _ _ E) as [_ X]; [discriminate| |].
    { intros k x En ->. destruct A' as [[Z _]|(m' & x' & Z & I' & A')]; [discriminate|]. injection Z as -> <-. apply (proj2 (awaits_prefix _ _ _ _ A')). exact (forall_names e c l _ _ A En I'). }
    subst a'. destruct A' as [[_ ->]|(m' & x' & Z & A')]; [reflexivity|discriminate].
  - destruct (class_cases _ _ _ _ H') as [[X _]|(l' & a' & E & N' & A')]; [discriminate|]. injection E as E.
    destruct (members_split _ _ _ _ E) as [_ X].
    { intros k0 x En Z. injection Z as <- <-. apply (proj2 (awaits_prefix _ _ _ _ H)). exact (forall_names e c l' _ _ N' En I). }
    { intros k0 x En ->. destruct A' as [[Z _]|(m' & x' & Z & I' & A')]; [discriminate|]. injection Z as -> <-. apply (proj2 (awaits_prefix _ _ _ _ A')). exact (forall_names e c l _ _ A En I'). }
    subst a'. destruct A' as [[Z _]|(m' & x' & Z & I' & A')]; [discriminate|]. injection Z as En <-.
    rewrite (name_unique _ _ _ (D c) I' I) in A' by congruence. now apply IH.
Qed.

(** * Integer types *)

Definition real_await (w : await) : Prop := match w with AValue t | AElement t | AComponent t => real_ints t = true | _ => True end.

Lemma real_pointee : forall t, real_ints (pointee t) = real_ints t.
Proof. induction t using ty_ind'; cbn; auto. Qed.

Lemma awaits_real : forall e, real_classes e -> forall t evs w, awaits e t evs w -> real_ints t = true -> real_await w.
Proof.
  intros e Hc t evs w H.
  assert (Sq : forall t u, sequence t = Some u -> real_ints t = true -> real_ints u = true) by (intros [] u E; cbn in *; congruence).
  assert (Fx : forall t ts n u, fixed t = Some ts -> nth_error ts n = Some u -> real_ints t = true -> real_ints u = true).
  { intros [] ts0 m u E En R; cbn in *; try discriminate; injection E as <-.
    - apply nth_error_In, repeat_spec in En. now subst.
    - apply andb_prop in R as [R1 R2]. destruct m as [|[|[|]]]; cbn in En; congruence.
    - rewrite forallb_forall in R. apply R. now apply nth_error_In in En. }
  induction H; cbn [real_await]; intros R; try exact I; try exact R; try (apply IHawaits; exact R); eauto.
  specialize (Hc c). rewrite forallb_forall in Hc. auto.
Qed.

(** * Words *)

Lemma first_core : forall t, json_type_name t = first_name t.
Proof. unfold json_type_name. induction t using ty_ind'; cbn; auto. Qed.

Lemma token_kind : forall ev, token_name ev = kind_name ev.
Proof. destruct ev; reflexivity. Qed.

Lemma first_pointee : forall t, first_name (pointee t) = first_name t.
Proof. induction t using ty_ind'; cbn; auto. Qed.

Lemma one_word : forall w ev x, expected w = [x] -> unexpected x [] ev = wrong_token w ev.
Proof. intros w ev x E. unfold unexpected, wrong_token. rewrite E, token_kind. reflexivity. Qed.

Lemma two_words : forall w ev x y, expected w = [x; y] -> unexpected x [y] ev = wrong_token w ev.
Proof. intros w ev x y E. unfold unexpected, wrong_token. rewrite E, token_kind. reflexivity. Qed.

Lemma short_event : forall z, short_integer (EInt z) <-> integer_event z <> None.
Proof.
  intros z. pose proof (integer_event_ok z) as H. unfold integer_ok in H. unfold short_integer. destruct (integer_event z) as [V|].
  - split; [discriminate|]. intros _. exists z. split; [reflexivity|]. destruct H as (_ & _ & H & _). unfold beyond_64 in H. lia.
  - split; [|congruence]. intros (z' & E & L). injection E as <-. now destruct H.
Qed.

(** The first token of a value of the type. *)
Lemma first_token : forall t ev, kind_name ev = first_name t -> is_json_type t ev = false -> numeric (pointee t) = true /\ kind_name ev = "number"%string.
Proof.
  intros t ev K J. unfold is_json_type in J. rewrite core_pointee in J. rewrite <- first_pointee in K. pose proof (pointee_plain t).
  destruct (pointee t) as [| | | | | | | | | | | | | | | | | | |u|u|] eqn:P; try (exfalso; exact (proj1 (H u) eq_refl)); try (exfalso; exact (proj2 (H u) eq_refl));
    destruct ev; cbn in *; try discriminate; auto.
Qed.

Lemma json_first : forall t ev, is_json_type t ev = true -> kind_name ev = first_name t /\ numeric (pointee t) = false.
Proof.
  intros t ev J. unfold is_json_type in J. rewrite core_pointee in J. rewrite <- first_pointee. destruct (pointee t); destruct ev; try discriminate; auto.
Qed.

(** * Complaints *)

Section Complaints.
Variable e : env.
Variable fuel : nat.
Variable fits : capacity.
Hypothesis Hr : routed e fuel.
Hypothesis Ht : (0 < tick e)%Z.

Definition refused (t : ty) (ev : event) : Prop := scalar e t ev = SReject \/ exists v, scalar e t ev = SRejectAssign v.

Lemma refused_means : forall t ev old v j, MergeSpec.scalar_type t = true -> real_ints t = true -> refused t ev -> head j = ev -> exact_number t j -> ~ denotes e t old j v.
Proof.
  intros t ev old v j Hs R F E X D. pose proof (scalar_given e t old j v Ht Hs R D X) as G. rewrite E in G. unfold refused, given in F. rewrite G in F.
  unfold given in F. destruct t, v; cbn in F; destruct F as [F|[v' F]]; discriminate.
Qed.

Lemma refused_number : forall t ev old v j, numeric t = true -> real_ints t = true -> refused t ev -> head j = ev -> ~ merges e t old j v.
Proof.
  intros t ev old v j N R F E M. inversion M; subst; try discriminate. eapply refused_means; try eassumption. reflexivity.
Qed.

Ltac words := cbn [kind_name expected first_name In]; intuition discriminate.

Lemma replace_never : forall k r s s', replace fits k r s <> PFail s'.
Proof. intros k r s s'. unfold replace, emplace. destruct (fits _ _); discriminate. Qed.

(** Scalars and other values: what fails, and what does not. *)
Lemma value_complaint : forall t r ev s s' w, on_value e fits t r ev s = PFail s' -> real_ints t = true -> wanted w = Some t -> deaf w = false ->
  expected w = [first_name t] \/ is_json_type t ev = true -> complaint e w ev (value_message t ev).
Proof.
  intros t r ev s s' w H R W D X.
  assert (O : ~ In (kind_name ev) [first_name t] -> is_json_type t ev = false -> complaint e w ev (unexpected (json_type_name t) [] ev)).
  { intros N J. destruct X as [X|X]; [|congruence]. rewrite first_core, (one_word w ev (first_name t) X). apply other_token. now rewrite X. }
  assert (V : MergeSpec.scalar_type t = true -> refused t ev).
  { intros Hs. unfold refused. destruct t; try discriminate Hs; cbn [on_value] in H; destruct (scalar e _ ev) eqn:E; try discriminate H; eauto. }
  assert (L : forall j, numeric t = true -> number_token ev j -> (forall k, t = TEnumInt k -> short_integer ev) -> complaint e w ev data_loss).
  { intros j N T S. eapply lossy; try eassumption. intros old v. apply (refused_number t ev old v j); [exact N|exact R| |destruct T; reflexivity].
    apply V. destruct t; try discriminate N; reflexivity. }
  assert (Dn : forall z v old, ev = EStr z -> MergeSpec.scalar_type t = true -> numeric t = false -> ~ denotes e t old (JStr z) v).
  { intros z v old -> Hs N. eapply refused_means; [exact Hs|exact R|exact (V Hs)|reflexivity|]. destruct t; try discriminate N; exact I. }
  assert (Nb : numeric t = true -> (forall k, t <> TEnumInt k) -> complaint e w ev (match ev with EInt _ | EDbl _ => data_loss | _ => unexpected (json_type_name t) [] ev end)).
  { intros N Ne. destruct ev; try (apply O; [|destruct t; try discriminate N; reflexivity]; destruct t; try discriminate N; words);
      (eapply L; [exact N|constructor|intros k E; now apply Ne in E]). }
  destruct t; cbn [on_value scalar value_message] in *; try discriminate.
  - destruct ev; try discriminate; apply O; try reflexivity; words.
  - destruct ev; try discriminate; apply O; try reflexivity; words.
  - specialize (Nb eq_refl ltac:(discriminate)). destruct ev; exact Nb.
  - specialize (Nb eq_refl ltac:(discriminate)). destruct ev; exact Nb.
  - specialize (Nb eq_refl ltac:(discriminate)). destruct ev; exact Nb.
  - destruct ev; try discriminate; apply O; try reflexivity; words.
  - destruct ev; try (apply O; [words|reflexivity]). apply not_base64; [exact W|]. intros old v. now apply Dn.
  - destruct ev; try (apply O; [words|reflexivity]). apply not_time; [exact W|]. intros old v. now apply Dn.
  - destruct ev; try (apply O; [words|reflexivity]). apply not_date; [exact W|]. intros old v. now apply Dn.
  - assert (Ne : kind_name ev = "number"%string -> ~ short_integer ev -> complaint e w ev (unexpected (json_type_name (TEnumInt k)) [] ev)).
    { intros K N. destruct X as [X|X]; [|destruct ev; discriminate X]. rewrite first_core, (one_word w ev _ X). eapply long_enum; eassumption. }
    destruct ev; cbn [number_event]; try (apply O; [words|reflexivity]).
    + destruct (integer_event z) eqn:E.
      * eapply L; [reflexivity|constructor|]. intros k' _. apply short_event. congruence.
      * apply Ne; [reflexivity|]. rewrite short_event. congruence.
    + apply Ne; [reflexivity|]. intros (z & Z & _). discriminate.
  - destruct ev; try (apply O; [words|reflexivity]). apply (no_name e w names); [exact W|]. apply enum_from_string_none.
    destruct (enum_from_string names s0); [discriminate|reflexivity].
  - destruct ev; try (now apply replace_never in H); apply O; try reflexivity; words.
  - destruct ev; try (now apply replace_never in H); apply O; try reflexivity; words.
  - assert (Ns : ev <> EStartArray).
    { intros ->. destruct (fast t); [now apply replace_never in H|]. cbv zeta in H. destruct (replace _ _ _ _) eqn:E in H; try discriminate H. now apply replace_never in E. }
    destruct ev; try congruence; apply O; try reflexivity; words.
  - destruct ev; try (now apply replace_never in H); apply O; try reflexivity; words.
  - destruct ev; try (now apply replace_never in H); apply O; try reflexivity; words.
  - destruct ev; try (now apply replace_never in H); apply O; try reflexivity; words.
  - destruct ev; try (now apply replace_never in H); apply O; try reflexivity; words.
Qed.

Lemma forward_fails : forall u ev r s s', forward e fits ev (open e fits u r s) = PFail s' -> exists r1 s1, on_value e fits (core u) r1 ev s1 = PFail s'.
Proof.
  intros u ev r s s' H. destruct (open e fits u r s) as [s1|s1| | |] eqn:O; try discriminate; [|now apply open_never_fails in O].
  apply open_kinds in O as [r1 O]. cbn [forward] in H. rewrite O in H. eauto.
Qed.

Lemma fast_complaint : forall u r add ev s s', fast u = true -> real_ints u = true -> fast_item e u r add ev s = PFail s' -> ev <> EEndArray ->
  complaint e (AElement u) ev (fast_message u ev).
Proof.
  intros u r add ev s s' Fu R H N.
  assert (V : refused u ev).
  { unfold refused. unfold fast_item in H. destruct (scalar e u ev) eqn:E; try discriminate; eauto; exfalso; destruct u; try discriminate Fu; cbn [scalar] in E;
      repeat match type of E with context [match ?x with _ => _ end] => destruct x; try discriminate end. }
  assert (P : pointee u = u) by (destruct u; try discriminate Fu; reflexivity).
  assert (O : ~ In (kind_name ev) (expected (AElement u)) -> complaint e (AElement u) ev (unexpected (json_type_name u) ["']'"%string] ev)).
  { intros X. rewrite first_core, (two_words (AElement u) ev _ _ eq_refl). now apply other_token. }
  assert (L : forall j, numeric u = true -> number_token ev j -> complaint e (AElement u) ev data_loss).
  { intros j Nu T. apply (lossy e (AElement u) u ev j); [|cbn; now rewrite P|exact Nu|exact T| |].
    - destruct u; try discriminate; try reflexivity. cbn in *. now apply negb_true_iff in Fu.
    - intros k ->. discriminate Fu.
    - intros old v. apply (refused_number u ev old v j Nu R V). destruct T; reflexivity. }
  destruct u; try discriminate Fu; cbn [fast_message].
  - destruct ev; try (apply O; words); congruence.
  - destruct ev; try (apply O; words); try congruence; (eapply L; [reflexivity|constructor]).
  - destruct ev; try (apply O; words); try congruence; (eapply L; [reflexivity|constructor]).
  - destruct ev; try (apply O; words); try congruence; (eapply L; [reflexivity|constructor]).
  - destruct ev; try (apply O; words); congruence.
Qed.

Lemma item_complaint : forall u r ev s s0 s', fast u = false -> real_ints u = true -> ev <> EEndArray ->
  (if is_json_type u ev then forward e fits ev (open e fits u r s) else PFail s0) = PFail s' -> complaint e (AElement u) ev (item_message u ev).
Proof.
  intros u r ev s s0 s' Fu R N H. unfold item_message. destruct (is_json_type u ev) eqn:J.
  - destruct (json_first _ _ J) as [_ Nu]. apply forward_fails in H as (r1 & s1 & H). eapply value_complaint; [exact H| | | |].
    + now rewrite core_pointee, real_pointee.
    + reflexivity.
    + cbn [deaf]. rewrite Nu. destruct u; try reflexivity; discriminate.
    + right. revert J. unfold is_json_type. rewrite !core_pointee, pointee_idem. auto.
  - rewrite first_core, (two_words (AElement u) ev _ _ eq_refl). destruct (string_dec (kind_name ev) (first_name u)) as [E|E].
    + destruct (first_token _ _ E J) as [Nu K]. apply deaf_element; [|exact K].
      cbn [deaf]. destruct u; try exact Nu; try discriminate Fu. cbn in Fu. now apply negb_false_iff in Fu.
    + apply other_token. cbn [expected In]. intros [X|[X|[]]]; [congruence|]. destruct ev; try discriminate; congruence.
Qed.

Lemma step_complaint : forall ev s s' h hs w, stack s = h :: hs -> faces (h_kind h) w -> real_await w -> step e fuel fits ev s = PFail s' ->
  complaint e w ev (message (h_kind h) ev).
Proof.
  intros ev s s' h hs w St F R H. unfold step in H. rewrite St in H. destruct F as [t P|u|u id Fu|u Fu|i u us|i|u|c]; cbn [message real_await] in *.
  - eapply value_complaint; try eassumption; [cbn; now rewrite P|reflexivity|now left].
  - unfold on_vector in H. destruct (fast u) eqn:Fu.
    + assert (ev <> EEndArray) by (destruct ev; discriminate). eapply fast_complaint; try eassumption. destruct ev; try exact H; congruence.
    + assert (ev <> EEndArray) by (destruct ev; discriminate). eapply item_complaint; try eassumption. destruct ev; try exact H; congruence.
  - unfold on_set in H. assert (ev <> EEndArray) by (destruct ev; discriminate). eapply item_complaint; try eassumption. destruct ev; try exact H; congruence.
  - unfold on_fast_set in H. assert (ev <> EEndArray) by (destruct ev; discriminate). eapply fast_complaint; try eassumption. destruct ev; try exact H; congruence.
  - unfold on_fixed in H.
    assert (O : ev = EEndArray \/ ev = EEndObject \/ (exists k, ev = EKey k) -> complaint e (AComponent u) ev (unexpected (json_type_name u) [] ev)).
    { intros X. rewrite first_core, (one_word (AComponent u) ev _ eq_refl). apply other_token. cbn [expected In]. rewrite <- first_pointee. intros [Y|[]].
      destruct X as [-> |[-> |[k ->]]]; destruct (pointee u) as [| | | | | | | | | | | | | | | | | | |v|v|] eqn:P; try discriminate Y; solve [exact (proj1 (pointee_plain u v) P)|exact (proj2 (pointee_plain u v) P)]. }
    assert (V : match replace fits (KFixed (S i) us) (h_ref h) s with POk s => forward e fits ev (open e fits u (into (h_ref h) (SItem i)) s) | x => x end = PFail s' ->
      complaint e (AComponent u) ev (value_message (core u) ev)).
    { intros X. destruct (replace _ _ _ _) as [s1| | | |] eqn:E; try discriminate X; [|now apply replace_never in E].
      apply forward_fails in X as (r1 & s2 & X). eapply value_complaint; [exact X| | |reflexivity|].
      - now rewrite core_pointee, real_pointee.
      - reflexivity.
      - left. cbn. symmetry. f_equal. apply first_pointee. }
    destruct ev; try (apply V; exact H); apply O; eauto.
  - cbn [on_fixed] in H. rewrite (one_word AClose ev _ eq_refl). apply other_token. destruct ev; try discriminate; words.
  - rewrite (two_words AKey ev _ _ eq_refl). apply other_token. destruct ev; try discriminate; try words. exfalso. cbn in H. now apply open_never_fails in H.
  - destruct ev; try (rewrite (two_words (AName c) _ _ _ eq_refl); apply other_token; words); try discriminate.
    apply no_member. intros I. apply in_map_iff in I as (m & E & I). destruct (In_nth_error _ _ I) as [i Hi]. cbn [on_object] in H.
    pose proof (dispatch_member e fuel Hr c i m Hi) as D. rewrite E in D. unfold names_of in D. rewrite D, Hi in H.
    unfold open_member in H. destruct (m_kind m); try (now apply open_never_fails in H).
    destruct (core (m_ty m)); try discriminate; (destruct (fits _ _); [|discriminate]; now apply open_never_fails in H).
Qed.

(** What is taken gives no reason to complain. *)
Lemma taken_complaint : forall t ev w m v, MergeSpec.scalar_type t = true -> real_ints t = true -> wanted w = Some t -> deaf w = false -> In (first_name t) (expected w) ->
  scalar e t ev = SAssign v \/ scalar e t ev = SStay v -> ~ complaint e w ev m.
Proof.
  intros t ev w m v Hs R W D X H C.
  assert (K : kind_name ev = first_name t).
  { destruct t; try discriminate Hs; cbn [scalar] in H; destruct ev; cbn [number_event] in H; try (destruct H; discriminate); reflexivity. }
  assert (M : forall j, head j = ev -> denotes e t VIndet j v /\ exact_number t j).
  { intros j <-. destruct (scalar_means e t VIndet j v Ht Hs R H) as (A & B & _). auto. }
  destruct C as [w ev N|w ev D1 N|w k ev _ W1 N S|w t1 ev j _ W1 N T S F|w s W1 F|w s W1 F|w s W1 F|w names s W1 F|c k F]; cbn in W; try congruence.
  - rewrite W in W1. injection W1 as ->. cbn [scalar] in H. destruct ev; try discriminate N; cbn [number_event] in H; [|destruct H; discriminate].
    rewrite short_event in S. destruct (integer_event z); [now apply S|destruct H; discriminate].
  - rewrite W in W1. injection W1 as <-. destruct (M j) as [A B]; [destruct T; reflexivity|]. now apply (F VIndet v), merges_scalar.
  - rewrite W in W1. injection W1 as ->. destruct (M (JStr s) eq_refl) as [A _]. now apply F in A.
  - rewrite W in W1. injection W1 as ->. destruct (M (JStr s) eq_refl) as [A _]. now apply F in A.
  - rewrite W in W1. injection W1 as ->. destruct (M (JStr s) eq_refl) as [A _]. now apply F in A.
  - rewrite W in W1. injection W1 as ->. cbn [scalar] in H. apply enum_from_string_none in F. rewrite F in H. destruct H; discriminate.
Qed.

Lemma value_fine : forall t r ev s s' w m, on_value e fits t r ev s = POk s' -> real_ints t = true -> wanted w = Some t -> deaf w = false -> In (first_name t) (expected w) ->
  ~ complaint e w ev m.
Proof.
  intros t r ev s s' w m H R W D X C. destruct (MergeSpec.scalar_type t) eqn:Hs.
  - assert (exists v, scalar e t ev = SAssign v \/ scalar e t ev = SStay v) as [v V].
    { destruct t; try discriminate Hs; cbn [on_value] in H; destruct (scalar e _ ev) eqn:E in H |- *; try discriminate H; eauto. }
    eapply taken_complaint; eassumption.
  - assert (K : kind_name ev = first_name t) by (destruct t; try discriminate Hs; cbn [on_value] in H; try discriminate H; destruct ev; try discriminate H; reflexivity).
    destruct C as [w ev N|w ev D1 N|w k ev _ W1 N S|w t1 ev j _ W1 N T S F|w z W1 F|w z W1 F|w z W1 F|w names z W1 F|c k F]; cbn in W; try congruence;
      rewrite W in W1; injection W1 as ->; try discriminate Hs. destruct t1; discriminate.
Qed.

Lemma forward_fine : forall u r ev s s' w m, forward e fits ev (open e fits u r s) = POk s' -> real_ints u = true -> wanted w = Some (pointee u) -> deaf w = false ->
  In (first_name u) (expected w) -> ~ complaint e w ev m.
Proof.
  intros u r ev s s' w m H R W D X. destruct (open e fits u r s) as [s1| | | |] eqn:O; try discriminate.
  apply open_kinds in O as [r1 O]. cbn [forward] in H. rewrite O in H. rewrite core_pointee in H. eapply value_fine; [exact H|now rewrite real_pointee|exact W|exact D|now rewrite first_pointee].
Qed.

Lemma end_fine : forall w ev m, wanted w = None \/ ev = EEndArray -> In (kind_name ev) (expected w) -> (forall c k, w = AName c -> ev <> EKey k) -> ~ complaint e w ev m.
Proof.
  intros w ev m W I N C.
  destruct C as [w ev N1|w ev D1 N1|w k ev _ W1 N1 S|w t1 ev j _ W1 N1 T S F|w z W1 F|w z W1 F|w z W1 F|w names z W1 F|c k F]; try tauto;
    try (destruct W as [W|W]; [congruence|]; subst; discriminate).
  - destruct W as [W|W]; [|subst; discriminate]. destruct w; try discriminate W; discriminate D1.
  - destruct W as [W|W]; [congruence|]. subst. inversion T.
  - now apply (N c k).
Qed.

Lemma item_fine : forall u r ev s s0 s' m, fast u = false -> real_ints u = true -> (if is_json_type u ev then forward e fits ev (open e fits u r s) else PFail s0) = POk s' ->
  ~ complaint e (AElement u) ev m.
Proof.
  intros u r ev s s0 s' m Fu R H. destruct (is_json_type u ev) eqn:J; [|discriminate]. destruct (json_first _ _ J) as [K Nu].
  eapply forward_fine; [exact H|exact R|reflexivity| |now left]. cbn [deaf]. rewrite Nu. destruct u; try reflexivity; discriminate.
Qed.

Lemma fast_fine : forall u r add ev s s' m, fast u = true -> real_ints u = true -> fast_item e u r add ev s = POk s' -> ~ complaint e (AElement u) ev m.
Proof.
  intros u r add ev s s' m Fu R H. unfold fast_item in H. destruct (scalar e u ev) as [v| | | |] eqn:E; try discriminate.
  apply (taken_complaint u ev _ m v); auto.
  - destruct u; try discriminate Fu; reflexivity.
  - cbn. destruct u; try discriminate Fu; reflexivity.
  - destruct u; try discriminate Fu; try reflexivity. cbn in *. now apply negb_true_iff in Fu.
  - now left.
Qed.

Lemma step_fine : forall ev s s' h hs w m, stack s = h :: hs -> faces (h_kind h) w -> real_await w -> step e fuel fits ev s = POk s' -> ~ complaint e w ev m.
Proof.
  intros ev s s' h hs w m St F R H. unfold step in H. rewrite St in H.
  assert (En : forall u, ~ complaint e (AElement u) EEndArray m) by (intros u; apply end_fine; [now right|right; now left|discriminate]).
  destruct F as [t P|u|u id Fu|u Fu|i u us|i|u|c]; cbn [real_await] in *.
  - eapply value_fine; try eassumption; [cbn; now rewrite P|reflexivity|now left].
  - unfold on_vector in H. destruct (fast u) eqn:Fu; destruct ev; try apply En; first [eapply fast_fine; eassumption | eapply item_fine; eassumption].
  - unfold on_set in H. destruct ev; try apply En; eapply item_fine; eassumption.
  - unfold on_fast_set in H. destruct ev; try apply En; eapply fast_fine; eassumption.
  - cbn [on_fixed] in H. destruct ev; try discriminate H; (destruct (replace _ _ _ _) in H; try discriminate H; eapply forward_fine; [exact H|exact R|reflexivity|reflexivity|now left]).
  - cbn [on_fixed] in H. destruct ev; try discriminate H. apply end_fine; [now left|now left|discriminate].
  - destruct ev; try discriminate H; (apply end_fine; [now left|cbn; tauto|discriminate]).
  - destruct ev; try discriminate H; [|apply end_fine; [now left|cbn; tauto|discriminate]].
    intros C. inversion C; subst; try discriminate; [match goal with N : ~ In _ _ |- _ => apply N; now left end|]. match goal with N : ~ In _ _ |- _ => apply N end. cbn [on_object] in H.
    destruct (dispatch _ _ _) as [[i|]| |] eqn:D; try discriminate. apply (dispatch_some e fuel Hr) in D as (m0 & E & <-). apply in_map. now apply nth_error_In in E.
Qed.
End Complaints.

(** * One complaint *)

Lemma wanted_expected : forall w t, wanted w = Some t -> In (first_name t) (expected w).
Proof. intros [] u H; inversion H; cbn; rewrite ?first_pointee; tauto. Qed.

Lemma complaint_cases : forall e w ev m, complaint e w ev m ->
  m = wrong_token w ev /\ (~ In (kind_name ev) (expected w) \/ kind_name ev = "number"%string /\ (deaf w = true \/ (exists k, wanted w = Some (TEnumInt k)) /\ ~ short_integer ev)) \/
  In (kind_name ev) (expected w) /\
  (deaf w = false /\ kind_name ev = "number"%string /\ (forall k, wanted w = Some (TEnumInt k) -> short_integer ev) /\ m = "number cannot be assigned without data loss"%string \/
   (exists s, ev = EStr s /\ (wanted w = Some TBytes /\ m = "invalid Base64-encoding for sequence of bytes"%string \/
     wanted w = Some TTime /\ m = ("invalid ISO-8601 date-time; expected: YYYY-MM-DDTHH:MM:SSZ, got: " ++ s)%string \/
     wanted w = Some TDate /\ m = ("invalid ISO-8601 date; expected: YYYY-MM-DD, got: " ++ s)%string \/
     (exists names, wanted w = Some (TEnumStr names)) /\ m = ("expected an enumeration string value; got: " ++ s)%string)) \/
   exists k, ev = EKey k /\ m = ("expected class member name; got: " ++ k)%string).
Proof.
  intros e w ev m C.
  destruct C as [w ev N1|w ev D1 N1|w k ev D W1 N1 S|w t1 ev j D W1 N1 T S F|w z W1 F|w z W1 F|w z W1 F|w names z W1 F|c k F].
  - left. auto.
  - left. auto.
  - left. split; [reflexivity|]. right. split; [exact N1|]. right. eauto.
  - right. split; [|left].
    + apply wanted_expected in W1. destruct T, t1; try discriminate; exact W1.
    + split; [exact D|]. split; [destruct T; reflexivity|]. split; [|reflexivity]. intros k W. apply (S k). congruence.
  - right. split; [exact (wanted_expected _ _ W1)|]. right. left. exists z. split; [reflexivity|]. left. auto.
  - right. split; [exact (wanted_expected _ _ W1)|]. right. left. exists z. split; [reflexivity|]. right. left. auto.
  - right. split; [exact (wanted_expected _ _ W1)|]. right. left. exists z. split; [reflexivity|]. right. right. left. auto.
  - right. split; [exact (wanted_expected _ _ W1)|]. right. left. exists z. split; [reflexivity|]. right. right. right. eauto.
  - right. split; [now left|]. right. right. eauto.
Qed.

Lemma complaint_one : forall e w ev m m', complaint e w ev m -> complaint e w ev m' -> m = m'.
Proof.
  intros e w ev m m' C C'. apply complaint_cases in C, C'.
  assert (X : forall m m', m = wrong_token w ev /\ (~ In (kind_name ev) (expected w) \/ kind_name ev = "number"%string /\ (deaf w = true \/ (exists k, wanted w = Some (TEnumInt k)) /\ ~ short_integer ev)) ->
    In (kind_name ev) (expected w) /\
    (deaf w = false /\ kind_name ev = "number"%string /\ (forall k, wanted w = Some (TEnumInt k) -> short_integer ev) /\ m' = "number cannot be assigned without data loss"%string \/
     (exists s, ev = EStr s /\ (wanted w = Some TBytes /\ m' = "invalid Base64-encoding for sequence of bytes"%string \/
       wanted w = Some TTime /\ m' = ("invalid ISO-8601 date-time; expected: YYYY-MM-DDTHH:MM:SSZ, got: " ++ s)%string \/
       wanted w = Some TDate /\ m' = ("invalid ISO-8601 date; expected: YYYY-MM-DD, got: " ++ s)%string \/
       (exists names, wanted w = Some (TEnumStr names)) /\ m' = ("expected an enumeration string value; got: " ++ s)%string)) \/
     exists k, ev = EKey k /\ m' = ("expected class member name; got: " ++ k)%string) -> False).
  { clear. intros m m' [_ [N|[K N]]] [I A]; [tauto|]. destruct A as [(D & _ & Sh & _)|[(s & -> & _)|(k & -> & _)]]; try discriminate K.
    destruct N as [N|[[k N] N']]; [congruence|]. now apply N', (Sh k). }
  destruct C as [C|C], C' as [C'|C']; try (exfalso; eapply X; eassumption); [destruct C, C'; congruence|].
  destruct C as [_ [(_ & K & _ & ->)|[(s & -> & C)|(k & -> & ->)]]], C' as [_ [(_ & K' & _ & ->)|[(s' & E & C')|(k' & E & ->)]]]; try discriminate; try reflexivity; try congruence; try (subst ev; discriminate).
  injection E as <-. destruct C as [[W ->]|[[W ->]|[[W ->]|[[n W] ->]]]], C' as [[W' ->]|[[W' ->]|[[W' ->]|[[n' W'] ->]]]]; try reflexivity; congruence.
Qed.
