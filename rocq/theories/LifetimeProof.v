From Coq Require Import List Arith ZArith Bool String Lia.
From Verif Require Import Base Json Events Types DispatchModel HashModel SerializeModel DeserializeModel ParseModel LifetimeModel LifetimeSpec.
Import ListNotations.
Local Open Scope act_scope.

(** * Places *)

Definition before (p q : place) : Prop :=
  object p < object q \/ (object p = object q /\ exists rest, path q = path p ++ rest).

Lemma before_refl : forall p, before p p.
Proof. intros p. right. split; [reflexivity|]. exists []. now rewrite app_nil_r. Qed.

Lemma before_trans : forall p q r, before p q -> before q r -> before p r.
Proof.
  intros p q r [A|[A [x X]]] [B|[B [y Y]]]; try (left; lia). right. split; [lia|].
  exists (x ++ y). now rewrite Y, X, app_assoc.
Qed.

Lemma before_into : forall p s, before p (into p s).
Proof. intros p s. right. split; [reflexivity|]. now exists [s]. Qed.

Lemma beyond_length : forall p q, beyond p q = true -> List.length q < List.length p.
Proof.
  induction p as [|a p IH]; intros [|b q] H; cbn in *; try discriminate; [lia|].
  apply andb_prop in H. destruct H as [_ H]. apply IH in H. lia.
Qed.

Lemma before_not_inside : forall p q, before p q -> covers (Inside q) p = false.
Proof.
  intros p q B. cbn. destruct (Nat.eqb (object p) (object q)) eqn:E; [|reflexivity].
  apply Nat.eqb_eq in E. cbn. destruct (beyond (path p) (path q)) eqn:F; [|reflexivity].
  apply beyond_length in F. destruct B as [B|[_ [x X]]]; [lia|]. rewrite X, app_length in F. lia.
Qed.

Lemma step_eqb_eq : forall a b, step_eqb a b = true <-> a = b.
Proof.
  intros [i|k| |] [j|l| |]; cbn; split; intros H; try discriminate; try reflexivity.
  - apply Nat.eqb_eq in H. congruence.
  - injection H as ->. apply Nat.eqb_refl.
  - apply String.eqb_eq in H. congruence.
  - injection H as ->. apply String.eqb_refl.
Qed.

Lemma beyond_app : forall p q, beyond p q = true -> exists s rest, p = q ++ s :: rest.
Proof.
  induction p as [|a p IH]; intros [|b q] H; cbn in *; try discriminate.
  - now exists a, p.
  - apply andb_prop in H. destruct H as [E H]. apply step_eqb_eq in E. subst b.
    apply IH in H. destruct H as (s & rest & ->). now exists s, rest.
Qed.

(** * Types of places *)

Inductive slot : Type := Plain (t : ty) | Optional (t : ty).

Definition member_slot (m : member) : slot :=
  match m_kind m with MOptional => Optional (m_ty m) | _ => Plain (m_ty m) end.

Section Proof.
Variable e : env.
Variable fuel : nat.
Variable fits : capacity.
Variable moves : list val -> bool.
Variable root : ty.

Definition slot_step (o : slot) (s : pstep) : option slot :=
  match o, s with
  | Optional t, SSome => Some (Plain t)
  | Plain (TVector u), SItem _ => Some (Plain u)
  | Plain (TArray n u), SItem i => if Nat.ltb i n then Some (Plain u) else None
  | Plain (TPair a b), SItem i => option_map Plain (nth_error [a; b] i)
  | Plain (TTuple ts), SItem i => option_map Plain (nth_error ts i)
  | Plain (TMap _ u), SKey _ => Some (Plain u)
  | Plain (TUnique u), SPtr | Plain (TShared u), SPtr => Some (Plain u)
  | Plain (TClass c), SItem i => option_map member_slot (nth_error (c_members (class_of e c)) i)
  | _, _ => None
  end.

Fixpoint walk (o : slot) (p : list pstep) : option slot :=
  match p with
  | [] => Some o
  | s :: p' => match slot_step o s with Some o' => walk o' p' | None => None end
  end.

Lemma walk_app : forall p q o, walk o (p ++ q) = match walk o p with Some o' => walk o' q | None => None end.
Proof.
  induction p as [|s p IH]; intros q o; cbn; [reflexivity|]. destruct (slot_step o s); [apply IH|reflexivity].
Qed.

(** Objects whose parts may go away. *)
Definition shaky (o : slot) : Prop :=
  match o with
  | Optional _ | Plain (TVector _) | Plain (TUnique _) | Plain (TShared _) => True
  | _ => False
  end.

Lemma steady_walk : forall t p, steady e t p -> forall q s rest o, p = q ++ s :: rest ->
  walk (Plain t) q = Some o -> ~ shaky o.
Proof.
  induction 1; intros q s rest o E W.
  - destruct q; discriminate.
  - destruct q as [|x q]; [cbn in W; injection W as <-; intros []|].
    injection E as <- ->. cbn in W. rewrite H in W. cbn in W. unfold member_slot in W.
    apply (IHsteady q s rest o eq_refl). destruct (m_kind m); congruence.
  - destruct q as [|x q]; [cbn in W; injection W as <-; intros []|].
    injection E as <- E. destruct q; discriminate.
  - destruct q as [|x q]; [cbn in W; injection W as <-; intros []|].
    injection E as <- ->. cbn [walk slot_step] in W. apply Nat.ltb_lt in H. rewrite H in W. eapply IHsteady; eauto.
  - destruct q as [|x q]; [cbn in W; injection W as <-; intros []|].
    injection E as <- ->. cbn in W. eapply IHsteady; eauto.
  - destruct q as [|x q]; [cbn in W; injection W as <-; intros []|].
    injection E as <- ->. cbn in W. eapply IHsteady; eauto.
  - destruct q as [|x q]; [cbn in W; injection W as <-; intros []|].
    injection E as <- ->. cbn in W. rewrite H in W. cbn in W. eapply IHsteady; eauto.
  - destruct q as [|x q]; [cbn in W; injection W as <-; intros []|].
    injection E as <- ->. cbn in W. eapply IHsteady; eauto.
Qed.

(** A place in the object of the caller has a type; nothing is asked of the storage of sets. *)
Definition typed (p : place) (o : slot) : Prop := object p = 0 -> walk (Plain root) (path p) = Some o.

Lemma typed_into : forall p o s o', typed p o -> slot_step o s = Some o' -> typed (into p s) o'.
Proof.
  intros p o s o' T S Z. cbn in *. rewrite walk_app, (T Z). cbn. now rewrite S.
Qed.

Definition components (t : ty) : option (list ty) :=
  match t with
  | TArray n u => Some (repeat u n)
  | TPair a b => Some [a; b]
  | TTuple ts => Some ts
  | _ => None
  end.

Definition kind_type (k : kind) (t : ty) : Prop :=
  match k with
  | KValue t' => t = t'
  | KVector u => t = TVector u
  | KSet u _ | KFastSet u => t = TSet u
  | KMap u => exists b, t = TMap b u
  | KObject c => t = TClass c
  | KFixed i ts => exists l, components t = Some l /\ skipn i l = ts
  end.

Definition handler_typed (h : lhandler) : Prop :=
  exists t, kind_type (l_kind h) t /\ typed (r_place (l_ref h)) (Plain t).

(** * Invariant *)

Definition at_place (h : lhandler) : place := r_place (l_ref h).

Fixpoint stacked (n : nat) (hs : list lhandler) : Prop :=
  match hs with
  | [] => 0 < n
  | h :: hs' =>
    Forall (fun h' => before (at_place h') (at_place h)) hs' /\
    match l_kind h with
    | KSet _ id => n = S id /\ object (at_place h) < id /\ stacked id hs'
    | _ => object (at_place h) < n /\ stacked n hs'
    end
  end.

Definition region_ok (g : region) : Prop :=
  match g with
  | Inside q => object q = 0 -> exists o, walk (Plain root) (path q) = Some o /\ shaky o
  | Whole id => 0 < id
  end.

Definition past (s : lstate) : Prop := Forall (fun x => fst x < l_clock s) (l_ended s).
Definition recorded (s : lstate) : Prop := Forall (fun x => region_ok (snd x)) (l_ended s).

Record inv (s : lstate) : Prop := {
  i_past : past s;
  i_recorded : recorded s;
  i_live : Forall (fun h => dangling s (l_ref h) = false) (l_stack s);
  i_typed : Forall handler_typed (l_stack s);
  i_stacked : stacked (List.length (l_mem s)) (l_stack s)
}.

(** A reference that is good for a new handler. *)
Definition good (s : lstate) (r : reference) : Prop :=
  dangling s r = false /\ Forall (fun h => before (at_place h) (r_place r)) (l_stack s) /\
  object (r_place r) < List.length (l_mem s).

Lemma stacked_bound : forall hs n h, stacked n hs -> In h hs -> object (at_place h) < n.
Proof.
  induction hs as [|h' hs IH]; intros n h S I; [destruct I|]. cbn in S. destruct S as [_ S].
  destruct I as [->|I].
  - destruct (l_kind h); lia.
  - destruct (l_kind h'); try (apply IH; [exact (proj2 S)|exact I]).
    destruct S as (-> & _ & S). specialize (IH _ h S I). lia.
Qed.

Lemma fresh_not_dangling : forall s p, past s -> dangling s {| r_place := p; r_born := l_clock s |} = false.
Proof.
  intros s p P. unfold dangling. apply not_true_is_false. intros H. apply existsb_exists in H.
  destruct H as ([t g] & I & H). cbn in H. apply andb_prop in H. destruct H as [L _]. apply Nat.leb_le in L.
  unfold past in P. rewrite Forall_forall in P. specialize (P _ I). cbn in P. lia.
Qed.

Definition outcome {A} (x : lres A) (y : pres) (Q : A -> lstate -> Prop) : Prop :=
  match x with
  | LOk a s => y = POk (forget s) /\ Q a s
  | LFail s => y = PFail (forget s) /\ recorded s
  | LOver => y = POver
  | LUndef => y = PUndef
  | LOutside => y = POutside
  | LDangling | LGone => False
  end.

Lemma outcome_weaken : forall A (x : lres A) y (Q R : A -> lstate -> Prop),
  outcome x y Q -> (forall a s, Q a s -> R a s) -> outcome x y R.
Proof. intros A [] y Q R; cbn; intuition. Qed.

(** Changes of the state. *)
Definition with_mem (s : lstate) (m : memory) (f : nat) : lstate :=
  {| l_mem := m; l_stack := l_stack s; l_fresh := f; l_clock := l_clock s; l_ended := l_ended s; l_serial := l_serial s |}.

Definition ended (s : lstate) (g : region) : lstate :=
  {| l_mem := l_mem s; l_stack := l_stack s; l_fresh := l_fresh s; l_clock := S (l_clock s);
     l_ended := (l_clock s, g) :: l_ended s; l_serial := l_serial s |}.

Definition pushed (s : lstate) (k : kind) (r : reference) : lstate :=
  {| l_mem := l_mem s; l_stack := {| l_kind := k; l_ref := r; l_id := l_serial s |} :: l_stack s;
     l_fresh := l_fresh s; l_clock := l_clock s; l_ended := l_ended s; l_serial := S (l_serial s) |}.

Lemma set_nth_length : forall A (l : list A) i x, List.length (set_nth l i x) = List.length l.
Proof. induction l as [|y l IH]; intros [|i] x; cbn; auto. Qed.

Lemma store_length : forall m p w, List.length (store m p w) = List.length m.
Proof. intros m p w. unfold store. destruct (nth_error m (object p)); [apply set_nth_length|reflexivity]. Qed.

Lemma inv_mem : forall s m f, inv s -> List.length m = List.length (l_mem s) -> inv (with_mem s m f).
Proof. intros s m f [] L. constructor; cbn; try assumption. now rewrite L. Qed.

Lemma good_mem : forall s m f r, good s r -> List.length m = List.length (l_mem s) -> good (with_mem s m f) r.
Proof. intros s m f r (D & B & O) L. split; [exact D|split; [exact B|]]. cbn. lia. Qed.

Lemma dangling_ended : forall s g r, dangling s r = false -> covers g (r_place r) = false ->
  dangling (ended s g) r = false.
Proof. intros s g r D C. unfold dangling in *. cbn. rewrite D, C. now rewrite andb_false_r. Qed.

Lemma inv_ended : forall s q, inv s -> region_ok (Inside q) -> Forall (fun h => before (at_place h) q) (l_stack s) ->
  inv (ended s (Inside q)).
Proof.
  intros s q [P R L T S] G B. constructor; cbn [ended l_mem l_stack].
  - constructor; cbn; [lia|]. eapply Forall_impl; [|exact P]. cbn. intros. lia.
  - constructor; assumption.
  - rewrite Forall_forall in *. intros h I. apply dangling_ended; [now apply L|].
    apply before_not_inside. now apply B.
  - assumption.
  - assumption.
Qed.

Lemma good_ended : forall s q r, good s r -> before (r_place r) q -> good (ended s (Inside q)) r.
Proof.
  intros s q r (D & B & O) L. split; [|split; [exact B|exact O]].
  apply dangling_ended; [exact D|]. now apply before_not_inside.
Qed.

Lemma inv_pushed : forall s k r, inv s -> good s r -> (exists t, kind_type k t /\ typed (r_place r) (Plain t)) ->
  match k with KSet _ _ => False | _ => True end -> inv (pushed s k r).
Proof.
  intros s k r [P R L T S] (D & B & O) K N. constructor; cbn; try assumption.
  - constructor; [exact D|exact L].
  - constructor; [exact K|exact T].
  - split; [exact B|]. destruct k; try (split; [exact O|exact S]). destruct N.
Qed.

Lemma kinds_forget : forall hs, kinds hs = sizes (map forget_handler hs).
Proof. intros hs. unfold kinds, sizes. rewrite map_map. reflexivity. Qed.

Lemma push_outcome : forall s k r, outcome (push fits k r s) (emplace fits k (r_place r) (forget s))
  (fun id s' => id = l_serial s /\ s' = pushed s k r).
Proof.
  intros s k r. unfold push, emplace. cbn [forget stack]. rewrite <- kinds_forget.
  destruct (fits (kinds (l_stack s)) (size_of k)); cbn; auto.
Qed.

Lemma good_sub : forall s r st, inv s -> good s r -> good s {| r_place := into (r_place r) st; r_born := l_clock s |}.
Proof.
  intros s r st I (D & B & O). split; [apply fresh_not_dangling; apply I|]. split; [|exact O].
  eapply Forall_impl; [|exact B]. cbn. intros h H. eapply before_trans; [exact H|apply before_into].
Qed.

Lemma sub_ok : forall s r st, good s r -> sub r st s = LOk {| r_place := into (r_place r) st; r_born := l_clock s |} s.
Proof. intros s r st (D & _). unfold sub, andthen, deref. now rewrite D. Qed.

Lemma assign_ok : forall s r w, good s r -> assign r w s = LOk tt (with_mem s (store (l_mem s) (r_place r) w) (l_fresh s)).
Proof. intros s r w (D & _). unfold assign, andthen, deref. now rewrite D. Qed.

Lemma forget_mem : forall s p w, forget (with_mem s (store (l_mem s) p w) (l_fresh s)) = put p w (forget s).
Proof. reflexivity. Qed.

(** * Construction of handlers *)

Lemma make_outcome : forall t s r, inv s -> good s r -> typed (r_place r) (Plain t) ->
  exists r' s', make e t r s = LOk r' s' /\ construct e t (r_place r) (forget s) = (r_place r', forget s') /\
    inv s' /\ good s' r' /\ typed (r_place r') (Plain (core t)) /\ l_stack s' = l_stack s /\ l_serial s' = l_serial s.
Proof.
  induction t; intros s r I G T; try (exists r, s; cbn; repeat (split; [auto; fail|]); auto; fail).
  - (* unique *)
    set (s1 := ended (with_mem s (store (l_mem s) (r_place r) (VPtr (vinit e t))) (l_fresh s)) (Inside (r_place r))).
    assert (I1 : inv s1).
    { apply inv_ended; [apply inv_mem; [exact I|apply store_length]| |apply G].
      intros Z. exists (Plain (TUnique t)). split; [now apply T|exact Logic.I]. }
    assert (G1 : good s1 r).
    { apply good_ended; [apply good_mem; [exact G|apply store_length]|apply before_refl]. }
    destruct (IHt s1 {| r_place := into (r_place r) SPtr; r_born := l_clock s1 |} I1) as (r' & s' & M & C & R).
    { now apply good_sub. }
    { eapply typed_into; [exact T|reflexivity]. }
    exists r', s'. split; [|split; [exact C|exact R]].
    cbn [make]. unfold andthen at 1. rewrite assign_ok by exact G. unfold andthen at 1. cbn [end_of].
    fold s1. change (andthen (sub r SPtr) (fun c => make e t c) s1 = LOk r' s').
    unfold andthen. rewrite sub_ok by exact G1. exact M.
  - (* shared *)
    set (s1 := ended (with_mem s (store (l_mem s) (r_place r) (VShared (l_fresh s) (vinit e t))) (S (l_fresh s))) (Inside (r_place r))).
    assert (I1 : inv s1).
    { apply inv_ended; [apply inv_mem; [exact I|apply store_length]| |apply G].
      intros Z. exists (Plain (TShared t)). split; [now apply T|exact Logic.I]. }
    assert (G1 : good s1 r).
    { apply good_ended; [apply good_mem; [exact G|apply store_length]|apply before_refl]. }
    destruct (IHt s1 {| r_place := into (r_place r) SPtr; r_born := l_clock s1 |} I1) as (r' & s' & M & C & R).
    { now apply good_sub. }
    { eapply typed_into; [exact T|reflexivity]. }
    exists r', s'. split; [|split; [exact C|exact R]].
    cbn [make]. unfold andthen at 1. unfold deref. rewrite (proj1 G). unfold andthen at 1. unfold andthen at 1. cbn [end_of].
    change (andthen (sub r SPtr) (fun c => make e t c) s1 = LOk r' s').
    unfold andthen. rewrite sub_ok by exact G1. exact M.
Qed.

(** There is a new handler for a value on top. *)
Definition entered (s : lstate) (t : ty) (id : nat) (s' : lstate) : Prop :=
  inv s' /\ exists h, l_stack s' = h :: l_stack s /\ l_id h = id /\ l_kind h = KValue (core t).

Lemma enter_outcome : forall t s r, inv s -> good s r -> typed (r_place r) (Plain t) ->
  outcome (enter e fits t r s) (open e fits t (r_place r) (forget s)) (entered s t).
Proof.
  intros t s r I G T. unfold enter, open.
  destruct (make_outcome t s r I G T) as (r' & s' & M & C & I' & G' & T' & St & _).
  assert (K : outcome (if fits (kinds (l_stack s)) (size_of (KValue (core t)))
                       then (andthen (make e t r) (fun c => push fits (KValue (core t)) c)) s else LOver)
                      (if fits (sizes (stack (forget s))) (size_of (KValue (core t)))
                       then let '(r0, s0) := construct e t (r_place r) (forget s) in emplace fits (KValue (core t)) r0 s0
                       else POver) (entered s t)).
  { cbn [forget stack]. rewrite <- kinds_forget. destruct (fits (kinds (l_stack s)) (size_of (KValue (core t)))); [|reflexivity].
    fold (forget s). rewrite C. unfold andthen. rewrite M.
    eapply outcome_weaken; [apply push_outcome|]. cbn. intros id s2 [-> ->]. split.
    - apply inv_pushed; [exact I'|exact G'| |exact Logic.I]. exists (core t). split; [reflexivity|exact T'].
    - exists {| l_kind := KValue (core t); l_ref := r'; l_id := l_serial s' |}. cbn. now rewrite St. }
  destruct (core t); try exact K; reflexivity.
Qed.

Lemma enter_member_outcome : forall m s r, inv s -> good s r -> typed (r_place r) (member_slot m) ->
  outcome (enter_member e fits m r s) (open_member e fits m (r_place r) (forget s)) (fun _ s' => inv s').
Proof.
  intros m s r I G T. unfold enter_member, open_member, member_slot in *.
  destruct (m_kind m);
    try (eapply outcome_weaken; [apply enter_outcome; assumption|]; intros id s' [X _]; exact X).
  set (s1 := ended (with_mem s (store (l_mem s) (r_place r) (VSome (vinit e (m_ty m)))) (l_fresh s)) (Inside (r_place r))).
  assert (I1 : inv s1).
  { apply inv_ended; [apply inv_mem; [exact I|apply store_length]| |apply G].
    intros Z. exists (Optional (m_ty m)). split; [now apply T|exact Logic.I]. }
  assert (G1 : good s1 r).
  { apply good_ended; [apply good_mem; [exact G|apply store_length]|apply before_refl]. }
  assert (K : outcome (if fits (kinds (l_stack s)) (size_of (KValue (core (m_ty m))))
     then (andthen (assign r (VSome (vinit e (m_ty m)))) (fun _ => andthen (end_of (Inside (r_place r)))
            (fun _ => andthen (sub r SSome) (fun c => enter e fits (m_ty m) c)))) s else LOver)
     (if fits (sizes (stack (forget s))) (size_of (KValue (core (m_ty m))))
      then open e fits (m_ty m) (into (r_place r) SSome) (put (r_place r) (VSome (vinit e (m_ty m))) (forget s)) else POver)
     (fun _ s' => inv s')).
  { cbn [forget stack]. rewrite <- kinds_forget. destruct (fits (kinds (l_stack s)) (size_of (KValue (core (m_ty m))))); [|reflexivity].
    fold (forget s). unfold andthen at 1. rewrite assign_ok by exact G. unfold andthen at 1. cbn [end_of]. fold s1.
    change (outcome (andthen (sub r SSome) (fun c => enter e fits (m_ty m) c) s1)
      (open e fits (m_ty m) (r_place {| r_place := into (r_place r) SSome; r_born := l_clock s1 |}) (forget s1)) (fun _ s' => inv s')).
    unfold andthen. rewrite sub_ok by exact G1.
    eapply outcome_weaken; [apply enter_outcome; [exact I1|now apply good_sub|]|].
    - eapply typed_into; [exact T|reflexivity].
    - intros id s' [X _]. exact X. }
  destruct (core (m_ty m)); try exact K; reflexivity.
Qed.

(** * Handlers *)

Lemma this_top : forall s h hs, l_stack s = h :: hs -> this (l_id h) s = LOk h s.
Proof. intros s h hs E. unfold this. rewrite E. cbn. now rewrite Nat.eqb_refl. Qed.

Lemma fail_outcome : forall s h hs (Q : nat -> lstate -> Prop), inv s -> l_stack s = h :: hs ->
  outcome (fail (l_id h) s) (PFail (forget s)) Q.
Proof. intros s h hs Q I E. unfold fail, andthen. rewrite (this_top _ _ _ E). cbn. split; [reflexivity|apply I]. Qed.

(** The state when the handler on top is gone. *)
Definition dropped (s : lstate) (hs : list lhandler) : lstate :=
  {| l_mem := l_mem s; l_stack := hs; l_fresh := l_fresh s; l_clock := l_clock s; l_ended := l_ended s; l_serial := l_serial s |}.

Definition plain_kind (k : kind) : Prop := match k with KSet _ _ => False | _ => True end.

Lemma drop_plain : forall s h hs, l_stack s = h :: hs -> plain_kind (l_kind h) -> drop s = LOk tt (dropped s hs).
Proof. intros s h hs E K. unfold drop. rewrite E. destruct (l_kind h); try reflexivity. destruct K. Qed.

Lemma forget_dropped : forall s h hs, l_stack s = h :: hs -> forget (dropped s hs) = pop (forget s).
Proof. intros s h hs E. unfold forget, dropped, pop. cbn. now rewrite E. Qed.

Lemma inv_top : forall s h hs, inv s -> l_stack s = h :: hs -> good s (l_ref h).
Proof.
  intros s h hs [P R L T S] E. rewrite E in *. split; [now inversion L|]. split.
  - rewrite E. cbn in S. constructor; [apply before_refl|apply S].
  - eapply stacked_bound; [exact S|now left].
Qed.

Lemma inv_dropped : forall s h hs, inv s -> l_stack s = h :: hs -> plain_kind (l_kind h) -> inv (dropped s hs).
Proof.
  intros s h hs [P R L T S] E K. rewrite E in *. constructor; cbn; try assumption.
  - now inversion L.
  - now inversion T.
  - cbn in S. destruct S as [_ S]. destruct (l_kind h); try apply S. destruct K.
Qed.

Lemma good_dropped : forall s h hs, inv s -> l_stack s = h :: hs -> good (dropped s hs) (l_ref h).
Proof.
  intros s h hs I E. destruct (inv_top _ _ _ I E) as (D & B & O). rewrite E in B.
  split; [exact D|]. split; [|exact O]. cbn. now inversion B.
Qed.

Lemma exchange_outcome : forall s h hs k, inv s -> l_stack s = h :: hs -> plain_kind (l_kind h) ->
  (exists t, kind_type k t /\ typed (at_place h) (Plain t)) -> plain_kind k ->
  outcome (exchange fits k (l_ref h) s) (replace fits k (at_place h) (forget s))
    (fun _ s' => inv s' /\ s' = pushed (dropped s hs) k (l_ref h)).
Proof.
  intros s h hs k I E K T Pk. unfold exchange, andthen. rewrite (drop_plain _ _ _ E K). unfold replace.
  rewrite <- (forget_dropped _ _ _ E). eapply outcome_weaken; [apply push_outcome|]. cbn. intros id s' [-> ->]. split; [|reflexivity].
  apply inv_pushed; [eapply inv_dropped; eassumption|eapply good_dropped; eassumption|exact T|exact Pk].
Qed.

Lemma leave_outcome : forall s h hs, inv s -> l_stack s = h :: hs -> plain_kind (l_kind h) ->
  outcome (leave (l_id h) s) (POk (pop (forget s))) (fun _ s' => inv s').
Proof.
  intros s h hs I E K. unfold leave, andthen. rewrite (this_top _ _ _ E), (drop_plain _ _ _ E K). cbn.
  split; [now rewrite (forget_dropped _ _ _ E)|eapply inv_dropped; eassumption].
Qed.

Lemma typed_top : forall s h hs, inv s -> l_stack s = h :: hs -> handler_typed h.
Proof. intros s h hs I E. pose proof (i_typed _ I) as T. rewrite E in T. now inversion T. Qed.

Lemma grow_outcome : forall s p w, inv s -> Forall (fun h => before (at_place h) p) (l_stack s) -> region_ok (Inside p) ->
  exists s', grow moves p w s = LOk tt s' /\ inv s' /\ l_stack s' = l_stack s /\
    forget s' = put p (VList (push_back (items (l_mem s) p) w)) (forget s) /\
    (forall r, good s r -> before (r_place r) p -> good s' r) /\ List.length (l_mem s') = List.length (l_mem s).
Proof.
  intros s p w I B R. unfold grow, andthen, look, write_at.
  change (items_of (load (l_mem s) p)) with (items (l_mem s) p).
  fold (with_mem s (store (l_mem s) p (VList (push_back (items (l_mem s) p) w))) (l_fresh s)).
  set (s1 := with_mem s (store (l_mem s) p (VList (push_back (items (l_mem s) p) w))) (l_fresh s)).
  assert (I1 : inv s1) by (apply inv_mem; [exact I|apply store_length]).
  destruct (moves (items (l_mem s) p)).
  - exists (ended s1 (Inside p)). split; [reflexivity|]. split; [now apply inv_ended|]. split; [reflexivity|]. split; [reflexivity|].
    split; [|cbn; apply store_length]. intros r G L. apply good_ended; [|exact L]. apply good_mem; [exact G|apply store_length].
  - exists s1. split; [reflexivity|]. split; [exact I1|]. split; [reflexivity|]. split; [reflexivity|].
    split; [|cbn; apply store_length]. intros r G L. apply good_mem; [exact G|apply store_length].
Qed.

Lemma inv_storage : forall s h hs u r, inv s -> l_stack s = h :: hs -> plain_kind (l_kind h) -> good (dropped s hs) r ->
  typed (r_place r) (Plain (TSet u)) ->
  inv {| l_mem := l_mem s ++ [VList []];
         l_stack := {| l_kind := KSet u (List.length (l_mem s)); l_ref := r; l_id := l_serial s |} :: hs;
         l_fresh := l_fresh s; l_clock := l_clock s; l_ended := l_ended s; l_serial := S (l_serial s) |}.
Proof.
  intros s h hs u r I E K (D & B & O) T. pose proof (inv_dropped _ _ _ I E K) as [P R L Ty S].
  constructor; cbn [l_mem l_stack]; try assumption.
  - constructor; [exact D|exact L].
  - constructor; [|exact Ty]. exists (TSet u). split; [reflexivity|exact T].
  - rewrite app_length. cbn. split; [exact B|]. split; [lia|]. split; [exact O|exact S].
Qed.

(** A value for the handler on top. *)
Lemma begin_outcome : forall t ev s h hs, inv s -> l_stack s = h :: hs -> l_kind h = KValue t ->
  outcome (begin_value e fits (l_id h) t ev s) (on_value e fits t (at_place h) ev (forget s)) (fun _ s' => inv s').
Proof.
  intros t ev s h hs I E K.
  assert (Pk : plain_kind (l_kind h)) by (rewrite K; exact Logic.I).
  assert (T : typed (at_place h) (Plain t)).
  { destruct (typed_top _ _ _ I E) as (t' & Kt & T). rewrite K in Kt. cbn in Kt. now subst t'. }
  pose proof (inv_top _ _ _ I E) as G.
  assert (Bad : outcome (fail (l_id h) s) (PFail (forget s)) (fun _ s' => inv s')) by (eapply fail_outcome; eassumption).
  assert (Con : forall k, (exists u, kind_type k u /\ typed (at_place h) (Plain u)) -> plain_kind k ->
    outcome ((let* h' := this (l_id h) in exchange fits k (l_ref h')) s) (replace fits k (at_place h) (forget s)) (fun _ s' => inv s')).
  { intros k Tk Pl. unfold andthen. rewrite (this_top _ _ _ E). eapply outcome_weaken; [eapply exchange_outcome; eassumption|].
    cbn. intros _ s' [X _]. exact X. }
  assert (Sc : outcome (match scalar e t ev with
      | SAssign v => (let* h' := this (l_id h) in assign (l_ref h') v ;* leave (l_id h))
      | SStay v => (let* h' := this (l_id h) in assign (l_ref h') v ;* ret (l_id h))
      | SReject => fail (l_id h)
      | SRejectAssign v => (let* h' := this (l_id h) in assign (l_ref h') v ;* fail (l_id h))
      | SUndefined => fun _ => LUndef
      end s) (match scalar e t ev with
      | SAssign v => POk (pop (put (at_place h) v (forget s)))
      | SStay v => POk (put (at_place h) v (forget s))
      | SReject => PFail (forget s)
      | SRejectAssign v => PFail (put (at_place h) v (forget s))
      | SUndefined => PUndef
      end) (fun _ s' => inv s')).
  { destruct (scalar e t ev) as [v|v| |v|]; try exact Bad; try reflexivity;
      unfold andthen at 1; rewrite (this_top _ _ _ E); unfold andthen at 1; rewrite assign_ok by exact G;
      set (s1 := with_mem s (store (l_mem s) (r_place (l_ref h)) v) (l_fresh s));
      assert (I1 : inv s1) by (apply inv_mem; [exact I|apply store_length]).
    - change (put (at_place h) v (forget s)) with (forget s1). eapply leave_outcome; eassumption.
    - split; [reflexivity|exact I1].
    - change (put (at_place h) v (forget s)) with (forget s1). eapply fail_outcome; eassumption. }
  destruct t; try exact Sc; try reflexivity; unfold begin_value, on_value.
  all: destruct ev; try exact Bad; try (apply Con; [|exact Logic.I]).
  - exists (TVector t). split; [reflexivity|exact T].
  - exists (TArray n t). split; [|exact T]. cbn. eexists. split; reflexivity.
  - destruct (fast t).
    + apply Con; [|exact Logic.I]. exists (TSet t). split; [reflexivity|exact T].
    + unfold andthen at 1. rewrite (this_top _ _ _ E). unfold andthen. rewrite (drop_plain _ _ _ E Pk).
      unfold push_storage, andthen, replace. rewrite <- (forget_dropped _ _ _ E).
      change (List.length (mem (forget s))) with (List.length (l_mem s)).
      pose proof (push_outcome (dropped s hs) (KSet t (List.length (l_mem s))) (l_ref h)) as X.
      change (r_place (l_ref h)) with (at_place h) in X.
      destruct (push fits (KSet t (List.length (l_mem s))) (l_ref h) (dropped s hs)); cbn in X;
        try (rewrite X; reflexivity); try contradiction.
      * destruct X as (-> & -> & ->). split; [reflexivity|].
        apply (inv_storage s h hs t (l_ref h)); try assumption. eapply good_dropped; eassumption.
      * destruct X as [-> X]. split; [reflexivity|exact X].
  - exists (TMap ordered t). split; [|exact T]. cbn. now exists ordered.
  - exists (TPair t1 t2). split; [|exact T]. cbn. eexists. split; reflexivity.
  - exists (TTuple ts). split; [|exact T]. cbn. eexists. split; reflexivity.
  - exists (TClass c). split; [reflexivity|exact T].
Qed.

Lemma then_begin : forall (x : act nat) s0 y t ev s, outcome (x s) y (entered s0 t) ->
  outcome ((let* i := x in begin_value e fits i (core t) ev) s) (forward e fits ev y) (fun _ s' => inv s').
Proof.
  intros x s0 y t ev s X. unfold andthen. destruct (x s) as [i s'|s'| | | | |]; cbn in X; try contradiction;
    try (rewrite X; reflexivity).
  - destruct X as (-> & I & h & E & <- & K). unfold forward. cbn [forget stack]. rewrite E. cbn. rewrite K. eapply begin_outcome; eassumption.
  - destruct X as [-> X]. split; [reflexivity|exact X].
Qed.

Lemma top_before : forall s h hs, inv s -> l_stack s = h :: hs -> Forall (fun h' => before (at_place h') (at_place h)) (l_stack s).
Proof. intros s h hs I E. apply (inv_top _ _ _ I E). Qed.

Lemma vector_outcome : forall u ev s h hs, inv s -> l_stack s = h :: hs -> l_kind h = KVector u ->
  outcome (vector_event e fits moves (l_id h) u ev s) (on_vector e fits u (at_place h) ev (forget s)) (fun _ s' => inv s').
Proof.
  intros u ev s h hs I E K.
  assert (Pk : plain_kind (l_kind h)) by (rewrite K; exact Logic.I).
  assert (T : typed (at_place h) (Plain (TVector u))).
  { destruct (typed_top _ _ _ I E) as (t' & Kt & T). rewrite K in Kt. cbn in Kt. now subst t'. }
  pose proof (inv_top _ _ _ I E) as G. pose proof (top_before _ _ _ I E) as B.
  assert (Bad : outcome (fail (l_id h) s) (PFail (forget s)) (fun _ s' => inv s')) by (eapply fail_outcome; eassumption).
  assert (R : region_ok (Inside (at_place h))).
  { intros Z. exists (Plain (TVector u)). split; [now apply T|exact Logic.I]. }
  assert (Main : outcome ((if fast u then
      match scalar e u ev with
      | SAssign v => let* h' := this (l_id h) in deref (l_ref h') ;* grow moves (r_place (l_ref h')) v ;* ret (l_id h)
      | _ => fail (l_id h)
      end
    else if is_json_type u ev then
      let* h' := this (l_id h) in
      deref (l_ref h') ;*
      let* o := look (r_place (l_ref h')) in
      grow moves (r_place (l_ref h')) (vinit e u) ;*
      let* h'' := this (l_id h) in
      let* c := sub (l_ref h'') (SItem (List.length (items_of o))) in
      let* i := enter e fits u c in
      begin_value e fits i (core u) ev
    else fail (l_id h)) s)
    (if fast u then fast_item e u (at_place h) push_back ev (forget s)
     else if is_json_type u ev then
      let l := items (mem (forget s)) (at_place h) in
      forward e fits ev (open e fits u (into (at_place h) (SItem (List.length l))) (put (at_place h) (VList (push_back l (vinit e u))) (forget s)))
    else PFail (forget s)) (fun _ s' => inv s')).
  { destruct (fast u).
    - unfold fast_item. destruct (scalar e u ev) as [v|v| |v|]; try exact Bad.
      unfold andthen at 1. rewrite (this_top _ _ _ E). unfold andthen at 1. unfold deref. rewrite (proj1 G).
      destruct (grow_outcome s (at_place h) v I B R) as (s' & Gr & I' & St & F & _). change (r_place (l_ref h)) with (at_place h).
      unfold andthen. rewrite Gr. cbn. split; [now rewrite F|exact I'].
    - destruct (is_json_type u ev); [|exact Bad].
      unfold andthen at 1. rewrite (this_top _ _ _ E). unfold andthen at 1. unfold deref at 1. rewrite (proj1 G).
      unfold andthen at 1. unfold look at 1. change (r_place (l_ref h)) with (at_place h).
      destruct (grow_outcome s (at_place h) (vinit e u) I B R) as (s' & Gr & I' & St & F & Go & _).
      unfold andthen at 1. rewrite Gr. rewrite E in St. unfold andthen at 1. rewrite (this_top _ _ _ St).
      assert (G' : good s' (l_ref h)) by (apply Go; [exact G|apply before_refl]).
      unfold andthen at 1. rewrite sub_ok by exact G'.
      change (items_of (load (l_mem s) (at_place h))) with (items (l_mem s) (at_place h)). cbv zeta.
      change (mem (forget s)) with (l_mem s). rewrite <- F.
      apply (then_begin _ s'). apply (enter_outcome u s' {| r_place := into (at_place h) (SItem (List.length (items (l_mem s) (at_place h)))); r_born := l_clock s' |}).
      + exact I'.
      + now apply good_sub.
      + eapply typed_into; [exact T|reflexivity]. }
  unfold vector_event, on_vector. destruct ev; try exact Main. eapply leave_outcome; eassumption.
Qed.

Lemma fast_set_outcome : forall u ev s h hs, inv s -> l_stack s = h :: hs -> l_kind h = KFastSet u ->
  outcome (fast_set_event e (l_id h) u ev s) (on_fast_set e u (at_place h) ev (forget s)) (fun _ s' => inv s').
Proof.
  intros u ev s h hs I E K.
  assert (Pk : plain_kind (l_kind h)) by (rewrite K; exact Logic.I).
  pose proof (inv_top _ _ _ I E) as G.
  assert (Bad : outcome (fail (l_id h) s) (PFail (forget s)) (fun _ s' => inv s')) by (eapply fail_outcome; eassumption).
  assert (Main : outcome (match scalar e u ev with
    | SAssign v =>
      let* h' := this (l_id h) in
      deref (l_ref h') ;*
      let* o := look (r_place (l_ref h')) in
      write_at (r_place (l_ref h')) (VList (set_insert (less e u) (items_of o) v)) ;*
      ret (l_id h)
    | _ => fail (l_id h)
    end s) (fast_item e u (at_place h) (set_insert (less e u)) ev (forget s)) (fun _ s' => inv s')).
  { unfold fast_item. destruct (scalar e u ev) as [v|v| |v|]; try exact Bad.
    unfold andthen at 1. rewrite (this_top _ _ _ E). unfold andthen at 1. unfold deref. rewrite (proj1 G).
    split; [reflexivity|]. apply inv_mem; [exact I|apply store_length]. }
  unfold fast_set_event, on_fast_set. destruct ev; try exact Main. eapply leave_outcome; eassumption.
Qed.

Lemma map_outcome : forall u ev s h hs, inv s -> l_stack s = h :: hs -> l_kind h = KMap u ->
  outcome (map_event e fits (l_id h) u ev s) (on_map e fits u (at_place h) ev (forget s)) (fun _ s' => inv s').
Proof.
  intros u ev s h hs I E K.
  assert (Pk : plain_kind (l_kind h)) by (rewrite K; exact Logic.I).
  assert (T : exists b, typed (at_place h) (Plain (TMap b u))).
  { destruct (typed_top _ _ _ I E) as (t' & Kt & T). rewrite K in Kt. cbn in Kt. destruct Kt as [b ->]. now exists b. }
  destruct T as [b T]. pose proof (inv_top _ _ _ I E) as G.
  assert (Bad : outcome (fail (l_id h) s) (PFail (forget s)) (fun _ s' => inv s')) by (eapply fail_outcome; eassumption).
  unfold map_event, on_map. destruct ev as [|b0|z|f|t0| | | |k|]; try exact Bad; [|eapply leave_outcome; eassumption].
  unfold andthen at 1. rewrite (this_top _ _ _ E). unfold andthen at 1. unfold deref at 1. rewrite (proj1 G).
  unfold andthen at 1. unfold look at 1. unfold andthen at 1. unfold write_at. change (r_place (l_ref h)) with (at_place h).
  set (w := VMap (try_emplace (entries_of (load (l_mem s) (at_place h))) k (vinit e u))).
  fold (with_mem s (store (l_mem s) (at_place h) w) (l_fresh s)).
  set (s1 := with_mem s (store (l_mem s) (at_place h) w) (l_fresh s)).
  assert (I1 : inv s1) by (apply inv_mem; [exact I|apply store_length]).
  assert (G1 : good s1 (l_ref h)) by (apply good_mem; [exact G|apply store_length]).
  unfold andthen at 1. rewrite sub_ok by exact G1. unfold andthen at 1. rewrite (this_top s1 h hs E).
  change (put (at_place h) (VMap (try_emplace (entries (mem (forget s)) (at_place h)) k (vinit e u))) (forget s)) with (forget s1).
  eapply outcome_weaken; [apply (enter_outcome u s1 {| r_place := into (at_place h) (SKey k); r_born := l_clock s1 |})|].
  - exact I1.
  - now apply good_sub.
  - eapply typed_into; [exact T|reflexivity].
  - intros id s' [X _]. exact X.
Qed.

Lemma object_outcome : forall c ev s h hs, inv s -> l_stack s = h :: hs -> l_kind h = KObject c ->
  outcome (object_event e fuel fits (l_id h) c ev s) (on_object e fuel fits c (at_place h) ev (forget s)) (fun _ s' => inv s').
Proof.
  intros c ev s h hs I E K.
  assert (Pk : plain_kind (l_kind h)) by (rewrite K; exact Logic.I).
  assert (T : typed (at_place h) (Plain (TClass c))).
  { destruct (typed_top _ _ _ I E) as (t' & Kt & T). rewrite K in Kt. cbn in Kt. now subst t'. }
  pose proof (inv_top _ _ _ I E) as G.
  assert (Bad : outcome (fail (l_id h) s) (PFail (forget s)) (fun _ s' => inv s')) by (eapply fail_outcome; eassumption).
  unfold object_event, on_object. destruct ev; try exact Bad; [|eapply leave_outcome; eassumption].
  cbv zeta. destruct (dispatch fuel _ _) as [[i|]| |]; try reflexivity; try exact Bad.
  destruct (nth_error (c_members (class_of e c)) i) as [m|] eqn:N; [|reflexivity].
  unfold andthen at 1. rewrite (this_top _ _ _ E). unfold andthen at 1. rewrite sub_ok by exact G.
  apply (enter_member_outcome m s {| r_place := into (at_place h) (SItem i); r_born := l_clock s |}).
  - exact I.
  - now apply good_sub.
  - eapply typed_into; [exact T|]. cbn. now rewrite N.
Qed.

Lemma nth_skipn : forall A (l : list A) i x rest, skipn i l = x :: rest -> nth_error l i = Some x /\ skipn (S i) l = rest.
Proof.
  induction l as [|y l IH]; intros [|i] x rest H; cbn in *; try discriminate.
  - injection H as -> ->. auto.
  - now apply IH.
Qed.

Lemma nth_repeat : forall (u : ty) n i x, nth_error (repeat u n) i = Some x -> x = u /\ i < n.
Proof.
  induction n as [|n IH]; intros [|i] x H; cbn in *; try discriminate.
  - injection H as <-. split; [reflexivity|lia].
  - apply IH in H. split; [apply H|lia].
Qed.

Lemma component_slot : forall t l i x, components t = Some l -> nth_error l i = Some x -> slot_step (Plain t) (SItem i) = Some (Plain x).
Proof.
  intros t l i x C N. destruct t; try discriminate; injection C as <-.
  - apply nth_repeat in N. destruct N as [-> L]. apply Nat.ltb_lt in L. cbn [slot_step]. now rewrite L.
  - cbn [slot_step]. now rewrite N.
  - cbn [slot_step]. now rewrite N.
Qed.

Lemma fixed_outcome : forall i ts ev s h hs, inv s -> l_stack s = h :: hs -> l_kind h = KFixed i ts ->
  outcome (fixed_event e fits (l_id h) i ts ev s) (on_fixed e fits i ts (at_place h) ev (forget s)) (fun _ s' => inv s').
Proof.
  intros i ts ev s h hs I E K.
  assert (Pk : plain_kind (l_kind h)) by (rewrite K; exact Logic.I).
  destruct (typed_top _ _ _ I E) as (tc & Kt & T). rewrite K in Kt. destruct Kt as (l & Cl & Sk).
  pose proof (inv_top _ _ _ I E) as G.
  assert (Bad : outcome (fail (l_id h) s) (PFail (forget s)) (fun _ s' => inv s')) by (eapply fail_outcome; eassumption).
  destruct ts as [|t ts']; unfold fixed_event, on_fixed.
  - destruct ev; try exact Bad. eapply leave_outcome; eassumption.
  - apply nth_skipn in Sk. destruct Sk as [Nt Sk].
    assert (Main : outcome ((let* h' := this (l_id h) in
      exchange fits (KFixed (S i) ts') (l_ref h') ;*
      let* c := sub (l_ref h') (SItem i) in
      let* i' := enter e fits t c in
      begin_value e fits i' (core t) ev) s)
      (match replace fits (KFixed (S i) ts') (at_place h) (forget s) with
       | POk s => forward e fits ev (open e fits t (into (at_place h) (SItem i)) s) | x => x end) (fun _ s' => inv s')).
    { unfold andthen at 1. rewrite (this_top _ _ _ E).
      assert (Tk : exists u, kind_type (KFixed (S i) ts') u /\ typed (at_place h) (Plain u)).
      { exists tc. split; [|exact T]. exists l. split; assumption. }
      pose proof (exchange_outcome s h hs (KFixed (S i) ts') I E Pk Tk Logic.I) as X.
      unfold andthen at 1. destruct (exchange fits (KFixed (S i) ts') (l_ref h) s) as [id s'|s'| | | | |]; cbn in X; try contradiction;
        try (rewrite X; reflexivity).
      - destruct X as (-> & I' & ->). set (s1 := pushed (dropped s hs) (KFixed (S i) ts') (l_ref h)) in *.
        assert (G1 : good s1 (l_ref h)) by exact (inv_top s1 _ _ I' eq_refl).
        unfold andthen at 1. rewrite sub_ok by exact G1.
        apply (then_begin _ s1). apply (enter_outcome t s1 {| r_place := into (at_place h) (SItem i); r_born := l_clock s1 |}).
        + exact I'.
        + now apply good_sub.
        + eapply typed_into; [exact T|]. eapply component_slot; eassumption.
      - destruct X as [-> X]. split; [reflexivity|exact X]. }
    destruct ev; try exact Main; exact Bad.
Qed.

Lemma set_outcome : forall u q ev s h hs, inv s -> l_stack s = h :: hs -> l_kind h = KSet u q ->
  outcome (set_event e fits moves (l_id h) u {| object := q; path := [] |} ev s) (on_set e fits u q (at_place h) ev (forget s)) (fun _ s' => inv s').
Proof.
  intros u q ev s h hs I E K.
  pose proof (inv_top _ _ _ I E) as G.
  pose proof (i_stacked _ I) as St. rewrite E in St. cbn in St. rewrite K in St. destruct St as (B & L & O & St).
  assert (Bad : outcome (fail (l_id h) s) (PFail (forget s)) (fun _ s' => inv s')) by (eapply fail_outcome; eassumption).
  set (p := {| object := q; path := [] |}).
  assert (Bq : Forall (fun h' => before (at_place h') p) (l_stack s)).
  { rewrite E. constructor; [left; exact O|]. rewrite Forall_forall. intros h' I'. left. cbn. eapply stacked_bound; eassumption. }
  assert (R : region_ok (Inside p)) by (intros Z; cbn in Z; lia).
  assert (Main : outcome ((if is_json_type u ev then
      this (l_id h) ;*
      let* o := look p in
      grow moves p (vinit e u) ;*
      this (l_id h) ;*
      fun s =>
        (let* i := enter e fits u {| r_place := into p (SItem (List.length (items_of o))); r_born := l_clock s |} in
         begin_value e fits i (core u) ev) s
    else fail (l_id h)) s)
    (if is_json_type u ev then
      let l := items (mem (forget s)) p in
      forward e fits ev (open e fits u (into p (SItem (List.length l))) (put p (VList (push_back l (vinit e u))) (forget s)))
    else PFail (forget s)) (fun _ s' => inv s')).
  { destruct (is_json_type u ev); [|exact Bad]. unfold andthen at 1. rewrite (this_top _ _ _ E). unfold andthen at 1. unfold look at 1.
    destruct (grow_outcome s p (vinit e u) I Bq R) as (s' & Gr & I' & Ss & F & _ & Len).
    unfold andthen at 1. rewrite Gr. rewrite E in Ss. unfold andthen at 1. rewrite (this_top _ _ _ Ss).
    change (items_of (load (l_mem s) p)) with (items (l_mem s) p). cbv zeta. change (mem (forget s)) with (l_mem s). rewrite <- F.
    apply (then_begin _ s'). apply (enter_outcome u s' {| r_place := into p (SItem (List.length (items (l_mem s) p))); r_born := l_clock s' |}).
    - exact I'.
    - split; [apply fresh_not_dangling; apply I'|]. split.
      + rewrite Ss, <- E. eapply Forall_impl; [|exact Bq]. cbn. intros x X. eapply before_trans; [exact X|apply before_into].
      + cbn. lia.
    - intros Z. cbn in Z. lia. }
  unfold set_event, on_set. fold p. destruct ev; try exact Main.
  unfold andthen at 1. rewrite (this_top _ _ _ E). unfold andthen at 1. unfold look at 1. unfold andthen at 1. unfold deref at 1. rewrite (proj1 G).
  unfold andthen at 1. unfold look at 1. unfold andthen at 1. unfold write_at. change (r_place (l_ref h)) with (at_place h).
  set (w := VList (fold_left (set_insert (less e u)) (items_of (load (l_mem s) p)) (items_of (load (l_mem s) (at_place h))))).
  fold (with_mem s (store (l_mem s) (at_place h) w) (l_fresh s)).
  set (s1 := with_mem s (store (l_mem s) (at_place h) w) (l_fresh s)).
  assert (I1 : inv s1) by (apply inv_mem; [exact I|apply store_length]).
  unfold andthen at 1. unfold end_of at 1. fold (ended s1 (Inside p)). set (s2 := ended s1 (Inside p)).
  assert (I2 : inv s2) by (apply inv_ended; assumption).
  assert (E2 : l_stack s2 = h :: hs) by exact E.
  unfold leave, andthen. rewrite (this_top _ _ _ E2). unfold drop. rewrite E2, K. cbn. split.
  - unfold forget. cbn. rewrite E. reflexivity.
  - destruct I2 as [P2 R2 L2 T2 S2]. rewrite E2 in *. constructor; cbn [l_mem l_stack].
    + constructor; cbn; [lia|]. eapply Forall_impl; [|exact P2]. cbn. intros. lia.
    + constructor; [cbn; lia|exact R2].
    + inversion L2 as [|? ? _ L3]. subst. rewrite Forall_forall in *. intros h' H'.
      pose proof (stacked_bound _ _ _ St H') as Bd. specialize (L3 _ H').
      unfold dangling in *. cbn in L3 |- *. rewrite L3. unfold at_place in Bd.
      replace (object (r_place (l_ref h')) =? q) with false by (symmetry; apply Nat.eqb_neq; lia).
      now rewrite andb_false_r.
    + now inversion T2.
    + rewrite firstn_length, store_length. rewrite L. now rewrite Nat.min_l by lia.
Qed.

Lemma handle_outcome : forall ev s, inv s ->
  outcome (handle e fuel fits moves ev s) (step e fuel fits ev (forget s)) (fun _ s' => inv s').
Proof.
  intros ev s I. unfold handle, step. cbn [forget stack]. destruct (l_stack s) as [|h hs] eqn:E; [reflexivity|].
  cbn [map]. unfold forget_handler at 1. cbn [h_kind].
  destruct (l_kind h) eqn:K; cbn [h_ref forget_handler].
  - now apply (begin_outcome _ ev s h hs).
  - now apply (vector_outcome _ ev s h hs).
  - now apply (set_outcome _ _ ev s h hs).
  - now apply (fast_set_outcome _ ev s h hs).
  - now apply (map_outcome _ ev s h hs).
  - now apply (object_outcome _ ev s h hs).
  - now apply (fixed_outcome _ _ ev s h hs).
Qed.

Lemma all_outcome : forall evs s, inv s ->
  outcome (handle_all e fuel fits moves evs s) (run e fuel fits evs (forget s)) (fun _ s' => inv s').
Proof.
  induction evs as [|ev evs IH]; intros s I; [split; [reflexivity|exact I]|].
  cbn [handle_all run]. pose proof (handle_outcome ev s I) as H. unfold andthen.
  destruct (handle e fuel fits moves ev s) as [id s'|s'| | | | |]; cbn in H; try contradiction; try (rewrite H; reflexivity).
  - destruct H as [-> H]. now apply IH.
  - destruct H as [-> H]. split; [reflexivity|exact H].
Qed.

Lemma start_inv : forall obj, inv (nothing_yet obj).
Proof.
  intros obj. constructor; cbn; repeat constructor.
Qed.

Lemma parse_outcome : forall obj evs,
  outcome (parse_with_lifetimes e fuel fits moves root obj evs) (parse_events e fuel fits root obj evs) (fun _ s' => inv s').
Proof.
  intros obj evs. unfold parse_with_lifetimes, parse_events.
  change (initial obj) with (forget (nothing_yet obj)).
  assert (X : outcome (enter e fits root {| r_place := root_place; r_born := 1 |} (nothing_yet obj))
                (open e fits root root_place (forget (nothing_yet obj))) (entered (nothing_yet obj) root)).
  { apply enter_outcome.
    - apply start_inv.
    - split; [reflexivity|]. split; [constructor|cbn; lia].
    - intros _. reflexivity. }
  unfold andthen. destruct (enter e fits root _ (nothing_yet obj)) as [id s'|s'| | | | |]; cbn in X; try contradiction; try (rewrite X; reflexivity).
  - destruct X as [-> [I _]]. now apply all_outcome.
  - destruct X as [-> X]. split; [reflexivity|exact X].
Qed.

Lemma parse_agrees : forall obj evs,
  agrees (parse_with_lifetimes e fuel fits moves root obj evs) (parse_events e fuel fits root obj evs).
Proof.
  intros obj evs. pose proof (parse_outcome obj evs) as H.
  destruct (parse_with_lifetimes e fuel fits moves root obj evs); cbn in *; intuition.
Qed.

Lemma parse_recorded : forall obj evs s, ends (parse_with_lifetimes e fuel fits moves root obj evs) s -> recorded s.
Proof.
  intros obj evs s. pose proof (parse_outcome obj evs) as H.
  destruct (parse_with_lifetimes e fuel fits moves root obj evs); cbn in *; intros X; try contradiction; subst.
  - apply H.
  - apply H.
Qed.

Lemma recorded_callers : forall s p, recorded s -> steady e root p -> dangling s (callers p) = false.
Proof.
  intros s p R S. unfold dangling. destruct (existsb _ (l_ended s)) eqn:E; [|reflexivity]. exfalso.
  apply existsb_exists in E. destruct E as [[n g] [In E]]. apply andb_prop in E. destruct E as [_ C].
  unfold recorded in R. rewrite Forall_forall in R. specialize (R _ In). cbn [fst snd] in *. destruct g as [q|id]; cbn [covers callers r_place path region_ok] in *.
  - apply andb_prop in C. destruct C as [O B]. apply Nat.eqb_eq in O. cbn [object] in O. destruct (R (eq_sym O)) as (o & W & Sh).
    apply beyond_app in B. destruct B as (st & rest & B). exact (steady_walk _ _ S _ _ _ _ B W Sh).
  - apply Nat.eqb_eq in C. cbn [object] in C. lia.
Qed.
End Proof.
