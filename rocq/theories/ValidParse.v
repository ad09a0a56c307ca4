(** Whatever events come, the objects that the handlers fill keep a content of their types. *)
From Coq Require Import List Arith ZArith NArith Ascii String Bool Lia Sorted.
From Verif Require Import Base Float NumericModel NumericSpec EnumModel EnumProof Base64Model DatetimeModel DatetimeSpec DatetimeProof DispatchModel Json Events Types SerializeModel DeserializeModel
  ParseModel DenoteSpec SafetySpec MapFacts RewriteSpec RewriteProof ValidSpec ValidProof.
From Verif Require ParseProof.
Import ListNotations.

(** The events of texts in which all numbers are doubles or integers. *)
Definition double_event (ev : event) : Prop := match ev with EDbl f => in_format binary64 f = true | _ => True end.

Lemma double_events : forall j, doubles j -> Forall double_event (events j).
Proof.
  induction j as [|b|z|f|s|l IH|l IH] using json_ind'; intros D; cbn [events]; try (repeat constructor; fail).
  - constructor; [|constructor]. apply D. constructor.
  - constructor; [exact I|]. apply Forall_app. split; [|repeat constructor]. rewrite Forall_forall in *. intros ev H. apply in_flat_map in H as (j & Ij & H).
    specialize (IH j Ij). rewrite Forall_forall in IH. apply IH; [|exact H]. intros f If. apply D. eapply inside_element; eauto.
  - constructor; [exact I|]. apply Forall_app. split; [|repeat constructor]. rewrite Forall_forall in *. intros ev H. apply in_flat_map in H as ([k j] & Ij & H). cbn in H.
    destruct H as [<-|H]; [exact I|]. specialize (IH _ Ij). cbn in IH. rewrite Forall_forall in IH. apply IH; [|exact H]. intros f If. apply D. eapply inside_member; eauto.
Qed.

Lemma nth_firstn : forall A (l : list A) n i x, nth_error (firstn n l) i = Some x -> nth_error l i = Some x.
Proof. induction l as [|y l IH]; intros [|n] [|i] x H; cbn in *; try discriminate; eauto. Qed.

Lemma firstn_nth : forall A (l : list A) n i x, i < n -> nth_error l i = Some x -> nth_error (firstn n l) i = Some x.
Proof. induction l as [|y l IH]; intros [|n] [|i] x L H; cbn in *; try discriminate; try lia; auto. apply IH; [lia|exact H]. Qed.

Section Machine.
Variable e : env.
Variable fuel : nat.
Variable fits : capacity.
Hypothesis P : valid_classes e.

(** Types of places: those of objects, and those of optional members. *)
Inductive slot : Type := Plain (t : ty) | Opt (t : ty).

Definition holds_slot (s : slot) (v : val) : Prop :=
  match s with Plain t => valid e t v | Opt t => v = VNone \/ exists y, v = VSome y /\ valid e t y end.

Definition comps (t : ty) : option (list ty) :=
  match t with TArray n u => Some (repeat u n) | TPair a b => Some [a; b] | TTuple ts => Some ts | _ => None end.

Definition member_slot (m : member) : slot := match m_kind m with MOptional => Opt (m_ty m) | _ => Plain (m_ty m) end.

Definition step_slot (s : slot) (p : pstep) : option slot :=
  match s, p with
  | Plain (TVector u), SItem _ => Some (Plain u)
  | Plain (TArray n u), SItem i => option_map Plain (nth_error (repeat u n) i)
  | Plain (TPair a b), SItem i => option_map Plain (nth_error [a; b] i)
  | Plain (TTuple ts), SItem i => option_map Plain (nth_error ts i)
  | Plain (TMap _ u), SKey _ => Some (Plain u)
  | Plain (TClass c), SItem i => option_map member_slot (nth_error (c_members (class_of e c)) i)
  | Plain (TUnique u), SPtr | Plain (TShared u), SPtr => Some (Plain u)
  | Opt u, SSome => Some (Plain u)
  | _, _ => None
  end.

Fixpoint path_slot (s : slot) (p : list pstep) : option slot :=
  match p with [] => Some s | x :: p' => match step_slot s x with Some s' => path_slot s' p' | None => None end end.

Lemma path_into : forall p s s' x, path_slot s p = Some s' -> path_slot s (p ++ [x]) = step_slot s' x.
Proof. induction p as [|y p IH]; intros s s' x H; cbn in *; [injection H as <-; now destruct (step_slot s x)|]. destruct (step_slot s y); [eauto|discriminate]. Qed.

Lemma comps_valid : forall t all v, comps t = Some all -> (valid e t v <-> exists l, v = VList l /\ Forall2 (valid e) all l).
Proof.
  intros t all v C. destruct t; try discriminate; injection C as <-; split.
  - intros V. inversion V as [| | | | | | | | | | | | |? ? l L F| | | | | | | | | | | | |]; subst; try contradiction. exists l. split; [reflexivity|]. clear V. induction F; cbn; constructor; auto.
  - intros (l & -> & F). apply valid_array.
    + assert (L : List.length (repeat t n) = List.length l) by (clear - F; induction F; cbn; auto). now rewrite repeat_length in L.
    + revert F. generalize n. induction l as [|x l IH]; intros [|k] F; cbn in F; inversion F; subst; constructor; eauto.
  - intros V. inversion V; subst; try contradiction. eexists. split; [reflexivity|]. repeat constructor; assumption.
  - intros (l & -> & F). inversion F as [|? ? ? ? A F1]; subst. inversion F1 as [|? ? ? ? B F2]; subst. inversion F2; subst. now apply valid_pair.
  - intros V. inversion V; subst; try contradiction. eauto.
  - intros (l & -> & F). now apply valid_tuple.
Qed.

Lemma comps_step : forall t all i, comps t = Some all -> step_slot (Plain t) (SItem i) = option_map Plain (nth_error all i).
Proof. intros t all i C. destruct t; try discriminate; injection C as <-; reflexivity. Qed.

Lemma member_holds : forall m x, holds_slot (member_slot m) x <-> (m_kind m <> MOptional -> valid e (m_ty m) x) /\ (m_kind m = MOptional -> x = VNone \/ exists y, x = VSome y /\ valid e (m_ty m) y).
Proof. intros m x. unfold member_slot. destruct (m_kind m); cbn; split; intros H; try (split; intros K; congruence || auto; fail); try (apply H; discriminate); try (apply H; reflexivity). Qed.

Lemma class_holds : forall c v, valid e (TClass c) v <-> exists l, v = VObj l /\ Forall2 (fun m x => holds_slot (member_slot m) x) (c_members (class_of e c)) l.
Proof.
  intros c v. split.
  - intros V. inversion V as [| | | | | | | | | | | | | | | | | | | |? l F| | | | | |]; subst; try contradiction. exists l. split; [reflexivity|]. clear V. induction F; constructor; auto. now apply member_holds.
  - intros (l & -> & F). apply valid_class. induction F; constructor; auto. now apply member_holds.
Qed.

Lemma fixed_step : forall t all i s' v x, comps t = Some all -> option_map Plain (nth_error all i) = Some s' -> valid e t v -> get_step (SItem i) v = Some x ->
  holds_slot s' x /\ forall w, holds_slot s' w -> valid e t (set_step (SItem i) w v).
Proof.
  intros t all i s' v x C N V G. apply (comps_valid _ _ _ C) in V as (l & -> & F). destruct (nth_error all i) as [u|] eqn:E; [|discriminate]. injection N as <-. cbn in *.
  destruct (ParseProof.forall2_nth _ _ _ _ _ _ _ F E) as (y & Ey & Vy). rewrite Ey in G. injection G as <-. split; [exact Vy|].
  intros w W. apply (comps_valid _ _ _ C). eexists. split; [reflexivity|]. eapply ParseProof.forall2_set; eauto.
Qed.

Lemma set_nth_Forall : forall A (Q : A -> Prop) l i x, Forall Q l -> Q x -> Forall Q (set_nth l i x).
Proof. intros A Q l. induction l as [|y l IH]; intros [|i] x F H; cbn; auto; inversion F; subst; auto. Qed.

Lemma step_holds : forall s p s' v x, step_slot s p = Some s' -> holds_slot s v -> get_step p v = Some x ->
  holds_slot s' x /\ forall w, holds_slot s' w -> holds_slot s (set_step p w v).
Proof.
  intros [t|t] p s' v x S V G.
  - destruct t; destruct p; try discriminate; cbn [step_slot] in S; cbn [holds_slot] in *.
    + injection S as <-. inversion V as [| | | | | | | | | | | |? l F| | | | | | | | | | | | | |]; subst; try contradiction. cbn in *. split; [rewrite Forall_forall in F; eapply F, nth_error_In; eauto|].
      intros w W. apply valid_vector. now apply set_nth_Forall.
    + eapply fixed_step; eauto. reflexivity.
    + injection S as <-. inversion V as [| | | | | | | | | | | | | | |? ? l F L| | | | | | | | | | |]; subst; try contradiction. cbn in *. split; [eapply (ParseProof.find_shape (valid e t)); eauto|].
      intros w W. apply valid_map; [now apply ParseProof.replace_shape|now apply ParseProof.replace_ascending].
    + eapply fixed_step; eauto. reflexivity.
    + eapply fixed_step; eauto. reflexivity.
    + destruct (nth_error _ i) as [m|] eqn:E; [|discriminate]. injection S as <-. apply class_holds in V as (l & -> & F). cbn in *.
      destruct (ParseProof.forall2_nth _ _ _ _ _ _ _ F E) as (y & Ey & Vy). rewrite Ey in G. injection G as <-. split; [exact Vy|].
      intros w W. apply class_holds. eexists. split; [reflexivity|]. eapply ParseProof.forall2_set; eauto.
    + injection S as <-. inversion V; subst; try contradiction; try discriminate. cbn in *. injection G as <-. split; [assumption|]. intros w W. now apply valid_unique.
    + injection S as <-. inversion V; subst; try contradiction; try discriminate. cbn in *. injection G as <-. split; [assumption|]. intros w W. now apply valid_shared.
  - destruct p; try discriminate. injection S as <-. destruct V as [->|(y & -> & Vy)]; [discriminate|]. cbn in *. injection G as <-. split; [exact Vy|]. intros w W. right. eauto.
Qed.

Lemma vget_holds : forall p s s' v x, path_slot s p = Some s' -> holds_slot s v -> vget p v = Some x -> holds_slot s' x.
Proof.
  induction p as [|q p IH]; intros s s' v x H V G; cbn in *; [congruence|]. destruct (step_slot s q) eqn:S; [|discriminate]. destruct (get_step q v) eqn:E; [|discriminate].
  eapply IH; [exact H| |exact G]. eapply step_holds; eauto.
Qed.

Lemma vset_holds : forall p s s' w v, path_slot s p = Some s' -> holds_slot s v -> holds_slot s' w -> holds_slot s (vset p w v).
Proof.
  induction p as [|q p IH]; intros s s' w v H V W; cbn in *; [congruence|]. destruct (step_slot s q) eqn:S; [|discriminate]. destruct (get_step q v) eqn:E; [|exact V].
  destruct (step_holds _ _ _ _ _ S V E) as [A B]. apply B. eapply IH; eauto.
Qed.

(** * Memory *)

Definition typed (tys : list ty) (r : place) (s : slot) : Prop := exists t, nth_error tys (object r) = Some t /\ path_slot (Plain t) (path r) = Some s.

Lemma typed_into : forall tys r s x s', typed tys r s -> step_slot s x = Some s' -> typed tys (into r x) s'.
Proof. intros tys r s x s' (t & N & H) S. exists t. split; [exact N|]. cbn. rewrite (path_into _ _ _ _ H). exact S. Qed.

Lemma load_holds : forall tys m r s v, Forall2 (valid e) tys m -> typed tys r s -> load m r = Some v -> holds_slot s v.
Proof.
  intros tys m r s v F (t & N & H) L. unfold load in L. destruct (ParseProof.forall2_nth _ _ _ _ _ _ _ F N) as (y & Ey & Vy). rewrite Ey in L. exact (vget_holds _ (Plain t) _ _ _ H Vy L).
Qed.

Lemma store_holds : forall tys m r s w, Forall2 (valid e) tys m -> typed tys r s -> holds_slot s w -> Forall2 (valid e) tys (store m r w).
Proof.
  intros tys m r s w F (t & N & H) W. unfold store. destruct (ParseProof.forall2_nth _ _ _ _ _ _ _ F N) as (y & Ey & Vy). rewrite Ey.
  eapply ParseProof.forall2_set; [exact F|exact N|]. exact (vset_holds _ (Plain t) _ _ _ H Vy W).
Qed.

(** * Handlers *)

Definition handler_fine (tys : list ty) (h : handler) : Prop :=
  match h_kind h with
  | KValue t => typed tys (h_ref h) (Plain t)
  | KVector u => typed tys (h_ref h) (Plain (TVector u))
  | KSet u id => nth_error tys id = Some (TVector u) /\ typed (firstn id tys) (h_ref h) (Plain (TSet u))
  | KFastSet u => typed tys (h_ref h) (Plain (TSet u))
  | KMap u => exists o, typed tys (h_ref h) (Plain (TMap o u))
  | KObject c => typed tys (h_ref h) (Plain (TClass c))
  | KFixed i ts => exists t all, typed tys (h_ref h) (Plain t) /\ comps t = Some all /\ skipn i all = ts
  end.

(** The storage vector of the handler of a set is newer than all objects that the handlers
    below it refer to. *)
Definition below (tys : list ty) (h : handler) : list ty := match h_kind h with KSet _ id => firstn id tys | _ => tys end.

Fixpoint fine (tys : list ty) (hs : list handler) : Prop :=
  match hs with [] => True | h :: hs' => handler_fine tys h /\ fine (below tys h) hs' end.

Lemma typed_more : forall a b r s, typed a r s -> typed (a ++ b) r s.
Proof. intros a b r s (t & N & H). exists t. split; [|exact H]. rewrite nth_error_app1; [exact N|]. apply nth_error_Some. congruence. Qed.

Lemma firstn_more : forall A (a b : list A) i x, nth_error a i = Some x -> firstn i (a ++ b) = firstn i a.
Proof. intros A a b i x N. rewrite firstn_app. assert (i < List.length a) by (apply nth_error_Some; congruence). replace (i - List.length a) with 0 by lia. cbn. apply app_nil_r. Qed.

Lemma fine_more : forall hs a b, fine a hs -> fine (a ++ b) hs.
Proof.
  induction hs as [|h hs IH]; intros a b H; cbn in *; [exact I|]. destruct H as [H F]. unfold handler_fine, below in *. destruct (h_kind h).
  1, 2, 4, 6: split; [now apply typed_more|auto].
  - destruct H as [N T]. rewrite (firstn_more _ a b id _ N). split; [split; [|exact T]|exact F]. rewrite nth_error_app1; [exact N|]. apply nth_error_Some. congruence.
  - destruct H as [o T]. split; [exists o; now apply typed_more|auto].
  - destruct H as (t & all & T & C). split; [exists t, all; split; [now apply typed_more|exact C]|auto].
Qed.

Lemma fine_below : forall tys h hs, handler_fine tys h -> fine (below tys h) hs -> fine tys hs.
Proof.
  intros tys h hs H F. unfold below in F. destruct (h_kind h); auto. rewrite <- (firstn_skipn id tys). now apply fine_more.
Qed.

Definition inv (top : ty) (tys : list ty) (s : pstate) : Prop := Forall2 (valid e) tys (mem s) /\ fine tys (stack s) /\ nth_error tys 0 = Some top.

Definition good (top : ty) (x : pres) : Prop := match x with POk s | PFail s => exists tys, inv top tys s | _ => True end.

Lemma put_inv : forall top tys s r sl w, inv top tys s -> typed tys r sl -> holds_slot sl w -> inv top tys (put r w s).
Proof. intros top tys s r sl w (F & H & N) T W. split; [|auto]. cbn. eapply store_holds; eauto. Qed.

Lemma pop_inv : forall top tys s, inv top tys s -> inv top tys (pop s).
Proof. intros top tys s (F & H & N). split; [exact F|]. split; [|exact N]. cbn. destruct (stack s) as [|h hs]; cbn; [exact I|]. destruct H as [H G]. eapply fine_below; eauto. Qed.

Lemma emplace_good : forall top tys s k r, inv top tys s -> handler_fine tys {| h_kind := k; h_ref := r |} -> (forall u id, k <> KSet u id) -> good top (emplace fits k r s).
Proof.
  intros top tys s k r (F & H & N) G K. unfold emplace. destruct (fits _ _); [|exact I]. exists tys. split; [exact F|]. split; [|exact N]. cbn. split; [exact G|].
  unfold below. cbn. destruct k; auto. now destruct (K u id).
Qed.

Lemma replace_good : forall top tys s k r, inv top tys s -> handler_fine tys {| h_kind := k; h_ref := r |} -> (forall u id, k <> KSet u id) -> good top (replace fits k r s).
Proof. intros top tys s k r V G K. apply (emplace_good _ tys); auto. now apply pop_inv. Qed.

Lemma construct_good : forall t top tys s r, inv top tys s -> typed tys r (Plain t) -> let '(r', s') := construct e t r s in inv top tys s' /\ typed tys r' (Plain (core t)).
Proof.
  induction t as [| | | | | | | | | | |u IHt|n u IHt|u IHt|o u IHt|a b IHa IHb|ts IHts|ts IHts|c|u IHt|u IHt|u IHt] using ty_ind'; intros top tys s r V T; cbn [construct core]; auto.
  - apply IHt; [|apply (typed_into _ _ _ _ _ T); reflexivity]. eapply put_inv; [exact V|exact T|]. apply valid_unique. now apply vinit_valid.
  - apply IHt; [|apply (typed_into _ _ _ _ _ T); reflexivity]. destruct V as (F & H & N). split; [|auto]. cbn. eapply store_holds; [exact F|exact T|]. apply valid_shared. now apply vinit_valid.
Qed.

Lemma open_good : forall t top tys s r, inv top tys s -> typed tys r (Plain t) -> good top (open e fits t r s).
Proof.
  intros t top tys s r V T. rewrite ParseProof.open_eq. pose proof (construct_good t top tys s r V T) as C. destruct (construct e t r s) as [r' s'].
  destruct C as [V' T']. destruct (ParseRead.compiles t); [|exact I]. destruct (fits _ _); [|exact I]. apply (emplace_good _ tys); auto. discriminate.
Qed.

Lemma open_member_good : forall m top tys s r, inv top tys s -> typed tys r (member_slot m) -> good top (open_member e fits m r s).
Proof.
  intros m top tys s r V T. unfold open_member, member_slot in *. destruct (m_kind m); try (now apply (open_good _ _ tys)).
  assert (G : good top (open e fits (m_ty m) (into r SSome) (put r (VSome (vinit e (m_ty m))) s))).
  { apply (open_good _ _ tys); [|now apply (typed_into _ _ _ _ _ T)]. eapply put_inv; [exact V|exact T|]. right. eexists. split; [reflexivity|]. now apply vinit_valid. }
  destruct (core (m_ty m)); try exact I; (destruct (fits _ _); [exact G|exact I]).
Qed.

Lemma assigned : forall t n v, (forall f, n = NDouble f -> in_format binary64 f = true) -> assign_number t n = Some v -> valid e t v.
Proof.
  intros t n v D A. destruct t; try discriminate; destruct n as [V z|f]; cbn [assign_number] in A; try discriminate;
    match type of A with (if ?b then _ else _) = _ => destruct b; [|discriminate] end; injection A as <-.
  - apply valid_int. apply wrap_range.
  - apply valid_float. apply round_in_format; [apply good32|apply integer_format].
  - apply valid_float. apply round_in_format; [apply good32|apply odd_double; auto].
  - apply valid_double. apply round_in_format; [apply good64|apply integer_format].
  - apply valid_double. apply round_in_format; [apply good64|apply odd_double; auto].
Qed.

Lemma number_double : forall ev n f, double_event ev -> number_event ev = Some n -> n = NDouble f -> in_format binary64 f = true.
Proof.
  intros ev n f D N ->. destruct ev; try discriminate; cbn in N.
  - destruct (integer_event z); [discriminate|]. injection N as <-. apply round_in_format; [apply good64|apply integer_format].
  - injection N as <-. exact D.
Qed.

Lemma scalar_valid : forall t ev, double_event ev -> match scalar e t ev with SAssign v | SStay v | SRejectAssign v => valid e t v | _ => True end.
Proof.
  intros t ev D. destruct t; cbn [scalar]; try exact I.
  - destruct ev; try exact I. constructor.
  - destruct ev; try exact I. constructor.
  - destruct (number_event ev) as [n|] eqn:N; [|exact I]. destruct (assign_number _ n) eqn:A; [|exact I]. eapply assigned; [|exact A]. intros f. eapply number_double; eauto.
  - destruct (number_event ev) as [n|] eqn:N; [|exact I]. destruct (assign_number _ n) eqn:A; [|exact I]. eapply assigned; [|exact A]. intros f. eapply number_double; eauto.
  - destruct (number_event ev) as [n|] eqn:N; [|exact I]. destruct (assign_number _ n) eqn:A; [|exact I]. eapply assigned; [|exact A]. intros f. eapply number_double; eauto.
  - destruct ev; try exact I. constructor.
  - destruct ev; try exact I. destruct (base64_decode _) as [[[] b]|]; try exact I; constructor.
  - destruct ev; try exact I. destruct (parse_datetime _ _) as [[z|]|] eqn:E; try exact I. constructor. apply parse_datetime_iff in E.
    destruct E as (? & ? & ? & ? & ? & ? & ? & ? & ? & ? & ? & ? & ? & B). exact B.
  - destruct ev; try exact I. destruct (parse_date _ _) as [[z|]|] eqn:E; try exact I. constructor.
  - destruct (number_event ev) as [[V z|f]|] eqn:N; try exact I. destruct (assign_number _ _) eqn:A; [|exact I]. cbn [assign_number] in A. destruct (assignable_ii _ _ _); [|discriminate]. injection A as <-. apply valid_enum. apply wrap_range.
  - destruct ev; try exact I. destruct (enum_from_string _ _) as [z|] eqn:E; [|exact I]. constructor. right. apply enum_from_string_some in E. apply in_map_iff. now exists (z, s).
Qed.

Lemma failed : forall top tys s, inv top tys s -> good top (PFail s).
Proof. intros top tys s V. now exists tys. Qed.

Lemma scalar_good : forall t r ev s top tys, double_event ev -> inv top tys s -> typed tys r (Plain t) -> good top (match scalar e t ev with
    | SAssign v => POk (pop (put r v s)) | SStay v => POk (put r v s) | SReject => PFail s | SRejectAssign v => PFail (put r v s) | SUndefined => PUndef end).
Proof.
  intros t r ev s top tys D V T. pose proof (scalar_valid t ev D) as A. destruct (scalar e t ev); try exact I; exists tys; try exact V; try apply pop_inv; apply (put_inv _ _ _ _ (Plain t)); auto.
Qed.

Lemma set_opened : forall u r s top tys hs, inv top tys s -> stack s = {| h_kind := KValue (TSet u); h_ref := r |} :: hs ->
  good top (match replace fits (KSet u (List.length (mem s))) r s with
            | POk s => POk {| mem := mem s ++ [VList []]; stack := stack s; fresh_address := fresh_address s |} | x => x end).
Proof.
  intros u r s top tys hs (F & H & N) E. unfold replace, emplace. destruct (fits _ _); [|exact I]. exists (tys ++ [TVector u]). cbn [mem stack pop]. rewrite E in *. cbn [tl].
  assert (L : List.length tys = List.length (mem s)) by (clear - F; induction F; cbn; auto). destruct H as [H G]. split; [|split].
  - apply Forall2_app; [exact F|]. constructor; [|constructor]. apply valid_vector. constructor.
  - cbn [fine stack]. unfold handler_fine, below. cbn [h_kind h_ref]. rewrite <- L.
    replace (firstn (List.length tys) (tys ++ [TVector u])) with tys by (rewrite firstn_app, Nat.sub_diag, firstn_all; cbn; now rewrite app_nil_r).
    split; [split; [|exact H]|exact G]. rewrite nth_error_app2, Nat.sub_diag by lia. reflexivity.
  - destruct tys; [discriminate|exact N].
Qed.

Lemma on_value_good : forall t r ev s top tys hs, double_event ev -> inv top tys s -> stack s = {| h_kind := KValue t; h_ref := r |} :: hs -> good top (on_value e fits t r ev s).
Proof.
  intros t r ev s top tys hs D V E. assert (T : typed tys r (Plain t)) by (destruct V as (_ & H & _); rewrite E in H; apply H).
  destruct t; cbn [on_value]; try (now apply (scalar_good _ _ _ _ _ tys)); try exact I;
    destruct ev; try (exact (failed _ _ _ V)); try (apply (replace_good _ tys); [exact V|cbn; eauto|discriminate]).
  - exists (TArray n t), (repeat t n). auto.
  - destruct (fast t); [apply (replace_good _ tys); [exact V|exact T|discriminate]|]. exact (set_opened _ _ _ _ _ _ V E).
  - exists (TPair t1 t2), [t1; t2]. auto.
  - exists (TTuple ts), ts. auto.
Qed.

Lemma forward_good : forall ev x top, double_event ev -> good top x -> good top (forward e fits ev x).
Proof.
  intros ev x top D G. destruct x as [s|s| | |]; cbn [forward]; auto. destruct (stack s) as [|[[] r] hs] eqn:E; try exact I. destruct G as [tys V]. eapply on_value_good; eauto.
Qed.

Lemma items_vector : forall tys m r u, Forall2 (valid e) tys m -> typed tys r (Plain (TVector u)) -> Forall (valid e u) (items m r).
Proof. intros tys m r u F T. unfold items. destruct (load m r) eqn:L; [|constructor]. apply (load_holds _ _ _ _ _ F T) in L. cbn in L. inversion L; subst; try contradiction. assumption. Qed.

Lemma items_set : forall tys m r u, Forall2 (valid e) tys m -> typed tys r (Plain (TSet u)) -> valid e (TSet u) (VList (items m r)).
Proof.
  intros tys m r u F T. unfold items. destruct (load m r) eqn:L; [|apply valid_set; constructor]. apply (load_holds _ _ _ _ _ F T) in L. cbn in L. inversion L; subst; try contradiction. exact L.
Qed.

Lemma insert_valid : forall u l x, valid e (TSet u) (VList l) -> valid e u x -> valid e (TSet u) (VList (set_insert (less e u) l x)).
Proof.
  intros u l x V W. inversion V as [| | | | | | | | | | | | | |? ? F O| | | | | | | | | | | |]; subst. apply valid_set.
  - rewrite Forall_forall in *. intros y I. apply insert_in in I as [-> |I]; auto.
  - intros L. apply insert_rising; [exact L|exact (O L)].
Qed.

Lemma inserts_valid : forall u new l, Forall (valid e u) new -> valid e (TSet u) (VList l) -> valid e (TSet u) (VList (fold_left (set_insert (less e u)) new l)).
Proof. intros u new. induction new as [|x new IH]; intros l F V; cbn; [exact V|]. inversion F; subst. apply IH; [assumption|]. now apply insert_valid. Qed.

Lemma push_valid : forall u l x, Forall (valid e u) l -> valid e u x -> valid e (TVector u) (VList (push_back l x)).
Proof. intros u l x F V. apply valid_vector. apply Forall_app. auto. Qed.

Lemma on_vector_good : forall u r ev s top tys, double_event ev -> inv top tys s -> typed tys r (Plain (TVector u)) -> good top (on_vector e fits u r ev s).
Proof.
  intros u r ev s top tys D V T. assert (F : Forall (valid e u) (items (mem s) r)) by (eapply items_vector; [apply V|exact T]).
  assert (A : good top (fast_item e u r push_back ev s)).
  { unfold fast_item. pose proof (scalar_valid u ev D) as S. destruct (scalar e u ev); try (exact (failed _ _ _ V)). exists tys. apply (put_inv _ _ _ _ (Plain (TVector u))); auto. now apply push_valid. }
  assert (B : forall ev', double_event ev' -> good top (forward e fits ev' (open e fits u (into r (SItem (List.length (items (mem s) r)))) (put r (VList (push_back (items (mem s) r) (vinit e u))) s)))).
  { intros ev' D'. apply forward_good; [exact D'|]. apply (open_good _ _ tys); [|now apply (typed_into _ _ _ _ _ T)]. apply (put_inv _ _ _ _ (Plain (TVector u))); auto. apply push_valid; [exact F|now apply vinit_valid]. }
  unfold on_vector. destruct ev; try (destruct (fast u); [exact A|]; destruct (is_json_type _ _); [now apply B|exact (failed _ _ _ V)]). exists tys. now apply pop_inv.
Qed.

Lemma on_fast_set_good : forall u r ev s top tys, double_event ev -> inv top tys s -> typed tys r (Plain (TSet u)) -> good top (on_fast_set e u r ev s).
Proof.
  intros u r ev s top tys D V T.
  assert (A : good top (fast_item e u r (set_insert (less e u)) ev s)).
  { unfold fast_item. pose proof (scalar_valid u ev D) as S. destruct (scalar e u ev); try (exact (failed _ _ _ V)). exists tys. apply (put_inv _ _ _ _ (Plain (TSet u))); auto.
    apply insert_valid; [|exact S]. eapply items_set; [apply V|exact T]. }
  unfold on_fast_set. destruct ev; try exact A. exists tys. now apply pop_inv.
Qed.

Lemma typed_less : forall tys n r s, typed (firstn n tys) r s -> typed tys r s.
Proof. intros tys n r s (t & N & H). exists t. split; [now apply nth_firstn in N|exact H]. Qed.

Lemma firstn_Forall2 : forall A B (R : A -> B -> Prop) n l l', Forall2 R l l' -> Forall2 R (firstn n l) (firstn n l').
Proof. intros A B R n l l' F. revert n. induction F; intros [|n]; cbn; auto. Qed.

Lemma on_set_good : forall u id r ev s top tys hs, double_event ev -> inv top tys s -> stack s = {| h_kind := KSet u id; h_ref := r |} :: hs -> good top (on_set e fits u id r ev s).
Proof.
  intros u id r ev s top tys hs D V E. assert (H : fine tys (stack s)) by apply V. rewrite E in H. destruct H as [[N T] G]. cbn in N, T, G. unfold below in G. cbn in G.
  assert (Ts : typed tys {| object := id; path := [] |} (Plain (TVector u))) by (exists (TVector u); auto).
  assert (F : Forall (valid e u) (items (mem s) {| object := id; path := [] |})) by (eapply items_vector; [apply V|exact Ts]).
  assert (B : forall ev', double_event ev' -> good top (forward e fits ev' (open e fits u (into {| object := id; path := [] |} (SItem (List.length (items (mem s) {| object := id; path := [] |}))))
    (put {| object := id; path := [] |} (VList (push_back (items (mem s) {| object := id; path := [] |}) (vinit e u))) s)))).
  { intros ev' D'. apply forward_good; [exact D'|]. apply (open_good _ _ tys); [|now apply (typed_into _ _ _ _ _ Ts)]. apply (put_inv _ _ _ _ (Plain (TVector u))); auto. apply push_valid; [exact F|now apply vinit_valid]. }
  unfold on_set. destruct ev; try (destruct (is_json_type _ _); [now apply B|exact (failed _ _ _ V)]).
  exists (firstn id tys). pose proof (typed_less _ _ _ _ T) as T'.
  assert (V' : inv top tys (put r (VList (fold_left (set_insert (less e u)) (items (mem s) {| object := id; path := [] |}) (items (mem s) r))) s)).
  { apply (put_inv _ _ _ _ (Plain (TSet u))); auto. apply inserts_valid; [exact F|]. eapply items_set; [apply V|exact T']. }
  destruct V' as (F' & _ & N'). split; [|split].
  - cbn. apply firstn_Forall2. exact F'.
  - cbn. rewrite E. exact G.
  - apply firstn_nth; [|exact N']. destruct T as (t & Nt & _). destruct id; [now destruct (object r)|lia].
Qed.

Lemma on_map_good : forall o u r ev s top tys, inv top tys s -> typed tys r (Plain (TMap o u)) -> good top (on_map e fits u r ev s).
Proof.
  intros o u r ev s top tys V T. unfold on_map. destruct ev; try (exact (failed _ _ _ V)).
  - apply (open_good _ _ tys); [|now apply (typed_into _ _ _ _ _ T)]. apply (put_inv _ _ _ _ (Plain (TMap o u))); auto. cbn.
    assert (M : valid e (TMap o u) (VMap (entries (mem s) r))).
    { unfold entries. destruct (load (mem s) r) eqn:L; [|apply valid_map; constructor]. apply (load_holds tys _ _ _ _ (proj1 V) T) in L. cbn in L. inversion L; subst; try contradiction. exact L. }
    inversion M as [| | | | | | | | | | | | | | |? ? ? F S| | | | | | | | | | |]; subst. apply valid_map; [apply (ParseProof.emplace_shape (valid e u)); [exact F|now apply vinit_valid]|now apply ParseProof.emplace_ascending].
  - exists tys. now apply pop_inv.
Qed.

Lemma on_object_good : forall c r ev s top tys, inv top tys s -> typed tys r (Plain (TClass c)) -> good top (on_object e fuel fits c r ev s).
Proof.
  intros c r ev s top tys V T. unfold on_object. destruct ev; try (exact (failed _ _ _ V)).
  - destruct (dispatch _ _ _) as [[i|]| |]; try exact I; try (exact (failed _ _ _ V)). destruct (nth_error _ i) as [m|] eqn:N; [|exact I].
    apply (open_member_good _ _ tys); [exact V|]. apply (typed_into _ _ _ _ _ T). cbn. now rewrite N.
  - exists tys. now apply pop_inv.
Qed.

Lemma skipn_next : forall A (l : list A) i x l', skipn i l = x :: l' -> nth_error l i = Some x /\ skipn (S i) l = l'.
Proof. induction l as [|y l IH]; intros [|i] x l' H; cbn in *; try discriminate; [injection H as -> ->; auto|]. now apply IH. Qed.

Lemma on_fixed_good : forall i ts t all r ev s top tys, double_event ev -> inv top tys s -> typed tys r (Plain t) -> comps t = Some all -> skipn i all = ts ->
  good top (on_fixed e fits i ts r ev s).
Proof.
  intros i ts t all r ev s top tys D V T C K. unfold on_fixed. destruct ts as [|u ts].
  - destruct ev; try (exact (failed _ _ _ V)). exists tys. now apply pop_inv.
  - apply skipn_next in K as [N K].
    assert (B : forall ev', double_event ev' -> good top (match replace fits (KFixed (S i) ts) r s with POk s => forward e fits ev' (open e fits u (into r (SItem i)) s) | x => x end)).
    { intros ev' D'. unfold replace, emplace. destruct (fits _ _); [|exact I]. apply forward_good; [exact D'|]. apply (open_good _ _ tys).
      - destruct (pop_inv _ _ _ V) as (F & H & M). split; [exact F|]. split; [|exact M]. cbn [stack fine]. split; [|exact H]. exists t, all. auto.
      - apply (typed_into _ _ _ _ _ T). rewrite (comps_step _ _ _ C), N. reflexivity. }
    destruct ev; try (now apply B); exact (failed _ _ _ V).
Qed.

Lemma step_good : forall ev s top tys, double_event ev -> inv top tys s -> good top (step e fuel fits ev s).
Proof.
  intros ev s top tys D V. unfold step. destruct (stack s) as [|[k r] hs] eqn:E; [exact I|]. cbn [h_kind h_ref].
  assert (H : handler_fine tys {| h_kind := k; h_ref := r |}) by (destruct V as (_ & H & _); rewrite E in H; apply H). destruct k; cbn in H.
  - eapply on_value_good; eauto.
  - eapply on_vector_good; eauto.
  - eapply on_set_good; eauto.
  - eapply on_fast_set_good; eauto.
  - destruct H as [o H]. eapply on_map_good; eauto.
  - eapply on_object_good; eauto.
  - destruct H as (t & all & T & C & K). eapply on_fixed_good; eauto.
Qed.

Lemma run_good : forall evs s top tys, Forall double_event evs -> inv top tys s -> good top (run e fuel fits evs s).
Proof.
  induction evs as [|ev evs IH]; intros s top tys D V; cbn [run]; [now exists tys|]. inversion D; subst. pose proof (step_good ev s top tys ltac:(assumption) V) as G.
  destruct (step e fuel fits ev s); auto. destruct G as [tys' V']. eauto.
Qed.

Lemma events_good : forall t obj evs, Forall double_event evs -> valid e t obj -> match parse_events e fuel fits t obj evs with POk s | PFail s => valid e t (target s) | _ => True end.
Proof.
  intros t obj evs D V. assert (A : forall s tys, inv t tys s -> valid e t (target s)).
  { intros s tys (F & _ & N). unfold target. destruct F; [discriminate|]. injection N as ->. assumption. }
  assert (G : good t (parse_events e fuel fits t obj evs)).
  { unfold parse_events. assert (O : good t (open e fits t root_place (initial obj))).
    { apply (open_good _ _ [t]); [|now exists t]. split; [constructor; [exact V|constructor]|]. split; [exact I|reflexivity]. }
    destruct (open e fits t root_place (initial obj)); auto. destruct O as [tys V']. eapply run_good; eauto. }
  destruct (parse_events e fuel fits t obj evs); auto; destruct G as [tys V']; eauto.
Qed.
End Machine.
