(** Class hierarchies are visited like one class. *)
From Coq Require Import List Arith ZArith NArith Ascii String Bool Lia.
From Verif Require Import Base Json PathModel Types SerializeModel Events WriteModel DeserializeModel SchemaModel HierarchyModel HierarchySpec.
Import ListNotations.
Local Open Scope list_scope.

Lemma set_length : forall archives ar flag, List.length (set_flag archives ar flag) = List.length archives.
Proof. induction archives as [|x l IH]; intros [|n] flag; cbn; auto. Qed.

Lemma set_same : forall archives ar flag, ar < List.length archives -> flag_of (set_flag archives ar flag) ar = flag.
Proof. unfold flag_of. induction archives as [|x l IH]; intros [|n] flag L; cbn in *; try lia; auto. apply IH. lia. Qed.

Lemma set_other : forall archives ar ar' flag, ar <> ar' -> flag_of (set_flag archives ar flag) ar' = flag_of archives ar'.
Proof. unfold flag_of. induction archives as [|x l IH]; intros [|n] [|n'] flag D; cbn; try lia; auto. Qed.

Lemma flag_app : forall archives x ar, ar < List.length archives -> flag_of (archives ++ [x]) ar = flag_of archives ar.
Proof. intros. unfold flag_of. now rewrite app_nth1. Qed.

Lemma flag_new : forall archives x, flag_of (archives ++ [x]) (List.length archives) = x.
Proof. intros. unfold flag_of. rewrite app_nth2, Nat.sub_diag by lia. reflexivity. Qed.

Section Archives.
Context {A W X : Type}.
Variable step : A -> bool -> W -> (bool * W) + X.

(** One archive for all members. *)
Fixpoint together (ms : list A) (flag : bool) (w : W) : (bool * W) + X :=
  match ms with
  | [] => inl (flag, w)
  | m :: ms' => match step m flag w with inl (flag, w) => together ms' flag w | inr x => inr x end
  end.

Lemma together_app : forall l l' flag w, together (l ++ l') flag w =
  match together l flag w with inl (flag, w) => together l' flag w | inr x => inr x end.
Proof. induction l as [|m l IH]; intros l' flag w; cbn; [reflexivity|]. destruct (step m flag w) as [[f w1]|x]; [apply IH|reflexivity]. Qed.

Lemma uncopied_length : forall B (p : persist B), uncopied p <= List.length (in_order p).
Proof. intros B p. induction p; cbn; rewrite ?app_length; lia. Qed.

(** The archive given has seen the uncopied members, the archive returned has seen all of them. *)
Lemma call_spec : forall p ar archives w, chained p -> ar < List.length archives ->
  match together (firstn (uncopied p) (in_order p)) (flag_of archives ar) w with
  | inr x => persist_call step p ar archives w = inr x
  | inl (flag, w1) =>
    match together (skipn (uncopied p) (in_order p)) flag w1 with
    | inr x => persist_call step p ar archives w = inr x
    | inl (flag2, w2) => exists r archives2, persist_call step p ar archives w = inl (r, archives2, w2) /\
        List.length archives <= r < List.length archives2 /\ flag_of archives2 ar = flag /\ flag_of archives2 r = flag2 /\
        forall ar', ar' < List.length archives -> ar' <> ar -> flag_of archives2 ar' = flag_of archives ar'
    end
  end.
Proof.
  induction p as [|a p IH|p IH|b IHb p IH|b IHb p IH]; intros ar archives w C L; cbn [in_order uncopied persist_call chained] in *.
  - cbn. exists (List.length archives), (archives ++ [flag_of archives ar]). split; [reflexivity|]. rewrite app_length. cbn. split; [lia|].
    rewrite flag_app, flag_new by lia. split; [reflexivity|]. split; [reflexivity|]. intros ar' L' D. now rewrite flag_app by lia.
  - cbn [firstn skipn together]. destruct (step a (flag_of archives ar) w) as [[f w1]|x]; [|reflexivity].
    specialize (IH ar (set_flag archives ar f) w1 C). rewrite set_length, set_same in IH by assumption. specialize (IH L).
    destruct (together (firstn (uncopied p) (in_order p)) f w1) as [[f2 w2]|x]; [|exact IH].
    destruct (together (skipn (uncopied p) (in_order p)) f2 w2) as [[f3 w3]|x]; [|exact IH].
    destruct IH as (r & a2 & E & R & Fa & Fr & Ot). exists r, a2. split; [exact E|]. split; [exact R|]. split; [exact Fa|]. split; [exact Fr|].
    intros ar' L' D. rewrite Ot by assumption. apply set_other. congruence.
  - cbn [firstn skipn together]. unfold copied. specialize (IH (List.length archives) (archives ++ [flag_of archives ar]) w C). rewrite app_length, flag_new in IH. cbn [List.length] in IH.
    specialize (IH ltac:(lia)). rewrite <- (firstn_skipn (uncopied p) (in_order p)), together_app.
    destruct (together (firstn (uncopied p) (in_order p)) (flag_of archives ar) w) as [[f2 w2]|x]; [|exact IH].
    destruct (together (skipn (uncopied p) (in_order p)) f2 w2) as [[f3 w3]|x]; [|exact IH].
    destruct IH as (r & a2 & E & R & Fa & Fr & Ot2). exists r, a2. split; [exact E|]. split; [lia|]. split; [rewrite Ot2 by lia; now rewrite flag_app|].
    split; [exact Fr|]. intros ar' L' D. rewrite Ot2 by lia. now rewrite flag_app.
  - destruct C as [Cb C]. pose proof (uncopied_length _ b) as U.
    rewrite firstn_app, skipn_app. replace (uncopied b - List.length (in_order b)) with 0 by lia. cbn [firstn skipn]. rewrite app_nil_r.
    specialize (IHb ar archives w Cb L). destruct (together (firstn (uncopied b) (in_order b)) (flag_of archives ar) w) as [[f w1]|x]; [|now rewrite IHb].
    rewrite together_app. destruct (together (skipn (uncopied b) (in_order b)) f w1) as [[f2 w2]|x]; [|now rewrite IHb].
    destruct IHb as (r & a2 & -> & [R1 R2] & Fa & Fr & Ot). specialize (IH r a2 w2 C R2). rewrite Fr in IH.
    rewrite <- (firstn_skipn (uncopied p) (in_order p)), together_app.
    destruct (together (firstn (uncopied p) (in_order p)) f2 w2) as [[f3 w3]|x]; [|exact IH].
    destruct (together (skipn (uncopied p) (in_order p)) f3 w3) as [[f4 w4]|x]; [|exact IH].
    destruct IH as (r' & a3 & E & R' & Fa' & Fr' & Ot'). exists r', a3. split; [exact E|]. split; [lia|]. split; [rewrite Ot' by lia; exact Fa|].
    split; [exact Fr'|]. intros ar' L' D. rewrite Ot' by lia. now apply Ot.
  - contradiction.
Qed.

(** The flag that the caller sees. *)
Lemma object_spec : forall p w, chained p -> persist_object step p w =
  match together (firstn (uncopied p) (in_order p)) true w with
  | inr x => inr x
  | inl (flag, w1) => match together (skipn (uncopied p) (in_order p)) flag w1 with inr x => inr x | inl (_, w2) => inl (flag, w2) end
  end.
Proof.
  intros p w C. unfold persist_object. pose proof (call_spec p 0 [true] w C (Nat.lt_0_succ 0)) as H. cbn [flag_of nth] in H.
  destruct (together (firstn (uncopied p) (in_order p)) true w) as [[f w1]|x]; [|now rewrite H].
  destruct (together (skipn (uncopied p) (in_order p)) f w1) as [[f2 w2]|x]; [|now rewrite H]. destruct H as (r & a & -> & _ & Fa & _). unfold flag_of in Fa at 1. unfold flag_of. now rewrite Fa.
Qed.

(** The same with a counter, as in the models of the writer and the deserializer. *)
Fixpoint counted (ms : list A) (root : nat) (seen flag : bool) (w : W) : (bool * W) + X :=
  match ms with
  | [] => inl (seen, w)
  | m :: ms' =>
    match step m flag w with
    | inl (flag, w) => match root with O => counted ms' O seen flag w | S r => counted ms' r flag flag w end
    | inr x => inr x
    end
  end.

Lemma counted_rest : forall ms seen flag w, counted ms 0 seen flag w = match together ms flag w with inl (_, w) => inl (seen, w) | inr x => inr x end.
Proof. induction ms as [|m ms IH]; intros seen flag w; cbn; [reflexivity|]. destruct (step m flag w) as [[f w1]|x]; [apply IH|reflexivity]. Qed.

Lemma counted_spec : forall ms root flag w, counted ms root flag flag w =
  match together (firstn root ms) flag w with
  | inr x => inr x
  | inl (flag, w1) => match together (skipn root ms) flag w1 with inr x => inr x | inl (_, w2) => inl (flag, w2) end
  end.
Proof.
  induction ms as [|m ms IH]; intros root flag w.
  - rewrite firstn_nil, skipn_nil. reflexivity.
  - destruct root as [|r]; [rewrite counted_rest; cbn [firstn skipn together]; now destruct (step m flag w) as [[f w1]|x]; [destruct (together ms f w1) as [[]|]|]|].
    cbn [counted firstn skipn together]. destruct (step m flag w) as [[f w1]|x]; [apply IH|reflexivity].
Qed.

Lemma object_counted : forall p w, chained p -> persist_object step p w = counted (in_order p) (uncopied p) true true w.
Proof. intros p w C. rewrite object_spec, counted_spec by assumption. reflexivity. Qed.

Lemma all_true : forall archives ar, Forall (eq true) archives -> flag_of archives ar = true.
Proof.
  unfold flag_of. intros archives ar F. revert ar. induction F as [|x l <- F IH]; intros [|ar]; cbn; auto.
Qed.

Lemma set_true : forall archives ar, Forall (eq true) archives -> Forall (eq true) (set_flag archives ar true).
Proof. intros archives ar F. revert ar. induction F as [|x l <- F IH]; intros [|ar]; cbn; auto. Qed.

Lemma copied_true : forall archives ar, Forall (eq true) archives -> Forall (eq true) (archives ++ [flag_of archives ar]).
Proof. intros archives ar F. rewrite all_true by assumption. apply Forall_app. auto. Qed.

(** If nothing fails, archives do not differ. *)
Lemma call_true : (forall a w f w1, step a true w = inl (f, w1) -> f = true) -> forall p ar archives w, Forall (eq true) archives ->
  match together (in_order p) true w with
  | inl (f, w1) => f = true /\ exists r archives1, persist_call step p ar archives w = inl (r, archives1, w1) /\ Forall (eq true) archives1
  | inr x => persist_call step p ar archives w = inr x
  end.
Proof.
  intros T. induction p as [|a p IH|p IH|b IHb p IH|b IHb p IH]; intros ar archives w F; cbn [in_order persist_call together].
  - split; [reflexivity|]. eexists _, _. split; [reflexivity|]. now apply copied_true.
  - rewrite (all_true archives ar F). destruct (step a true w) as [[f w1]|x] eqn:E; [|reflexivity]. apply T in E as ->. apply IH. now apply set_true.
  - unfold copied. apply IH. now apply copied_true.
  - rewrite together_app. specialize (IHb ar archives w F). destruct (together (in_order b) true w) as [[f w1]|x]; [|now rewrite IHb].
    destruct IHb as (-> & r & a1 & -> & F1). now apply IH.
  - rewrite together_app. specialize (IHb ar archives w F). destruct (together (in_order b) true w) as [[f w1]|x]; [|now rewrite IHb].
    destruct IHb as (-> & r & a1 & -> & F1). now apply IH.
Qed.

Lemma object_true : (forall a w f w1, step a true w = inl (f, w1) -> f = true) -> forall p w, persist_object step p w = together (in_order p) true w.
Proof.
  intros T p w. unfold persist_object. pose proof (call_true T p 0 [true] w (Forall_cons _ eq_refl (Forall_nil _))) as H.
  destruct (together (in_order p) true w) as [[f w1]|x]; [|now rewrite H]. destruct H as (-> & r & a1 & -> & F). now rewrite all_true.
Qed.

Lemma together_dead : (forall a w f w1, step a false w = inl (f, w1) -> f = false) -> forall l w f w1, together l false w = inl (f, w1) -> f = false.
Proof.
  intros D. induction l as [|a l IH]; intros w f w1 H; cbn in H; [congruence|]. destruct (step a false w) as [[f2 w2]|x] eqn:E; [|discriminate]. apply D in E as ->. eauto.
Qed.

Lemma call_success : (forall a w f w1, step a false w = inl (f, w1) -> f = false) -> forall p ar archives w w1, Forall (eq true) archives ->
  together (in_order p) true w = inl (true, w1) ->
  exists r archives1, persist_call step p ar archives w = inl (r, archives1, w1) /\ Forall (eq true) archives1.
Proof.
  intros D. induction p as [|a p IH|p IH|b IHb p IH|b IHb p IH]; intros ar archives w w1 F H; cbn [in_order persist_call together] in *.
  - injection H as <-. eexists _, _. split; [reflexivity|]. now apply copied_true.
  - rewrite (all_true archives ar F). destruct (step a true w) as [[[|] w2]|x] eqn:E; [|apply (together_dead D) in H; discriminate|discriminate]. apply IH; [now apply set_true|exact H].
  - unfold copied. apply IH; [now apply copied_true|exact H].
  - rewrite together_app in H. destruct (together (in_order b) true w) as [[[|] w2]|x] eqn:E; [|apply (together_dead D) in H; discriminate|discriminate].
    destruct (IHb ar archives w w2 F E) as (r & a1 & -> & F1). now apply IH.
  - rewrite together_app in H. destruct (together (in_order b) true w) as [[[|] w2]|x] eqn:E; [|apply (together_dead D) in H; discriminate|discriminate].
    destruct (IHb ar archives w w2 F E) as (r & a1 & -> & F1). now apply IH.
Qed.

(** If flags only make flags, they do not matter. *)
Lemma call_flags : (forall a f1 f2 w, match step a f1 w with inl (_, w1) => exists f, step a f2 w = inl (f, w1) | inr x => step a f2 w = inr x end) ->
  forall p ar archives flag w,
  match together (in_order p) flag w with
  | inl (_, w1) => exists r archives1, persist_call step p ar archives w = inl (r, archives1, w1)
  | inr x => persist_call step p ar archives w = inr x
  end.
Proof.
  intros I. induction p as [|a p IH|p IH|b IHb p IH|b IHb p IH]; intros ar archives flag w; cbn [in_order persist_call together].
  - now eexists _, _.
  - specialize (I a flag (flag_of archives ar) w). destruct (step a flag w) as [[f1 w1]|x]; [destruct I as [f ->]|rewrite I; reflexivity]. apply IH.
  - unfold copied. apply IH.
  - rewrite together_app. specialize (IHb ar archives flag w). destruct (together (in_order b) flag w) as [[f1 w1]|x]; [|now rewrite IHb].
    destruct IHb as (r & a1 & ->). apply IH.
  - rewrite together_app. specialize (IHb ar archives flag w). destruct (together (in_order b) flag w) as [[f1 w1]|x]; [|now rewrite IHb].
    destruct IHb as (r & a1 & ->). apply IH.
Qed.
End Archives.

(** * The archives of the library *)

Lemma in_order_map : forall A B (f : A -> B) p, in_order (pmap f p) = map f (in_order p).
Proof. intros A B f p. induction p; cbn; rewrite ?map_app; congruence. Qed.

Lemma uncopied_map : forall A B (f : A -> B) p, uncopied (pmap f p) = uncopied p.
Proof. intros A B f p. induction p; cbn; congruence. Qed.

Lemma chained_map : forall A B (f : A -> B) p, chained (pmap f p) <-> chained p.
Proof. intros A B f p. induction p; cbn; tauto. Qed.

Lemma in_order_own : forall A (l : list A), in_order (Own l) = l.
Proof. intros A l. induction l as [|a l IH]; cbn; [reflexivity|]. unfold Own in IH. now rewrite IH. Qed.

Lemma uncopied_own : forall A (l : list A), uncopied (Own l) = List.length l.
Proof. intros A l. induction l as [|a l IH]; cbn; [reflexivity|]. unfold Own in IH. now rewrite IH. Qed.

Lemma chained_own : forall A (l : list A), chained (Own l).
Proof. intros A l. induction l as [|a l IH]; cbn; auto. Qed.

Lemma write_counted : forall ctx l root seen flag tab evs, counted (write_step ctx) l root seen flag (tab, evs) =
  match wr_members ctx root seen flag (map fst l) (map snd l) tab with
  | WRet ok tab evs' => inl (ok, (tab, evs ++ evs'))
  | WUndef => inr tt
  end.
Proof.
  intros ctx l. induction l as [|[m f] l IH]; intros root seen flag tab evs; cbn [counted map wr_members fst snd]; [now rewrite app_nil_r|].
  unfold write_step at 1. cbn [fst snd]. destruct (wr_to_write m f) as [[g|]|]; [| |reflexivity].
  - destruct flag.
    + destruct (g _ tab) as [ok tab1 evs1|]; [|reflexivity]. destruct root as [|r]; rewrite IH;
        (match goal with |- context [wr_members ?c ?a ?b ?d ?x ?y ?z] => destruct (wr_members c a b d x y z) as [ok2 tab2 evs2|] end; [|reflexivity]); now rewrite <- app_assoc.
    + destruct root as [|r]; apply IH.
  - destruct root as [|r]; apply IH.
Qed.

Lemma write_hierarchy : forall p ctx c tab, chained p -> c_members c = map fst (in_order p) -> c_root c = uncopied p ->
  write_object p ctx tab = wr_object ctx c (map snd (in_order p)) tab.
Proof.
  intros p ctx c tab C M R. unfold write_object, wr_object. rewrite object_counted, write_counted, M, R by assumption. cbn [emit wthen].
  destruct (wr_members ctx (uncopied p) true true (map fst (in_order p)) (map snd (in_order p)) tab) as [[|] tab1 evs|]; cbn; try reflexivity.
Qed.

Lemma deserialize_counted : forall e exc fs ctx loc l root seen flag st vs, counted (deserialize_step e exc fs ctx loc) l root seen flag (st, vs) =
  match read_members e exc fs (map fst l) root seen flag (map snd l) ctx loc st with
  | (ok, vs', None, st) => inl (ok, (st, vs ++ vs'))
  | (_, _, Some r, _) => inr r
  end.
Proof.
  intros e exc fs ctx loc l. induction l as [|[m v] l IH]; intros root seen flag st vs; cbn [counted map read_members fst snd hd tl]; [now rewrite app_nil_r|].
  unfold deserialize_step at 1. cbn [fst snd]. destruct (read_member e exc fs m flag v ctx loc st) as [ok st1 x| | |]; try reflexivity.
  destruct root as [|r]; rewrite IH;
    (match goal with |- context [read_members ?a ?b ?c ?d ?f ?g ?h ?i ?j ?k ?l] => destruct (read_members a b c d f g h i j k l) as [[[ok2 vs2] [stop|]] st2] end; [reflexivity|]); now rewrite <- app_assoc.
Qed.

Lemma deserialize_hierarchy : forall e exc fs p ctx loc st, chained p ->
  deserialize_object e exc fs p ctx loc st = finish_object (read_members e exc fs (map fst (in_order p)) (uncopied p) true true (map snd (in_order p)) ctx loc st).
Proof.
  intros e exc fs p ctx loc st C. unfold deserialize_object. rewrite object_counted, deserialize_counted by assumption.
  destruct (read_members e exc fs _ _ _ _ _ _ _ _) as [[[ok vs] [stop|]] st2]; reflexivity.
Qed.

Lemma serialize_counted : forall ctx l root tab r, 
  match ser_members ctx (map fst l) (map snd l) tab with
  | SOk tab' r' => counted (serialize_step ctx) l root true true (tab, r) = inl (true, (tab', r ++ r'))
  | SUndef => counted (serialize_step ctx) l root true true (tab, r) = inr tt
  | SFail _ => False
  end.
Proof.
  intros ctx l. induction l as [|[m f] l IH]; intros root tab r; cbn [counted map ser_members fst snd]; [now rewrite app_nil_r|].
  remember (serialize_step ctx (m, f) true (tab, r)) as st eqn:St. unfold serialize_step in St. cbn [fst snd] in St.
  assert (Q : forall root tab r, match root with O => counted (serialize_step ctx) l 0 true true (tab, r) | S n => counted (serialize_step ctx) l n true true (tab, r) end =
    counted (serialize_step ctx) l (pred root) true true (tab, r)) by (intros []; reflexivity).
  destruct (to_write m f) as [[g|]|]; [| |now subst st].
  - destruct (g _ tab) as [tab1 j|tab1|]; subst st; [|rewrite Q; apply IH|reflexivity]. rewrite Q. specialize (IH (pred root) tab1 (r ++ [(m_name m, j)])).
    destruct (ser_members ctx (map fst l) (map snd l) tab1) as [tab2 r2|tab2|]; cbn; [now rewrite IH, <- app_assoc|exact IH|exact IH].
  - subst st. rewrite Q. apply IH.
Qed.

Lemma serialize_alive : forall ctx a w f w1, serialize_step ctx a true w = inl (f, w1) -> f = true.
Proof.
  intros ctx [m g] [tab l] f w1 H. unfold serialize_step in H. cbn [fst snd] in H. destruct (to_write m g) as [[h|]|]; [|congruence|discriminate].
  destruct (h _ tab); congruence.
Qed.

Lemma counted_together : forall A W X (step : A -> bool -> W -> (bool * W) + X) l f w, counted step l (List.length l) f f w = together step l f w.
Proof. intros A W X step l. induction l as [|a l IH]; intros f w; cbn; [reflexivity|]. destruct (step a f w) as [[f1 w1]|x]; [apply IH|reflexivity]. Qed.

Lemma serialize_hierarchy : forall p ctx tab,
  serialize_object p ctx tab = smap JObj (ser_members ctx (map fst (in_order p)) (map snd (in_order p)) tab).
Proof.
  intros p ctx tab. unfold serialize_object. rewrite (object_true _ (serialize_alive ctx)), <- counted_together. pose proof (serialize_counted ctx (in_order p) (List.length (in_order p)) tab []) as H.
  destruct (ser_members ctx _ _ tab) as [tab1 l|tab1|]; [now rewrite H|contradiction|now rewrite H].
Qed.

Lemma schema_counted : forall f ms root d ps rs, counted (flagless (schema_object_step f)) ms root true true ((ps, rs), d) =
  match visit f ms d with
  | GOk r d => inl (true, ((ps ++ fst r, rs ++ snd r), d))
  | GDeep => inr true
  | GInvalid => inr false
  end.
Proof.
  intros f ms. induction ms as [|m ms IH]; intros root d ps rs; cbn [counted visit]; [cbn; now rewrite !app_nil_r|].
  assert (Q : forall root w, match root with O => counted (flagless (schema_object_step f)) ms 0 true true w | S n => counted (flagless (schema_object_step f)) ms n true true w end =
    counted (flagless (schema_object_step f)) ms (pred root) true true w) by (intros []; reflexivity).
  unfold flagless at 1, schema_object_step at 1, schema_step at 1.
  destruct (m_kind m); [|reflexivity|];
    (destruct (f (m_ty m) d) as [s d1| |]; cbn [gbind]; [|reflexivity|reflexivity]; rewrite Q, IH; destruct (visit f ms d1) as [[ps2 rs2] d2| |]; cbn [gbind fst snd]; [|reflexivity|reflexivity];
     rewrite <- ?app_assoc; reflexivity).
Qed.

Lemma schema_hierarchy : forall f p d, schema_visit f p d = visit f (in_order p) d.
Proof.
  intros f p d. unfold schema_visit. rewrite object_true, <- counted_together, schema_counted.
  - destruct (visit f (in_order p) d) as [[ps rs] d1| |]; reflexivity.
  - intros a w fl w1 H. unfold flagless in H. destruct (schema_object_step f a w); congruence.
Qed.

(** * Archives at compile time *)

Lemma builder_spec : forall A (p : persist A) ar, chained p -> builder_call p ar = ar ++ in_order p.
Proof.
  intros A p. induction p as [|a p IH|p IH|b IHb p IH|b IHb p IH]; intros ar C; cbn in *; [now rewrite app_nil_r| |now apply IH| |contradiction].
  - now rewrite IH, <- app_assoc.
  - destruct C. now rewrite IH, IHb, <- app_assoc.
Qed.

Lemma counter_spec : forall A (p : persist A) ar, chained p -> counter_call p ar = ar + List.length (in_order p).
Proof.
  intros A p. induction p as [|a p IH|p IH|b IHb p IH|b IHb p IH]; intros ar C; cbn in *; [lia| |now apply IH| |contradiction].
  - rewrite IH by assumption. lia.
  - destruct C. rewrite IH, IHb, app_length by assumption. lia.
Qed.

(** * Classes without bases *)

(** Once the flag is false, nothing is written. *)
Lemma dead : forall ctx l root seen tab, root = 0 \/ seen = false ->
  wr_members ctx root seen false (map fst l) (map snd l) tab =
  match wr_members ctx 0 false false (map fst l) (map snd l) tab with WUndef => WUndef | WRet _ _ _ => WRet seen tab [] end.
Proof.
  intros ctx l. induction l as [|[m f] l IH]; intros root seen tab H; cbn [map fst snd wr_members]; [reflexivity|].
  assert (N : match root with O => wr_members ctx 0 seen false (map fst l) (map snd l) tab | S r => wr_members ctx r false false (map fst l) (map snd l) tab end =
              match wr_members ctx 0 false false (map fst l) (map snd l) tab with WUndef => WUndef | WRet _ _ _ => WRet seen tab [] end).
  { destruct root as [|r]; [apply IH; now left|]. destruct H as [H| ->]; [discriminate|]. apply IH. now right. }
  destruct (wr_to_write m f) as [[g|]|]; [exact N|exact N|reflexivity].
Qed.

(** The members of a class without bases, [n] of them, and with bases. *)
Definition like (flat first derived : wres) : Prop :=
  match flat with
  | WUndef => derived = WUndef
  | WRet true tab evs => derived = WRet true tab evs /\ exists tab1 evs1, first = WRet true tab1 evs1
  | WRet false tab evs =>
    derived = WRet false tab evs /\ first = WRet false tab evs \/
    derived = WRet true tab evs /\ exists tab1 evs1, first = WRet true tab1 evs1
  end.

Lemma like_more : forall flat first derived tab evs,
  like flat first derived ->
  like (match flat with WUndef => WUndef | WRet ok tab evs' => WRet ok tab (evs ++ evs') end)
       (match first with WUndef => WUndef | WRet ok tab evs' => WRet ok tab (evs ++ evs') end)
       (match derived with WUndef => WUndef | WRet ok tab evs' => WRet ok tab (evs ++ evs') end) /\
  like (match flat with WUndef => WUndef | WRet ok tab evs' => WRet ok tab (evs ++ evs') end)
       (WRet true tab []) (match flat with WUndef => WUndef | WRet _ tab evs' => WRet true tab (evs ++ evs') end).
Proof.
  intros flat first derived tab evs H. unfold like in *. split.
  - destruct flat as [[|] tab1 evs1|]; [| |now rewrite H].
    + destruct H as [-> (tab2 & evs2 & ->)]. split; [reflexivity|]. now eexists _, _.
    + destruct H as [[-> ->]|[-> (tab2 & evs2 & ->)]]; [left; now split|right]. split; [reflexivity|]. now eexists _, _.
  - destruct flat as [[|] tab1 evs1|]; [| |reflexivity].
    + split; [reflexivity|]. now eexists _, _.
    + right. split; [reflexivity|]. now eexists _, _.
Qed.

(** The flag of the first archive stays true if it visits no member. *)
Lemma unvisited : forall ctx l n seen flag tab, List.length l <= n -> (flag = true -> seen = true) ->
  wr_members ctx 0 true flag (map fst l) (map snd l) tab =
  match wr_members ctx n seen flag (map fst l) (map snd l) tab with WUndef => WUndef | WRet _ tab evs => WRet true tab evs end.
Proof.
  intros ctx l. induction l as [|[m f] l IH]; intros n seen flag tab H F; cbn [map fst snd wr_members]; [reflexivity|].
  destruct n as [|n]; [cbn in H; lia|]. cbn in H. destruct (wr_to_write m f) as [[g|]|]; [| |reflexivity].
  - destruct flag.
    + destruct (g _ tab) as [ok tab1 evs1|]; [|reflexivity]. rewrite (IH n ok ok tab1); [|lia|auto].
      destruct (wr_members ctx n ok ok _ _ tab1); reflexivity.
    + apply IH; [lia|auto].
  - apply IH; [lia|auto].
Qed.

Lemma like_members : forall ctx l n k root tab, List.length l <= n -> List.length (firstn root l) <= k ->
  like (wr_members ctx n true true (map fst l) (map snd l) tab)
       (wr_members ctx k true true (map fst (firstn root l)) (map snd (firstn root l)) tab)
       (wr_members ctx root true true (map fst l) (map snd l) tab).
Proof.
  intros ctx l. induction l as [|[m f] l IH]; intros n k root tab H K.
  - rewrite firstn_nil. cbn. split; [reflexivity|]. now eexists _, _.
  - destruct root as [|root].
    + cbn [firstn]. rewrite (unvisited ctx ((m, f) :: l) n true true tab H (fun H => H)).
      destruct (wr_members ctx n true true (map fst ((m, f) :: l)) (map snd ((m, f) :: l)) tab) as [[|] tab1 evs1|]; cbn; auto.
      * split; [reflexivity|]. now eexists _, _.
      * right. split; [reflexivity|]. now eexists _, _.
    + destruct n as [|n]; [cbn in H; lia|]. destruct k as [|k]; [cbn in K; lia|]. cbn [firstn] in *. cbn [map fst snd wr_members]. cbn in H, K.
      destruct (wr_to_write m f) as [[g|]|]; [| |reflexivity].
      * destruct (g _ tab) as [[|] tab1 evs1|]; [| |reflexivity].
        -- specialize (IH n k root tab1 ltac:(lia) ltac:(lia)).
           apply (like_more _ _ _ tab (EKey (m_name m) :: evs1)) in IH. exact (proj1 IH).
        -- rewrite (dead ctx l n false tab1 (or_intror eq_refl)), (dead ctx l root false tab1 (or_intror eq_refl)), (dead ctx (firstn root l) k false tab1 (or_intror eq_refl)).
           assert (N : wr_members ctx 0 false false (map fst l) (map snd l) tab1 <> WUndef -> wr_members ctx 0 false false (map fst (firstn root l)) (map snd (firstn root l)) tab1 <> WUndef).
           { clear. revert root. induction l as [|[m f] l IH]; intros root N; [now rewrite firstn_nil|]. destruct root as [|root]; [discriminate|].
             cbn [firstn map fst snd wr_members] in *. destruct (wr_to_write m f) as [[g|]|]; [now apply IH|now apply IH|exact N]. }
           destruct (wr_members ctx 0 false false (map fst l) (map snd l) tab1); [|reflexivity].
           destruct (wr_members ctx 0 false false (map fst (firstn root l)) (map snd (firstn root l)) tab1); [|exfalso; now apply N]. left. now split.
      * apply IH; lia.
Qed.

Lemma write_own : forall l ctx tab,
  write_object (Own l) ctx tab =
  match wr_members ctx (List.length l) true true (map fst l) (map snd l) tab with
  | WUndef => WUndef | WRet ok tab evs => WRet ok tab (EStartObject :: evs ++ if ok then [EEndObject] else [])
  end.
Proof.
  intros l ctx tab. unfold write_object. rewrite object_counted, write_counted, in_order_own, uncopied_own by apply chained_own.
  destruct (wr_members _ _ _ _ _ _ tab) as [[|] tab1 evs|]; cbn; rewrite ?app_nil_r; reflexivity.
Qed.

Lemma write_derived : forall p ctx tab, chained p ->
  write_object p ctx tab =
  match wr_members ctx (uncopied p) true true (map fst (in_order p)) (map snd (in_order p)) tab with
  | WUndef => WUndef | WRet ok tab evs => WRet ok tab (EStartObject :: evs ++ if ok then [EEndObject] else [])
  end.
Proof.
  intros p ctx tab C. unfold write_object. rewrite object_counted, write_counted by assumption.
  destruct (wr_members _ _ _ _ _ _ tab) as [[|] tab1 evs|]; cbn; rewrite ?app_nil_r; reflexivity.
Qed.

Lemma write_dead : forall ctx a w f w1, write_step ctx a false w = inl (f, w1) -> f = false.
Proof. intros ctx [m g] [tab l] f w1 H. unfold write_step in H. cbn [fst snd] in H. destruct (wr_to_write m g) as [[h|]|]; congruence. Qed.

Lemma flat_write : forall p ctx tab tab' evs, write_object (Own (in_order p)) ctx tab = WRet true tab' evs -> write_object p ctx tab = WRet true tab' evs.
Proof.
  intros p ctx tab tab' evs H. unfold write_object in *. rewrite object_counted, in_order_own, uncopied_own, counted_together in H by apply chained_own.
  destruct (together (write_step ctx) (in_order p) true (tab, [EStartObject])) as [[[|] [tab1 evs1]]|x] eqn:E; [|discriminate|discriminate].
  unfold persist_object. destruct (call_success _ (write_dead ctx) p 0 [true] _ _ (Forall_cons _ eq_refl (Forall_nil _)) E) as (r & a & -> & F). now rewrite all_true.
Qed.

Lemma flat_write_fails : forall p ctx tab tab' evs, chained p -> write_object (Own (in_order p)) ctx tab = WRet false tab' evs ->
  let first := write_object (Own (firstn (uncopied p) (in_order p))) ctx tab in
  first = WRet false tab' evs /\ write_object p ctx tab = WRet false tab' evs \/
  (exists tab1 evs1, first = WRet true tab1 evs1) /\ write_object p ctx tab = WRet true tab' (evs ++ [EEndObject]).
Proof.
  intros p ctx tab tab' evs C H. cbn zeta. rewrite write_own in H. rewrite (write_derived p), write_own by assumption.
  pose proof (like_members ctx (in_order p) (List.length (in_order p)) _ (uncopied p) tab (le_n _) (le_n _)) as L.
  destruct (wr_members ctx (List.length (in_order p)) true true _ _ tab) as [[|] tab1 evs1|]; [discriminate| |discriminate].
  injection H as <- <-. cbn in L. destruct L as [[-> ->]|[-> (tab2 & evs2 & ->)]]; [left; now split|right]. split; [now eexists _, _|]. rewrite app_nil_r. reflexivity.
Qed.

(** The values read do not depend on the flags. *)
Lemma deserialize_flags : forall e exc fs ctx loc a f1 f2 w,
  match deserialize_step e exc fs ctx loc a f1 w with
  | inl (_, w1) => exists f, deserialize_step e exc fs ctx loc a f2 w = inl (f, w1)
  | inr x => deserialize_step e exc fs ctx loc a f2 w = inr x
  end.
Proof.
  intros e exc fs ctx loc [m v] f1 f2 [st l]. unfold deserialize_step. cbn [fst snd]. unfold read_member.
  destruct (find_fun fs 0 (m_name m)) as [[k f]|]; destruct (m_kind m); try destruct exc;
    repeat match goal with |- context [match f ?a ?b ?c ?d ?x ?y with _ => _ end] => destruct (f a b c d x y) end; eauto.
Qed.

Lemma flat_deserialize : forall e exc fs p ctx loc st,
  match deserialize_object e exc fs (Own (in_order p)) ctx loc st with
  | DRet _ st' v => exists ok, deserialize_object e exc fs p ctx loc st = DRet ok st' v
  | r => deserialize_object e exc fs p ctx loc st = r
  end.
Proof.
  intros e exc fs p ctx loc st. unfold deserialize_object, persist_object.
  pose proof (call_flags _ (deserialize_flags e exc fs ctx loc) p 0 [true] true (st, [])) as P.
  pose proof (call_flags _ (deserialize_flags e exc fs ctx loc) (Own (in_order p)) 0 [true] true (st, [])) as O. rewrite in_order_own in O.
  destruct (together (deserialize_step e exc fs ctx loc) (in_order p) true (st, [])) as [[f [st1 l]]|x].
  - destruct P as (r & a & ->), O as (r2 & a2 & ->). now eexists.
  - rewrite P, O. destruct x; eauto.
Qed.
