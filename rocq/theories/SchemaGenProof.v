(** The schemas of types: when there is one, and what its references refer to. *)
From Coq Require Import List Arith ZArith NArith Ascii String Bool Lia Sorted Relations Transitive_Closure.
From Verif Require Import Base NumericModel Json Types MapFacts SchemaModel SchemaSpec SchemaProof SchemaGenSpec.
Import ListNotations.
Local Open Scope string_scope.
Local Open Scope nat_scope.

Section Gen.
Variable e : env.
Variable tn : nat -> string.

(** * The fuel *)

(** What a generator gives once it does give something. *)
Definition same_answer {A} (x y : gres A) : Prop := x = GDeep \/ x = y.

Lemma gbind_same : forall A B (x y : gres A) (f g : A -> definitions -> gres B), same_answer x y -> (forall a d, same_answer (f a d) (g a d)) -> same_answer (gbind x f) (gbind y g).
Proof. intros A B x y f g [-> | ->] H; [now left|]. destruct y; cbn; [apply H|now left|now right]. Qed.

Lemma gen_all_same : forall f g ts, (forall t d, same_answer (f t d) (g t d)) -> forall d, same_answer (gen_all f ts d) (gen_all g ts d).
Proof. intros f g ts H. induction ts as [|t ts IH]; intros d; cbn [gen_all]; [now right|]. apply gbind_same; [apply H|]. intros. apply gbind_same; [apply IH|]. now right. Qed.

Lemma visit_same : forall f g ms, (forall t d, same_answer (f t d) (g t d)) -> forall d, same_answer (visit f ms d) (visit g ms d).
Proof.
  intros f g ms H. induction ms as [|m ms IH]; intros d; cbn [visit]; [now right|].
  destruct (m_kind m); [|now right|]; (apply gbind_same; [apply H|]; intros; apply gbind_same; [apply IH|]; now right).
Qed.

Lemma gen_same : forall n m inline t d, n <= m -> same_answer (gen e tn n inline t d) (gen e tn m inline t d).
Proof.
  induction n as [|n IH]; intros m inline t d L; [now left|]. destruct m as [|m]; [lia|]. assert (L' : n <= m) by lia.
  assert (R : forall A (x : gres A), same_answer x x) by now right.
  cbn [gen]. destruct t; try apply R;
    try (apply gbind_same; [first [now apply IH|apply gen_all_same; intros; now apply IH|apply visit_same; intros; now apply IH]|intros; apply R]).
  - destruct (context_aware t); [now apply IH|apply R].
  - destruct (context_aware t); [now apply IH|apply R].
Qed.

Lemma gen_more : forall n m inline t d s d', gen e tn n inline t d = GOk s d' -> n <= m -> gen e tn m inline t d = GOk s d'.
Proof. intros n m inline t d s d' E L. destruct (gen_same n m inline t d L) as [X|X]; congruence. Qed.

(** * Types with a schema *)

Lemma aware_compound : forall t, context_aware t = true <-> compound t.
Proof. intros []; cbn; split; intros; auto; try discriminate; contradiction. Qed.

Lemma gen_all_ok : forall f ts, Forall (fun t => forall d, exists s d', f t d = GOk s d') ts -> forall d, exists ss d', gen_all f ts d = GOk ss d'.
Proof.
  intros f ts F. induction F as [|t ts H F IH]; intros d; cbn [gen_all]; [eauto|]. destruct (H d) as (s & d1 & ->). cbn [gbind]. destruct (IH d1) as (ss & d2 & ->). cbn. eauto.
Qed.

Lemma visit_ok : forall f ms, Forall (fun m => m_kind m <> MDefault /\ forall d, exists s d', f (m_ty m) d = GOk s d') ms -> forall d, exists r d', visit f ms d = GOk r d'.
Proof.
  intros f ms F. induction F as [|m ms [K H] F IH]; intros d; cbn [visit]; [eauto|]. destruct (H d) as (s & d1 & E).
  destruct (m_kind m); [|congruence|]; rewrite E; cbn [gbind]; destruct (IH d1) as (ss & d2 & ->); cbn; eauto.
Qed.

Definition answers (n : nat) (t : ty) : Prop := forall inline d, exists s d', gen e tn n inline t d = GOk s d'.

Lemma answers_more : forall n m t, answers n t -> n <= m -> answers m t.
Proof. intros n m t A L inline d. destruct (A inline d) as (s & d' & E). exists s, d'. now apply (gen_more n). Qed.

Lemma answers_all : forall ts, (forall u, In u ts -> exists n, answers n u) -> exists n, forall u, In u ts -> answers n u.
Proof.
  induction ts as [|t ts IH]; intros H; [exists 0; intros u []|]. destruct (H t) as (a & A); [now left|]. destruct IH as (b & B); [intros; apply H; now right|].
  exists (a + b). intros u [<-|I]; [apply (answers_more a); [assumption|lia]|apply (answers_more b); [auto|lia]].
Qed.

Lemma describable_answers : forall t, describable e t -> exists n, answers n t.
Proof.
  fix IH 2. intros t [Su De]. assert (Q : exists n, forall u, In u (inner e t) -> answers n u) by (apply answers_all; intros u I; apply IH, De, I).
  destruct Q as (n & Q). exists (S n). intros inline d. cbn [gen].
  assert (All : forall ts, (forall u, In u ts -> answers n u) -> forall d, exists ss d', gen_all (gen e tn n false) ts d = GOk ss d').
  { intros ts H. apply gen_all_ok, Forall_forall. intros u I d0. apply (H u I). }
  destruct t; try (eexists; eexists; reflexivity); cbn [inner] in Q;
    try (destruct (Q t (or_introl eq_refl) false d) as (s & d' & ->); cbn [gbind]; eexists; eexists; reflexivity);
    try (match goal with |- context [gen_all _ ?ts _] => destruct (All ts Q d) as (ss & d' & ->) end; cbn [gbind]; eexists; eexists; reflexivity).
  - destruct (visit_ok (gen e tn n false) (c_members (class_of e c))) with (d := d) as (r & d' & ->).
    + apply Forall_forall. intros m I. split; [now apply Su|]. intros d0. apply (Q (m_ty m)). now apply in_map.
    + cbn [gbind]. destruct inline; eexists; eexists; reflexivity.
  - cbn in Su. apply aware_compound in Su. rewrite Su. apply (Q t (or_introl eq_refl)).
  - cbn in Su. apply aware_compound in Su. rewrite Su. apply (Q t (or_introl eq_refl)).
  - destruct Su.
Qed.

Lemma gen_all_each : forall f ts d ss d', gen_all f ts d = GOk ss d' -> forall t, In t ts -> exists d0 s d1, f t d0 = GOk s d1.
Proof.
  intros f ts. induction ts as [|t ts IH]; intros d ss d' E u I; [destruct I|]. cbn [gen_all] in E. destruct (f t d) as [s d1| |] eqn:E1; cbn in E; try discriminate.
  destruct (gen_all f ts d1) as [ss' d2| |] eqn:E2; cbn in E; try discriminate. destruct I as [<-|I]; [eauto|]. eapply IH; eauto.
Qed.

Lemma visit_each : forall f ms d r d', visit f ms d = GOk r d' -> forall m, In m ms -> m_kind m <> MDefault /\ exists d0 s d1, f (m_ty m) d0 = GOk s d1.
Proof.
  intros f ms. induction ms as [|m ms IH]; intros d r d' E u I; [destruct I|]. cbn [visit] in E.
  assert (Q : m_kind m <> MDefault /\ exists s d1 r d2, f (m_ty m) d = GOk s d1 /\ visit f ms d1 = GOk r d2).
  { destruct (m_kind m); [|discriminate|]; (split; [discriminate|]); destruct (f (m_ty m) d) as [s d1| |] eqn:E1; cbn in E; try discriminate;
      destruct (visit f ms d1) as [ss' d2| |] eqn:E2; cbn in E; try discriminate; eauto 8. }
  destruct Q as (K & s & d1 & r' & d2 & E1 & E2). destruct I as [<-|I]; [eauto|]. eapply IH; eauto.
Qed.

Lemma gen_describable : forall n inline t d s d', gen e tn n inline t d = GOk s d' -> describable e t.
Proof.
  induction n as [|n IH]; intros inline t d s d' E; [discriminate|]. cbn [gen] in E.
  assert (One : forall A (x : gres A) B (f : A -> definitions -> gres B) b d', gbind x f = GOk b d' -> exists a d1, x = GOk a d1).
  { intros A x B f b d2 X. destruct x; try discriminate. eauto. }
  destruct t; constructor; unfold within; cbn [supported inner]; try exact I; try solve [intros u []]; try discriminate E.
  all: try (apply One in E; destruct E as (a0 & d1 & E); intros u [<-|[]]; eapply IH; exact E).
  all: try (apply One in E; destruct E as (a0 & d1 & E); intros u I; destruct (gen_all_each _ _ _ _ _ E _ I) as (d2 & s' & d3 & E'); eapply IH; exact E').
  - apply One in E. destruct E as (r & d1 & E). intros m I. now destruct (visit_each _ _ _ _ _ E _ I).
  - apply One in E. destruct E as (r & d1 & E). intros u I. apply in_map_iff in I. destruct I as (m & <- & I). destruct (visit_each _ _ _ _ _ E _ I) as (_ & d2 & s' & d3 & E').
    eapply IH. exact E'.
  - apply aware_compound. destruct (context_aware t); [reflexivity|discriminate].
  - destruct (context_aware t); [|discriminate]. intros u [<-|[]]. eapply IH. exact E.
  - apply aware_compound. destruct (context_aware t); [reflexivity|discriminate].
  - destruct (context_aware t); [|discriminate]. intros u [<-|[]]. eapply IH. exact E.
Qed.

(** * Recursive types *)

Lemma describable_acc : forall t, describable e t -> Acc (within e) t.
Proof. fix IH 2. intros t [_ De]. constructor. intros u W. apply IH, De, W. Qed.

Lemma describable_within : forall u t, reachable e u t -> describable e t -> describable e u.
Proof. intros u t R. induction R; auto. intros []. auto. Qed.

Lemma describable_not_recursive : forall t u, describable e t -> reachable e u t -> ~ deep_within e u u.
Proof.
  intros t u D R C. apply (describable_within _ _ R) in D. apply describable_acc, Acc_clos_trans in D. clear R t.
  induction D as [u _ IH]. exact (IH u C C).
Qed.

(** There are finitely many classes: without a cycle every way down ends. *)
Lemma acyclic_describable : forall k visited t, List.length (classes e) - List.length visited = k -> NoDup visited -> (forall v, In v visited -> v < List.length (classes e)) ->
  (forall v, In v visited -> deep_within e t (TClass v)) ->
  (forall u, reachable e u t -> supported e u) -> (forall u, reachable e u t -> ~ deep_within e u u) -> describable e t.
Proof.
  clear tn. induction k as [k IHk] using (well_founded_induction lt_wf). intros visited t K Nd Lt.
  assert (Su1 : forall (P : ty -> Prop) u t, within e u t -> (forall w, reachable e w t -> P w) -> forall w, reachable e w u -> P w).
  { intros P u t0 W H w R. apply H. eapply rt_trans; [exact R|now apply rt_step]. }
  assert (Go : forall t, (forall u, within e u t ->
      ((forall v, In v visited -> deep_within e u (TClass v)) -> (forall w, reachable e w u -> supported e w) -> (forall w, reachable e w u -> ~ deep_within e w w) -> describable e u)) ->
    (forall v, In v visited -> deep_within e t (TClass v)) -> (forall u, reachable e u t -> supported e u) -> (forall u, reachable e u t -> ~ deep_within e u u) -> describable e t).
  { intros t0 H Vi Su Ac. constructor; [apply Su, rt_refl|]. intros u W. apply H; [exact W| |exact (Su1 (supported e) u t0 W Su)|exact (Su1 (fun w => ~ deep_within e w w) u t0 W Ac)].
    intros v I. eapply t_trans; [apply t_step; exact W|exact (Vi v I)]. }
  induction t using ty_ind'; try (apply Go; unfold within; cbn [inner]; first [intros ? []; fail|intros u [<-|[]]; assumption|intros u [<-|[<-|[]]]; assumption|
    intros u I; match goal with H : Forall _ _ |- _ => rewrite Forall_forall in H; now apply H end]).
  intros Vi Su Ac. constructor; [apply Su, rt_refl|]. intros u W.
  assert (L : c < List.length (classes e)).
  { destruct (Nat.lt_ge_cases c (List.length (classes e))) as [L|L]; [exact L|]. unfold within in W. cbn [inner] in W. unfold class_of in W. rewrite nth_overflow in W by exact L. destruct W. }
  destruct (in_dec Nat.eq_dec c visited) as [J|J]; [destruct (Ac (TClass c) (rt_refl _ _ _) (Vi _ J))|].
  assert (Nd' : NoDup (c :: visited)) by now constructor. assert (Lt' : forall v, In v (c :: visited) -> v < List.length (classes e)) by (intros v [<-|Q]; auto).
  assert (Le : List.length (c :: visited) <= List.length (classes e)).
  { rewrite <- (seq_length (List.length (classes e)) 0). apply NoDup_incl_length; [exact Nd'|]. intros v Q. apply in_seq. specialize (Lt' v Q). lia. }
  apply (IHk (List.length (classes e) - List.length (c :: visited))) with (visited := c :: visited); auto.
  - cbn [List.length] in *. lia.
  - intros v [<-|Q]; [now apply t_step|]. eapply t_trans; [apply t_step; exact W|exact (Vi v Q)].
  - exact (Su1 (supported e) u _ W Su).
  - exact (Su1 (fun w => ~ deep_within e w w) u _ W Ac).
Qed.

Lemma supported_valid : forall n inline t d, (forall u, reachable e u t -> supported e u) -> gen e tn n inline t d <> GInvalid.
Proof.
  induction n as [|n IH]; intros inline t d H; [discriminate|]. assert (Ht : supported e t) by (apply H, rt_refl).
  assert (Hi : forall u, In u (inner e t) -> forall i d, gen e tn n i u d <> GInvalid).
  { intros u I i d0. apply IH. intros w R. apply H. eapply rt_trans; [exact R|]. now apply rt_step. }
  assert (All : forall ts, (forall u, In u ts -> In u (inner e t)) -> forall d, gen_all (gen e tn n false) ts d <> GInvalid).
  { clear H d. induction ts as [|u ts IHt]; intros Hs d; cbn [gen_all]; [discriminate|]. assert (X := Hi u (Hs u (or_introl eq_refl)) false d).
    destruct (gen e tn n false u d) as [s d1| |]; cbn [gbind]; [|discriminate|congruence]. assert (Y : gen_all (gen e tn n false) ts d1 <> GInvalid) by (apply IHt; intros; apply Hs; now right).
    destruct (gen_all (gen e tn n false) ts d1); cbn; try discriminate. congruence. }
  assert (Bi : forall A B (x : gres A) (f : A -> definitions -> gres B), x <> GInvalid -> (forall a d, f a d <> GInvalid) -> gbind x f <> GInvalid).
  { intros A B x f X Y. destruct x; cbn; [apply Y|discriminate|congruence]. }
  cbn [gen]. destruct t; try discriminate; cbn [inner] in *;
    try (apply Bi; [first [apply Hi; now left|apply All; auto]|intros; discriminate]).
  - apply Bi; [|intros; destruct inline; discriminate].
    assert (V : forall ms, (forall m, In m ms -> In m (c_members (class_of e c))) -> forall d, visit (gen e tn n false) ms d <> GInvalid).
    { clear H d. induction ms as [|m ms IHm]; intros Hs d; cbn [visit]; [discriminate|]. assert (K := Ht m (Hs m (or_introl eq_refl))).
      assert (X := Hi (m_ty m) (in_map m_ty _ _ (Hs m (or_introl eq_refl))) false d).
      destruct (m_kind m); [|congruence|]; (apply Bi; [exact X|]; intros; apply Bi; [apply IHm; intros; apply Hs; now right|discriminate]). }
    now apply V.
  - cbn in Ht. apply aware_compound in Ht. rewrite Ht. apply Hi. now left.
  - cbn in Ht. apply aware_compound in Ht. rewrite Ht. apply Hi. now left.
  - destruct Ht.
Qed.

(** * The definitions do not change the schema *)

Lemma gen_all_indep : forall f ts, (forall t d s d1, f t d = GOk s d1 -> forall d', exists d2, f t d' = GOk s d2) ->
  forall d ss d1, gen_all f ts d = GOk ss d1 -> forall d', exists d2, gen_all f ts d' = GOk ss d2.
Proof.
  intros f ts H. induction ts as [|t ts IH]; intros d ss d1 E d'; cbn [gen_all] in *; [injection E as <- _; eauto|].
  destruct (f t d) as [s d2| |] eqn:E1; cbn in E; try discriminate. destruct (gen_all f ts d2) as [ss' d3| |] eqn:E2; cbn in E; try discriminate. injection E as <- <-.
  destruct (H _ _ _ _ E1 d') as (d4 & ->). cbn [gbind]. destruct (IH _ _ _ E2 d4) as (d5 & ->). cbn. eauto.
Qed.

Lemma visit_indep : forall f ms, (forall t d s d1, f t d = GOk s d1 -> forall d', exists d2, f t d' = GOk s d2) ->
  forall d r d1, visit f ms d = GOk r d1 -> forall d', exists d2, visit f ms d' = GOk r d2.
Proof.
  intros f ms H. induction ms as [|m ms IH]; intros d r d1 E d'; cbn [visit] in *; [injection E as <- _; eauto|].
  destruct (m_kind m); [|discriminate|]; (destruct (f (m_ty m) d) as [s d2| |] eqn:E1; cbn in E; try discriminate;
    destruct (visit f ms d2) as [ss' d3| |] eqn:E2; cbn in E; try discriminate; injection E as <- <-;
    destruct (H _ _ _ _ E1 d') as (d4 & ->); cbn [gbind]; destruct (IH _ _ _ E2 d4) as (d5 & ->); cbn; eauto).
Qed.

Lemma gen_indep : forall n inline t d s d1, gen e tn n inline t d = GOk s d1 -> forall d', exists d2, gen e tn n inline t d' = GOk s d2.
Proof.
  induction n as [|n IH]; intros inline t d s d1 E d'; [discriminate|]. cbn [gen] in *.
  assert (Bi : forall A (f : definitions -> gres A) (g : A -> jschema) (h : A -> definitions -> definitions), (forall d a d1, f d = GOk a d1 -> forall d', exists d2, f d' = GOk a d2) ->
    gbind (f d) (fun a d => GOk (g a) (h a d)) = GOk s d1 -> exists d2, gbind (f d') (fun a d => GOk (g a) (h a d)) = GOk s d2).
  { intros A f g h H X. destruct (f d) as [a d2| |] eqn:F; cbn in X; try discriminate. injection X as <- _. destruct (H _ _ _ F d') as (d3 & ->). cbn. eauto. }
  destruct t; try (injection E as <- _; eauto; fail); try discriminate E;
    try (first [apply (Bi _ _ (fun a => _) (fun _ d => d)); [|exact E]]; intros ? ? ? X; first [eapply IH; exact X|eapply gen_all_indep; [intros ? ? ? ? Y; eapply IH; exact Y|exact X]]).
  - destruct (visit (gen e tn n false) (c_members (class_of e c)) d) as [r d2| |] eqn:E1; cbn in E; try discriminate.
    destruct (visit_indep (gen e tn n false) (c_members (class_of e c)) (IH false) _ _ _ E1 d') as (d3 & ->). cbn. destruct inline; injection E as <- _; eauto.
  - destruct (context_aware t); [|discriminate]. eapply IH; exact E.
  - destruct (context_aware t); [|discriminate]. eapply IH; exact E.
Qed.

Lemma gen_unique : forall n m inline t d d' s s' d1 d1', gen e tn n inline t d = GOk s d1 -> gen e tn m inline t d' = GOk s' d1' -> s = s'.
Proof.
  intros n m inline t d d' s s' d1 d1' E E'. destruct (gen_indep _ _ _ _ _ _ E d') as (d2 & E2).
  apply (gen_more _ (n + m)) in E2; [|lia]. apply (gen_more _ (n + m)) in E'; [|lia]. congruence.
Qed.

(** * References *)

Fixpoint refs (s : jschema) : list string :=
  match s with
  | SRef n => [n]
  | SArray items prefix _ _ _ => (match items with Some s => refs s | None => [] end) ++ match prefix with Some l => flat_map refs l | None => [] end
  | SObject props _ additional => (match props with Some l => flat_map (fun p => refs (snd p)) l | None => [] end) ++ match additional with Some (inr s) => refs s | _ => [] end
  | SOneOf l => flat_map refs l
  | _ => []
  end.

Definition known (d : definitions) (k : string) : Prop := exists s, def_find d k = Some s.

Record consistent (d : definitions) : Prop := {
  con_sorted : def_sorted d;
  con_closed : forall k s, def_find d k = Some s -> forall r, In r (refs s) -> known d r;
  con_class : forall k s, def_find d k = Some s -> exists c m d1, k = tn c /\ gen e tn m true (TClass c) [] = GOk s d1 }.

(** From the definitions [d] to [d'], where the references are [R]. *)
Record step (R : list string) (d d' : definitions) : Prop := {
  st_con : consistent d';
  st_sub : sub d d';
  st_known : forall r, In r R -> known d' r;
  st_used : forall k, known d' k -> known d k \/ In k R \/ exists k2 s2, def_find d' k2 = Some s2 /\ In k (refs s2) }.

Lemma known_sub : forall d d' k, sub d d' -> known d k -> known d' k.
Proof. intros d d' k B (s & F). exists s. now apply B. Qed.

Lemma step_none : forall d, consistent d -> step [] d d.
Proof. intros d C. constructor; [assumption|intros ? ?; auto|intros r []|auto]. Qed.

Lemma step_trans : forall R R' d d1 d2, step R d d1 -> step R' d1 d2 -> step (R ++ R') d d2.
Proof.
  intros R R' d d1 d2 [C B K U] [C' B' K' U']. constructor; [assumption|intros ? ? ?; auto| |].
  - intros r I. apply in_app_or in I. destruct I as [I|I]; [|auto]. eapply known_sub; eauto.
  - intros k X. destruct (U' k X) as [Y|[Y|Y]]; [|right; left; apply in_or_app; auto|auto].
    destruct (U k Y) as [Z|[Z|(k2 & s2 & F & Z)]]; [auto|right; left; apply in_or_app; auto|]. right. right. exists k2, s2. auto.
Qed.

Definition steps {A} (f : definitions -> gres A) (R : A -> list string) : Prop := forall d a d', consistent d -> f d = GOk a d' -> step (R a) d d'.

Lemma gen_all_steps : forall f ts, (forall t, steps (f t) refs) -> steps (gen_all f ts) (flat_map refs).
Proof.
  intros f ts H. induction ts as [|t ts IH]; intros d a d' C E; cbn in E; [injection E as <- <-; now apply step_none|].
  destruct (f t d) as [s d1| |] eqn:E1; cbn in E; try discriminate. destruct (gen_all f ts d1) as [ss d2| |] eqn:E2; cbn in E; try discriminate.
  injection E as <- <-. assert (S1 := H _ _ _ _ C E1). cbn. apply (step_trans _ _ _ _ _ S1). apply IH; [apply S1|exact E2].
Qed.

Lemma visit_steps : forall f ms, (forall t, steps (f t) refs) -> steps (visit f ms) (fun r => flat_map (fun p => refs (snd p)) (fst r)).
Proof.
  intros f ms H. induction ms as [|m ms IH]; intros d a d' C E; cbn in E; [injection E as <- <-; now apply step_none|].
  destruct (m_kind m); [|discriminate|]; (destruct (f (m_ty m) d) as [s d1| |] eqn:E1; cbn in E; try discriminate;
    destruct (visit f ms d1) as [ss d2| |] eqn:E2; cbn in E; try discriminate; injection E as <- <-; assert (S1 := H _ _ _ _ C E1); cbn; apply (step_trans _ _ _ _ _ S1);
    apply IH; [apply S1|exact E2]).
Qed.

Hypothesis Hinj : forall c c', tn c = tn c' -> c = c'.

Lemma gen_steps : forall n inline t, steps (gen e tn n inline t) refs.
Proof.
  induction n as [|n IH]; intros inline t d s d' C E; [discriminate|].
  assert (E0 := E). cbn [gen] in E.
  assert (Bi : forall A (x : definitions -> gres A) (f : A -> jschema) R, steps x R -> (forall a, refs (f a) = R a) ->
    gbind (x d) (fun a d => GOk (f a) d) = GOk s d' -> step (refs s) d d').
  { intros A x f R H Q X. destruct (x d) as [a d1| |] eqn:F; cbn in X; try discriminate. injection X as <- <-. rewrite Q. now apply H. }
  assert (Nil : forall s : list string, (s ++ [] = s)%list) by (intros; apply app_nil_r).
  destruct t; try (injection E as <- <-; try destruct (is_signed _); now apply step_none); try discriminate E;
    try (eapply Bi; [| |exact E]; [first [apply (IH false)|apply gen_all_steps; intros; apply IH]|intros; cbn [refs]; rewrite ?Nil; reflexivity]).
  - destruct (visit (gen e tn n false) (c_members (class_of e c)) d) as [r d1| |] eqn:E1; cbn in E; try discriminate.
    assert (S1 := visit_steps _ (c_members (class_of e c)) (IH false) _ _ _ C E1). cbn beta in S1.
    destruct inline; [injection E as <- <-; cbn [refs]; now rewrite Nil|].
    set (sc := SObject (Some (fst r)) (Some (snd r)) (Some (inl false))) in *. injection E as <- <-.
    destruct S1 as [[So Cl Cc] B K U].
    assert (G : forall d0, exists d2, gen e tn (S n) true (TClass c) d0 = GOk sc d2).
    { intros d0. apply (gen_indep (S n) true (TClass c) d sc d1). cbn [gen]. rewrite E1. reflexivity. }
    assert (F : def_find (def_insert d1 (tn c) sc) (tn c) = Some sc).
    { rewrite def_find_insert, String.eqb_refl by assumption. destruct (def_find d1 (tn c)) as [s'|] eqn:F; [|reflexivity].
      destruct (Cc _ _ F) as (c' & m & d2 & X & Y). apply Hinj in X. subst c'. destruct (G []) as (d3 & Z). f_equal. eapply gen_unique; [exact Y|exact Z]. }
    assert (Ext : forall k s', def_find (def_insert d1 (tn c) sc) k = Some s' -> (k = tn c /\ s' = sc) \/ def_find d1 k = Some s').
    { intros k s' X. destruct (String.eqb_spec (tn c) k) as [<-|N]; [left; split; [reflexivity|congruence]|]. rewrite def_find_insert in X by assumption.
      destruct (String.eqb_spec (tn c) k); [congruence|auto]. }
    assert (B2 := sub_insert d1 (tn c) sc So). assert (Rs : refs sc = flat_map (fun p => refs (snd p)) (fst r)) by (cbn; apply Nil).
    constructor.
    + constructor; [now apply def_insert_sorted| |].
      * intros k s' X q I. apply (known_sub d1); [exact B2|]. destruct (Ext _ _ X) as [[-> ->]|Y]; [|eapply Cl; eauto]. rewrite Rs in I. auto.
      * intros k s' X. destruct (Ext _ _ X) as [[-> ->]|Y]; [|auto]. destruct (G []) as (d3 & Z). eauto 6.
    + eapply sub_trans; eauto.
    + intros q [<-|[]]. eexists. exact F.
    + intros k (s' & X). destruct (Ext _ _ X) as [[-> ->]|Y]; [right; left; now left|].
      destruct (U k) as [Z|[Z|(k2 & s2 & F2 & Z)]]; [now exists s'|auto| |].
      * right. right. exists (tn c), sc. now rewrite Rs.
      * right. right. exists k2, s2. auto.
  - destruct (context_aware t); [|discriminate]. now apply (IH _ _ _ _ _ C E).
  - destruct (context_aware t); [|discriminate]. now apply (IH _ _ _ _ _ C E).
Qed.
End Gen.

(** * Rendered schemas *)

Definition name_ref (n : string) : string := "#/definitions/" ++ n.

Lemma refers_inv : forall kws r, refers (JObj kws) r <->
  In ("$ref", JStr r) kws \/
  (exists k x, In (k, x) kws /\ In k ["items"; "additionalProperties"] /\ refers x r) \/
  (exists k l x, In (k, JArr l) kws /\ In k ["prefixItems"; "oneOf"] /\ In x l /\ refers x r) \/
  (exists k l n x, In (k, JObj l) kws /\ In k ["properties"; "definitions"] /\ In (n, x) l /\ refers x r).
Proof.
  intros kws r. split.
  - intros (ks & S & I). inversion S; subst; [now left| | |]; right; [left|right; left|right; right]; repeat eexists; eauto.
  - intros [I|[(k & x & I & K & ks & S & J)|[(k & l & x & I & K & L & ks & S & J)|(k & l & n & x & I & K & L & ks & S & J)]]].
    + exists kws. split; [constructor|exact I].
    + exists ks. split; [eapply sub_keyword; eauto|exact J].
    + exists ks. split; [eapply sub_list; eauto|exact J].
    + exists ks. split; [eapply sub_member; eauto|exact J].
Qed.

Definition rendered (s : jschema) : Prop := forall r, refers (render s) r <-> exists n, In n (refs s) /\ r = name_ref n.

Lemma refers_cons : forall p kws r, refers (JObj (p :: kws)) r <-> refers (JObj [p]) r \/ refers (JObj kws) r.
Proof.
  intros p kws r. rewrite !refers_inv. split.
  - intros [I|[(k & x & I & H)|[(k & l & x & I & H)|(k & l & n & x & I & H)]]]; (destruct I as [I|I]; [left|right]).
    + left. now left.
    + now left.
    + right. left. exists k, x. split; [now left|exact H].
    + right. left. exists k, x. now split.
    + right. right. left. exists k, l, x. split; [now left|exact H].
    + right. right. left. exists k, l, x. now split.
    + right. right. right. exists k, l, n, x. split; [now left|exact H].
    + right. right. right. exists k, l, n, x. now split.
  - intros [[I|[(k & x & I & H)|[(k & l & x & I & H)|(k & l & n & x & I & H)]]]|[I|[(k & x & I & H)|[(k & l & x & I & H)|(k & l & n & x & I & H)]]]].
    + left. destruct I as [I|[]]. now left.
    + right. left. exists k, x. split; [destruct I as [I|[]]; now left|exact H].
    + right. right. left. exists k, l, x. split; [destruct I as [I|[]]; now left|exact H].
    + right. right. right. exists k, l, n, x. split; [destruct I as [I|[]]; now left|exact H].
    + left. now right.
    + right. left. exists k, x. split; [now right|exact H].
    + right. right. left. exists k, l, x. split; [now right|exact H].
    + right. right. right. exists k, l, n, x. split; [now right|exact H].
Qed.

Lemma refers_nil : forall r, ~ refers (JObj []) r.
Proof. intros r H. apply refers_inv in H. destruct H as [[]|[(k & x & [] & _)|[(k & l & x & [] & _)|(k & l & n & x & [] & _)]]]. Qed.

Lemma refers_app : forall l l' r, refers (JObj (l ++ l')) r <-> refers (JObj l) r \/ refers (JObj l') r.
Proof.
  induction l as [|p l IH]; intros l' r; cbn [app].
  - split; [auto|intros [H|H]; [destruct (refers_nil _ H)|exact H]].
  - rewrite refers_cons, IH, (refers_cons p l). tauto.
Qed.

Lemma one_ref : forall x r, refers (JObj [("$ref", JStr x)]) r <-> r = x.
Proof.
  intros x r. rewrite refers_inv. split.
  - intros [[I|[]]|[(k & y & [I|[]] & H)|[(k & l & y & [I|[]] & H)|(k & l & n & y & [I|[]] & H)]]]; injection I; intros; subst; try reflexivity; try discriminate.
    all: destruct H as [[X|[X|[]]] _]; discriminate X.
  - intros ->. left. now left.
Qed.

Definition schema_keyword (k : string) : Prop := In k ["$ref"; "items"; "additionalProperties"; "prefixItems"; "oneOf"; "properties"; "definitions"].

Lemma one_plain : forall k x r, ~ schema_keyword k -> ~ refers (JObj [(k, x)]) r.
Proof.
  intros k x r N H. apply refers_inv in H. apply N. unfold schema_keyword.
  destruct H as [[I|[]]|[(k' & y & [I|[]] & H)|[(k' & l & y & [I|[]] & H)|(k' & l & n & y & [I|[]] & H)]]]; injection I; intros; subst; [now left| | |].
  all: destruct H as [[<-|[<-|[]]] _]; cbn; intuition.
Qed.

Lemma one_schema : forall k x r, In k ["items"; "additionalProperties"] -> refers (JObj [(k, x)]) r <-> refers x r.
Proof.
  intros k x r K. rewrite refers_inv. split.
  - intros [[I|[]]|[(k' & y & [I|[]] & H)|[(k' & l & y & [I|[]] & H)|(k' & l & n & y & [I|[]] & H)]]]; injection I; intros; subst.
    + destruct K as [K|[K|[]]]; discriminate K.
    + apply H.
    + destruct K as [<-|[<-|[]]]; destruct H as [[X|[X|[]]] _]; discriminate X.
    + destruct K as [<-|[<-|[]]]; destruct H as [[X|[X|[]]] _]; discriminate X.
  - intros H. right. left. exists k, x. split; [now left|auto].
Qed.

Lemma one_list : forall k l r, In k ["prefixItems"; "oneOf"] -> refers (JObj [(k, JArr l)]) r <-> exists x, In x l /\ refers x r.
Proof.
  intros k l r K. rewrite refers_inv. split.
  - intros [[I|[]]|[(k' & y & [I|[]] & H)|[(k' & l' & y & [I|[]] & H)|(k' & l' & n & y & [I|[]] & H)]]]; injection I; intros; subst; try discriminate.
    + destruct K as [<-|[<-|[]]]; destruct H as [[X|[X|[]]] _]; discriminate X.
    + exists y. tauto.
  - intros (x & I & H). right. right. left. exists k, l, x. split; [now left|auto].
Qed.

Lemma one_members : forall k l r, In k ["properties"; "definitions"] -> refers (JObj [(k, JObj l)]) r <-> exists n x, In (n, x) l /\ refers x r.
Proof.
  intros k l r K. rewrite refers_inv. split.
  - intros [[I|[]]|[(k' & y & [I|[]] & H)|[(k' & l' & y & [I|[]] & H)|(k' & l' & n & y & [I|[]] & H)]]]; injection I; intros; subst; try discriminate.
    + destruct K as [<-|[<-|[]]]; destruct H as [[X|[X|[]]] _]; discriminate X.
    + exists n, y. tauto.
  - intros (n & x & I & H). right. right. right. exists k, l, n, x. split; [now left|auto].
Qed.

Ltac plain := let X := fresh in intros X; cbn in X; intuition discriminate.

Lemma plain_cons : forall k x kws r, ~ schema_keyword k -> refers (JObj ((k, x) :: kws)) r <-> refers (JObj kws) r.
Proof. intros k x kws r N. rewrite refers_cons. split; [intros [H|H]; [destruct (one_plain _ _ _ N H)|exact H]|auto]. Qed.

Lemma plain_opt : forall A k (f : A -> json) o r, ~ schema_keyword k -> ~ refers (JObj (opt k f o)) r.
Proof. intros A k f [a|] r N; [now apply one_plain|apply refers_nil]. Qed.

Lemma list_rendered : forall l r, Forall rendered l -> (exists x, In x (map render l) /\ refers x r) <-> exists n, In n (flat_map refs l) /\ r = name_ref n.
Proof.
  intros l r F. rewrite Forall_forall in F. split.
  - intros (x & I & H). apply in_map_iff in I. destruct I as (s & <- & I). apply (F s I) in H. destruct H as (n & J & ->). exists n. split; [|reflexivity]. apply in_flat_map. eauto.
  - intros (n & I & ->). apply in_flat_map in I. destruct I as (s & I & J). exists (render s). split; [now apply in_map|]. apply (F s I). eauto.
Qed.

Lemma members_rendered : forall (l : list (string * jschema)) r, Forall (fun p => rendered (snd p)) l ->
  (exists n x, In (n, x) (map (fun p => (fst p, render (snd p))) l) /\ refers x r) <-> exists n, In n (flat_map (fun p => refs (snd p)) l) /\ r = name_ref n.
Proof.
  intros l r F. rewrite Forall_forall in F. split.
  - intros (k & x & I & H). apply in_map_iff in I. destruct I as ([k' s] & E & I). injection E as <- <-. apply (F _ I) in H. destruct H as (n & J & ->). exists n. split; [|reflexivity].
    apply in_flat_map. eauto.
  - intros (n & I & ->). apply in_flat_map in I. destruct I as ([k s] & I & J). exists k, (render s). split; [apply in_map_iff; exists (k, s); auto|]. apply (F _ I). eauto.
Qed.

Lemma in_two : forall (l l' : list string) r, (exists n, In n (l ++ l') /\ r = name_ref n) <-> (exists n, In n l /\ r = name_ref n) \/ exists n, In n l' /\ r = name_ref n.
Proof.
  intros l l' r. split.
  - intros (n & I & ->). apply in_app_or in I. destruct I; eauto.
  - intros [(n & I & ->)|(n & I & ->)]; exists n; (split; [apply in_or_app; auto|reflexivity]).
Qed.

Lemma in_none : forall r, ~ exists n, In n [] /\ r = name_ref n.
Proof. intros r (n & [] & _). Qed.

Lemma all_rendered : forall s, rendered s.
Proof.
  fix IH 1. intros s r. destruct s as [n|t f c|lo hi|hi|t|items prefix unique lo hi|props req additional|l]; cbn [render refs].
  - rewrite one_ref. split; [intros ->; exists n; split; [now left|reflexivity]|]. intros (n' & [<-|[]] & ->). reflexivity.
  - rewrite plain_cons, refers_app by plain. split; [|intros H; destruct (in_none _ H)]. intros [H|H]; exfalso; revert H; apply plain_opt; plain.
  - rewrite !plain_cons by plain. split; [intros H; destruct (refers_nil _ H)|intros H; destruct (in_none _ H)].
  - rewrite !plain_cons by plain. split; [intros H; destruct (refers_nil _ H)|intros H; destruct (in_none _ H)].
  - rewrite !plain_cons by plain. split; [intros H; destruct (refers_nil _ H)|intros H; destruct (in_none _ H)].
  - rewrite plain_cons, !refers_app, in_two by plain.
    assert (U : ~ refers (JObj (opt "uniqueItems" JBool unique)) r) by (apply plain_opt; plain).
    assert (V : ~ refers (JObj (opt "minItems" JNat lo)) r) by (apply plain_opt; plain).
    assert (W : ~ refers (JObj (opt "maxItems" JNat hi)) r) by (apply plain_opt; plain).
    assert (X : refers (JObj (opt "items" render items)) r <-> exists n, In n (match items with Some s => refs s | None => [] end) /\ r = name_ref n).
    { destruct items as [i|]; cbn [opt]; [rewrite one_schema by (cbn; auto); apply IH|]. split; [intros H; destruct (refers_nil _ H)|intros H; destruct (in_none _ H)]. }
    assert (Y : refers (JObj (opt "prefixItems" (fun l => JArr (map render l)) prefix)) r <-> exists n, In n (match prefix with Some l => flat_map refs l | None => [] end) /\ r = name_ref n).
    { destruct prefix as [l|]; cbn [opt]; [|split; [intros H; destruct (refers_nil _ H)|intros H; destruct (in_none _ H)]]. rewrite one_list by (cbn; auto). apply list_rendered.
      induction l as [|s l IHl]; constructor; [apply IH|exact IHl]. }
    tauto.
  - rewrite plain_cons, !refers_app, in_two by plain.
    assert (U : ~ refers (JObj (opt "required" (fun l => JArr (map JStr l)) req)) r) by (apply plain_opt; plain).
    assert (X : refers (JObj (opt "properties" (fun l => JObj (map (fun p => (fst p, render (snd p))) l)) props)) r <->
      exists n, In n (match props with Some l => flat_map (fun p => refs (snd p)) l | None => [] end) /\ r = name_ref n).
    { destruct props as [l|]; cbn [opt]; [|split; [intros H; destruct (refers_nil _ H)|intros H; destruct (in_none _ H)]]. rewrite one_members by (cbn; auto). apply members_rendered.
      induction l as [|[k s] l IHl]; constructor; [apply IH|exact IHl]. }
    assert (Y : refers (JObj (opt "additionalProperties" (fun a => match a with inl b => JBool b | inr s => render s end) additional)) r <->
      exists n, In n (match additional with Some (inr s) => refs s | _ => [] end) /\ r = name_ref n).
    { destruct additional as [[b|s]|]; cbn [opt]; [|rewrite one_schema by (cbn; auto); apply IH|].
      - rewrite one_schema by (cbn; auto). split; [|intros H; destruct (in_none _ H)]. intros (ks & H & _). inversion H.
      - split; [intros H; destruct (refers_nil _ H)|intros H; destruct (in_none _ H)]. }
    tauto.
  - rewrite one_list by (cbn; auto). apply list_rendered. induction l as [|s l IHl]; constructor; [apply IH|exact IHl].
Qed.

(** * The document *)

Lemma find_in : forall d k s, def_find d k = Some s -> In (k, s) d.
Proof. induction d as [|[n s'] d IH]; intros k s F; cbn in F; [discriminate|]. destruct (String.eqb_spec n k) as [<-|]; [injection F as <-; now left|right; auto]. Qed.

Lemma sorted_find : forall d k s, def_sorted d -> In (k, s) d -> def_find d k = Some s.
Proof.
  intros d k s S. induction S as [|[n s'] d S IH F]; intros I; [destruct I|]. cbn. destruct I as [E|I]; [injection E as <- <-; now rewrite String.eqb_refl|].
  destruct (String.eqb_spec n k) as [<-|]; [|auto]. rewrite Forall_forall in F. specialize (F _ I). cbn in F. now rewrite str_ltb_irrefl in F.
Qed.

Lemma sorted_names : forall d, def_sorted d -> NoDup (map fst d).
Proof.
  intros d S. induction S as [|[n s'] d S IH F]; [constructor|]. cbn. constructor; [|assumption]. intros I. apply in_map_iff in I. destruct I as ([k s] & E & I). cbn in E. subst k.
  rewrite Forall_forall in F. specialize (F _ I). cbn in F. now rewrite str_ltb_irrefl in F.
Qed.

Section Document.
Variable e : env.
Variable tn : nat -> string.
Hypothesis Hinj : forall c c', tn c = tn c' -> c = c'.
Hypothesis Hord : forall c, forallb ordinary_char (list_ascii_of_string (tn c)) = true.

Lemma document_parts : forall n t schema d, schema_document e tn n t = GOk schema d ->
  exists s, gen e tn n true t [] = GOk s d /\ step e tn (refs s) [] d /\
    schema = JObj (("$schema", JStr schema_version) :: (match d with [] => [] | _ => [("definitions", JObj (map (fun p => (fst p, render (snd p))) d))] end) ++ members_of (render s)).
Proof.
  intros n t schema d G. unfold schema_document in G. destruct (gen e tn n true t []) as [s d0| |] eqn:E; cbn [gbind] in G; try discriminate. injection G as <- <-.
  exists s. split; [reflexivity|]. split; [|reflexivity]. apply (gen_steps e tn Hinj n true t [] s d0); [|exact E]. constructor; [constructor| |]; intros k s' F; discriminate F.
Qed.

Lemma document_refers : forall n t s d schema r, gen e tn n true t [] = GOk s d -> step e tn (refs s) [] d ->
  schema = JObj (("$schema", JStr schema_version) :: (match d with [] => [] | _ => [("definitions", JObj (map (fun p => (fst p, render (snd p))) d))] end) ++ members_of (render s)) ->
  refers schema r <-> exists name, r = name_ref name /\ (In name (refs s) \/ exists k x, def_find d k = Some x /\ In name (refs x)).
Proof.
  intros n t s d schema r G St ->. rewrite plain_cons, refers_app by plain.
  assert (X : refers (JObj (members_of (render s))) r <-> refers (render s) r) by (destruct (render_members s) as (kws & -> & _); reflexivity).
  assert (Y : refers (JObj (match d with [] => [] | _ => [("definitions", JObj (map (fun p => (fst p, render (snd p))) d))] end)) r <->
    exists name, In name (flat_map (fun p => refs (snd p)) d) /\ r = name_ref name).
  { destruct d as [|p d0]; [split; [intros H; destruct (refers_nil _ H)|intros H; destruct (in_none _ H)]|]. rewrite one_members by (cbn; auto). apply members_rendered.
    apply Forall_forall. intros; apply all_rendered. }
  rewrite X, Y, (all_rendered s r). assert (So : def_sorted d) by apply St. split.
  - intros [(m & I & ->)|(m & I & ->)]; exists m; (split; [reflexivity|]); [right|now left]. apply in_flat_map in I. destruct I as ([k x] & I & J). exists k, x. split; [now apply sorted_find|exact J].
  - intros (m & -> & [I|(k & x & F & J)]); [right|left]; exists m; (split; [|reflexivity]); [exact I|]. apply in_flat_map. exists (k, x). split; [now apply find_in|exact J].
Qed.

Lemma document_defines : forall s d schema name x,
  schema = JObj (("$schema", JStr schema_version) :: (match d with [] => [] | _ => [("definitions", JObj (map (fun p => (fst p, render (snd p))) d))] end) ++ members_of (render s)) ->
  defines schema name x <-> exists sc, In (name, sc) d /\ x = render sc.
Proof.
  intros s d schema name x ->. destruct (render_members s) as (kws & -> & Nk). cbn [members_of]. split.
  - intros (ks & l & E & I & J). injection E as <-. destruct I as [I|I]; [discriminate I|]. apply in_app_or in I. destruct I as [I|I].
    + destruct d as [|p d0]; [destruct I|]. destruct I as [I|[]]. injection I as <-. apply (in_map_iff (fun p : string * jschema => (fst p, render (snd p))) (p :: d0)) in J. destruct J as ([k sc] & E & J). injection E as <- <-. eauto.
    + exfalso. revert Nk I. clear. induction kws as [|[k y] kws IH]; intros N I; [destruct I|]. cbn in N. destruct (String.eqb_spec k "definitions") as [->|Q]; [discriminate|].
      destruct I as [I|I]; [congruence|auto].
  - intros (sc & I & ->). eexists. eexists. split; [reflexivity|]. split.
    + right. apply in_or_app. left. destruct d as [|p d0]; [destruct I|]. left. reflexivity.
    + apply in_map_iff. exists (name, sc). auto.
Qed.

Lemma ref_resolves : forall n t schema d r, schema_document e tn n t = GOk schema d -> refers schema r ->
  exists name x, r = name_ref name /\ resolve schema r = Some x /\ defines schema name x.
Proof.
  intros n t schema d r G R. destruct (document_parts _ _ _ _ G) as (s & Gs & St & Es). apply (document_refers _ _ _ _ _ _ Gs St Es) in R.
  destruct R as (name & -> & R). assert (K : known d name).
  { destruct R as [R|(k & x & F & R)]; [now apply St|]. eapply con_closed; [apply St|exact F|exact R]. }
  destruct K as (sc & F). exists name, (render sc). split; [reflexivity|].
  destruct (con_class _ _ _ (st_con _ _ _ _ _ St) _ _ F) as (c & m & d1 & -> & _). split.
  - rewrite Es. unfold name_ref. apply (ordinary_resolve _ d); [|exact F|apply Hord]. destruct d; [discriminate F|]. reflexivity.
  - apply (document_defines s d); [exact Es|]. exists sc. split; [now apply find_in|reflexivity].
Qed.

Lemma definition_used : forall n t schema d name x, schema_document e tn n t = GOk schema d -> defines schema name x ->
  refers schema (name_ref name) /\ exists c kws m d' head, name = tn c /\ x = JObj kws /\ schema_document e tn m (TClass c) = GOk (JObj (head ++ kws)) d'.
Proof.
  intros n t schema d name x G D. destruct (document_parts _ _ _ _ G) as (s & Gs & St & Es). apply (document_defines s d) in D; [|exact Es].
  destruct D as (sc & I & ->). assert (F : def_find d name = Some sc) by (apply sorted_find; [apply St|exact I]). split.
  - apply (document_refers _ _ _ _ _ _ Gs St Es). exists name. split; [reflexivity|].
    destruct (st_used _ _ _ _ _ St name) as [(y & X)|[X|(k & y & X & Y)]]; [now exists sc|discriminate X|now left|right; eauto].
  - destruct (con_class _ _ _ (st_con _ _ _ _ _ St) _ _ F) as (c & m & d1 & -> & Gc). destruct (render_members sc) as (kws & Ek & _). exists c, kws, m. do 2 eexists. split; [reflexivity|].
    split; [exact Ek|]. unfold schema_document. rewrite Gc. cbn [gbind]. rewrite Ek. cbn [members_of]. rewrite app_comm_cons. reflexivity.
Qed.

Lemma definition_once : forall n t schema d l kws, schema_document e tn n t = GOk schema d -> schema = JObj kws -> In ("definitions", JObj l) kws -> NoDup (map fst l).
Proof.
  intros n t schema d l kws G -> I. destruct (document_parts _ _ _ _ G) as (s & Gs & St & Es). injection Es as ->. destruct (render_members s) as (ks & Ek & Nk). rewrite Ek in I.
  destruct I as [I|I]; [discriminate I|]. apply in_app_or in I. destruct I as [I|I].
  - destruct d as [|p d0]; [destruct I|]. destruct I as [I|[]]. injection I as <-. change (NoDup (map fst (map (fun p => (fst p, render (snd p))) (p :: d0)))). rewrite map_map. apply (sorted_names (p :: d0)). apply St.
  - exfalso. revert Nk I. cbn [members_of]. clear. induction ks as [|[k y] kws IH]; intros N I; [destruct I|]. cbn in N. destruct (String.eqb_spec k "definitions") as [->|Q]; [discriminate|].
      destruct I as [I|I]; [congruence|auto].
Qed.
End Document.
