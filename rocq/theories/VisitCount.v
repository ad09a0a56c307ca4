(** How many calls there are, and that none is left out. *)
From Coq Require Import Arith ZArith NArith Ascii String Bool Lia Relations List.
From Verif Require Import Base Json PathModel Types SerializeModel DeserializeModel DenoteProof SchemaGenSpec SafetySpec VisitModel VisitSpec VisitProof.
Import ListNotations.

(** * Upper bound *)

Definition kids (b : nat) (j : json) : nat :=
  match j with
  | JArr l => list_sum (map (weight b) l)
  | JObj l => list_sum (map (fun p => weight b (snd p)) l)
  | _ => 0
  end.

Lemma weight_kids : forall b j, weight b j = S (b * kids b j).
Proof. intros b [| | | | |l|l]; cbn; lia. Qed.

Lemma weight_values : forall j, weight 1 j = values j.
Proof.
  intros j. induction j as [|b|z|f|s|l IH|l IH] using json_ind'; cbn; try reflexivity; rewrite Nat.add_0_r; do 2 f_equal;
  apply map_ext_in; intros x I; rewrite Forall_forall in IH; now apply IH.
Qed.

Lemma sum_scale : forall A (f : A -> nat) k l, list_sum (map (fun x => k * f x) l) = k * list_sum (map f l).
Proof. intros A f k l. induction l as [|x l IH]; cbn; [lia|]. unfold list_sum in IH. rewrite IH. lia. Qed.

Lemma sum_add : forall A (f g : A -> nat) l, list_sum (map (fun x => f x + g x) l) = list_sum (map f l) + list_sum (map g l).
Proof. intros A f g l. induction l as [|x l IH]; cbn; [lia|]. unfold list_sum in IH. rewrite IH. lia. Qed.

Definition looked_up (f : json -> nat) (l : list (string * json)) (name : string) : nat :=
  match find_member l name with Some x => f x | None => 0 end.

Lemma sum_once : forall (a : string) c (g : string -> nat) names, NoDup names ->
  list_sum (map (fun n => if String.eqb a n then c else g n) names) <= c + list_sum (map g names).
Proof.
  intros a c g names N. induction N as [|n names H N IH]; cbn; [lia|]. unfold list_sum in IH |- *. destruct (String.eqb_spec a n) as [->|E].
  - assert (X : map (fun m => if String.eqb n m then c else g m) names = map g names).
    { apply map_ext_in. intros m I. destruct (String.eqb_spec n m) as [->|]; [contradiction|reflexivity]. }
    rewrite X. cbn. lia.
  - cbn. lia.
Qed.

Lemma sum_found : forall f l names, NoDup names -> list_sum (map (looked_up f l) names) <= list_sum (map (fun p => f (snd p)) l).
Proof.
  intros f l names N. induction l as [|[a x] l IH].
  - clear N. induction names as [|n names IH]; cbn; auto.
  - transitivity (list_sum (map (fun n => if String.eqb a n then f x else looked_up f l n) names)).
    + apply Nat.eq_le_incl. f_equal. apply map_ext. intros n. unfold looked_up. cbn. now destruct (String.eqb a n).
    + etransitivity; [now apply sum_once|]. cbn. unfold list_sum in IH |- *. cbn. lia.
Qed.

Lemma first_index : forall A (g : json -> A) l name k f, find_fun (map (fun p => (fst p, g (snd p))) l) 0 name = Some (k, f) ->
  exists x, find_member l name = Some x /\ f = g x.
Proof. intros A g l name k f H. pose proof (find_fun_member A g l name) as F. rewrite H in F. exact F. Qed.

Lemma types_bound : forall (fs : list (ty -> treader)) ts gs, apply_types fs ts = Some gs -> forall bs,
  Forall2 (fun b f => forall t, In t ts -> at_most b (f t)) bs fs -> Forall2 at_most bs gs.
Proof.
  intros fs. induction fs as [|f fs IH]; intros [|t ts] gs E bs F; try discriminate; cbn in E.
  - injection E as <-. inversion F. constructor.
  - destruct (apply_types fs ts) as [r|] eqn:E'; [|discriminate]. injection E as <-. inversion F as [|b ? bs' ? A B]; subst. constructor; [apply A; now left|].
    apply (IH _ _ E'). clear - B. induction B; constructor; auto. intros t' I. apply H. now right.
Qed.

Section Bound.
Variable e : env.
Variable root : json.
Variable w b : nat.
Hypothesis distinct : distinct_members e.

Definition limited (t : ty) : Prop := forall u, reachable e u t -> attempts u <= w /\ branches u <= b.

Lemma limited_within : forall u t, within e u t -> limited t -> limited u.
Proof. intros u t W L v R. apply L. apply rt_trans with u; [exact R|now apply rt_step]. Qed.

Definition limit (j : json) (t : ty) : nat := attempts t + branches t * (w * kids b j).

Lemma limit_weight : forall j t, limited t -> limit j t <= w * weight b j.
Proof.
  intros j t L. destruct (L t (rt_refl _ _ _)) as [A B]. unfold limit. rewrite weight_kids.
  assert (X : branches t * (w * kids b j) <= b * (w * kids b j)) by (now apply Nat.mul_le_mono_r). nia.
Qed.

Lemma at_most_le : forall n n' f, n <= n' -> at_most n f -> at_most n' f.
Proof. intros n n' f L A old ctx loc st. specialize (A old ctx loc st). lia. Qed.

Lemma list_limit : forall (l : list json) (F : json -> treader), (forall x, In x l -> at_most (w * weight b x) (F x)) ->
  Forall2 at_most (map (fun x => w * weight b x) l) (map F l).
Proof. intros l F H. induction l as [|x l IH]; cbn; constructor; [apply H; now left|]. apply IH. intros y I. apply H. now right. Qed.

Lemma found_limit : forall exc l ms, (forall m x, In m ms -> In (m_name m, x) l -> at_most (w * weight b x) (traced e root x exc (m_ty m))) ->
  exists bs, Forall2 at_most bs (map snd (found exc (map (fun p => (fst p, traced e root (snd p))) l) ms)) /\
    list_sum bs = w * list_sum (map (looked_up (weight b) l) (map m_name ms)).
Proof.
  intros exc l ms H. induction ms as [|m ms IH]; [exists []; split; [constructor|cbn; lia]|].
  destruct IH as (bs & F & E); [intros m' x I J; apply H; [now right|exact J]|].
  cbn [found flat_map map]. unfold looked_up at 1. destruct (find_fun _ 0 (m_name m)) as [[k f]|] eqn:Ef.
  - pose proof (first_index _ _ _ _ _ _ Ef) as (x & Ex & E').
    rewrite Ex. exists (w * weight b x :: bs). split.
    + cbn. constructor; [|exact F]. subst f. apply H; [now left|]. clear - Ex. induction l as [|[n z] l IHl]; [discriminate|]. cbn in Ex.
      destruct (String.eqb_spec n (m_name m)) as [->|]; [injection Ex as <-; now left|right; auto].
    + unfold list_sum in *. cbn. rewrite E. cbn. lia.
  - pose proof (find_fun_member _ (traced e root) l (m_name m)) as N. rewrite Ef in N. rewrite N. exists bs. split; [exact F|].
    unfold list_sum in *. cbn. lia.
Qed.

Lemma pieces_limit : forall loc fs c t bs n, pieces loc fs c -> Forall2 at_most bs (map snd fs) -> list_sum bs <= n -> List.length ((loc, t) :: c) <= S n.
Proof. intros loc fs c t bs n P F L. pose proof (pieces_length _ _ _ P _ F) as K. cbn [List.length]. apply le_n_S. now transitivity (list_sum bs). Qed.

Lemma traced_limit : forall j t, limited t -> forall exc, at_most (limit j t) (traced e root j exc t).
Proof.
  intros j. induction j as [|x|z|f|s|l IH|l IH] using json_ind'; intros t; induction t using ty_ind'; intros L exc old ctx loc st;
    try (assert (L' : limited t) by (eapply limited_within; [|exact L]; now left); specialize (IHt L'));
    rewrite traced_unfold; unfold traced_step, called; unfold limit; cbn [snd app attempts branches];
    try (cbn; lia);
    try (match goal with |- context [t_variant (map ?f ?ts) 0 ctx loc st] =>
      pose proof (variant_length (map f ts) (map (limit _) ts)
        ltac:(apply map_rel; rewrite Forall_forall in *; intros u Iu; cbn; apply H; [exact Iu|]; apply (limited_within u (TVariant ts)); [exact Iu|exact L])
        0 ctx loc st) as K;
      unfold limit in K; rewrite sum_add in K;
      assert (Y : forall n us, list_sum (map (fun u => branches u * n) us) = list_sum (map branches us) * n)
        by (intros n us; rewrite Nat.mul_comm, <- sum_scale; f_equal; apply map_ext; intros; lia);
      rewrite Y in K; destruct (t_variant (map f ts) 0 ctx loc st) as [[[[[i y]|] [r|]] s'] c]; cbn in K |- *; unfold list_sum in *; lia end);
    try (match goal with |- context [traced e root ?j exc t ?o ctx loc ?s] => specialize (IHt exc o ctx loc s); unfold limit in IHt;
      destruct (traced e root j exc t o ctx loc s) as [[[|] s' v|why p'| |] c]; cbn in IHt |- *; lia end).
  - replace (1 + 1 * (w * kids b (JArr l))) with (S (w * kids b (JArr l))) by lia.
    apply (pieces_limit _ _ _ _ (map (fun x => w * weight b x) l) _ (items_pieces _ _ _ _ _ _ _ _)); [|rewrite sum_scale; reflexivity].
    rewrite numbered_snd, map_map. apply list_limit. intros y I. rewrite Forall_forall in IH.
    apply (at_most_le (limit y t)); [now apply limit_weight|now apply IH].
  - destruct (negb _); [cbn; lia|]. unfold t_array.
    assert (K : List.length ((loc, TArray n t) :: snd (t_items (dinit e t) push_back (map (fun f => f exc t) (map (traced e root) l)) 0 [] ctx loc st)) <= S (w * kids b (JArr l))).
    { apply (pieces_limit _ _ _ _ (map (fun x => w * weight b x) l) _ (items_pieces _ _ _ _ _ _ _ _)); [|rewrite sum_scale; reflexivity].
      rewrite numbered_snd, map_map. apply list_limit. intros y I. rewrite Forall_forall in IH.
      apply (at_most_le (limit y t)); [now apply limit_weight|now apply IH]. }
    destruct (t_items _ _ _ _ _ _ _ _) as [[[|] s' v|why p'| |] c]; cbn [snd List.length] in *; rewrite Nat.mul_1_l; exact K.
  - replace (1 + 1 * (w * kids b (JArr l))) with (S (w * kids b (JArr l))) by lia.
    apply (pieces_limit _ _ _ _ (map (fun x => w * weight b x) l) _ (items_pieces _ _ _ _ _ _ _ _)); [|rewrite sum_scale; reflexivity].
    rewrite numbered_snd, map_map. apply list_limit. intros y I. rewrite Forall_forall in IH.
    apply (at_most_le (limit y t)); [now apply limit_weight|now apply IH].
  - destruct (apply_types (map (fun f => f exc) (map (traced e root) l)) [t1; t2]) as [fs|] eqn:E; [|cbn; lia].
    pose proof (tuple_pieces fs 0 (parts_of old) ctx loc st) as P. destruct (t_tuple fs 0 (parts_of old) ctx loc st) as [y c]. cbn [snd] in P |- *.
    replace (1 + 1 * (w * kids b (JArr l))) with (S (w * kids b (JArr l))) by lia.
    apply (pieces_limit _ _ _ _ (map (fun x => w * weight b x) l) _ P); [|rewrite sum_scale; reflexivity].
    rewrite numbered_snd. apply (types_bound _ _ _ E). rewrite map_map. apply map_rel. rewrite Forall_forall in *. intros z I u Iu.
    assert (Lu : limited u) by (apply (limited_within u (TPair t1 t2)); [exact Iu|exact L]).
    apply (at_most_le (limit z u)); [now apply limit_weight|now apply IH].
  - destruct (apply_types (map (fun f => f exc) (map (traced e root) l)) ts) as [fs|] eqn:E; [|cbn; lia].
    pose proof (tuple_pieces fs 0 (parts_of old) ctx loc st) as P. destruct (t_tuple fs 0 (parts_of old) ctx loc st) as [y c]. cbn [snd] in P |- *.
    replace (1 + 1 * (w * kids b (JArr l))) with (S (w * kids b (JArr l))) by lia.
    apply (pieces_limit _ _ _ _ (map (fun x => w * weight b x) l) _ P); [|rewrite sum_scale; reflexivity].
    rewrite numbered_snd. apply (types_bound _ _ _ E). rewrite map_map. apply map_rel. rewrite Forall_forall in *. intros z I u Iu.
    assert (Lu : limited u) by (apply (limited_within u (TTuple ts)); [exact Iu|exact L]).
    apply (at_most_le (limit z u)); [now apply limit_weight|now apply IH].
  - replace (1 + 1 * (w * kids b (JObj l))) with (S (w * kids b (JObj l))) by lia.
    apply (pieces_limit _ _ _ _ (map (fun p => w * weight b (snd p)) l) _ (entries_pieces _ _ _ _ _ _ _)).
    + rewrite numbered_snd, !map_map. apply map_rel. rewrite Forall_forall in *. intros [key y] I. cbn.
      apply (at_most_le (limit y t)); [now apply limit_weight|now apply (IH (key, y))].
    + rewrite (sum_scale _ (fun p : string * json => weight b (snd p))). reflexivity.
  - pose proof (members_pieces e exc (map (fun p => (fst p, traced e root (snd p))) l) (c_members (class_of e c)) (c_root (class_of e c)) true true (parts_of old) ctx loc st) as P.
    destruct (t_members _ _ _ _ _ _ _ _ _ _ _) as [y cs]. cbn [snd] in P |- *.
    replace (1 + 1 * (w * kids b (JObj l))) with (S (w * kids b (JObj l))) by lia.
    destruct (found_limit exc l (c_members (class_of e c))) as (bs & F & E).
    + intros m y' Im I. rewrite Forall_forall in IH.
      assert (Lm : limited (m_ty m)) by (apply (limited_within (m_ty m) (TClass c)); [cbn; now apply in_map|exact L]).
      apply (at_most_le (limit y' (m_ty m))); [now apply limit_weight|now apply (IH (m_name m, y'))].
    + apply (pieces_limit _ _ _ _ bs _ P F). rewrite E. apply Nat.mul_le_mono_l. apply sum_found, distinct.
  - destruct (find_member l "$ref"); [cbn; lia|].
    match goal with |- context [traced e root ?j exc t ?o ctx loc ?s] => specialize (IHt exc o ctx loc s); unfold limit in IHt;
      destruct (traced e root j exc t o ctx loc s) as [r c]; cbn in IHt |- *; lia end.
Qed.
End Bound.

Lemma calls_bound : forall e exc t j obj w b, distinct_members e -> limited e w b t -> List.length (calls e exc t j obj) <= w * weight b j.
Proof.
  intros e exc t j obj w b D L. unfold calls. etransitivity; [apply (traced_limit e j w b D j t L exc)|now apply limit_weight with e].
Qed.

Lemma one_branch : forall e t, no_variant e t -> branches t <= 1.
Proof.
  intros e t. induction t using ty_ind'; intros V; cbn; try lia.
  - now apply not_variant in V.
  - apply IHt. eapply no_variant_within; [|exact V]. now left.
  - apply IHt. eapply no_variant_within; [|exact V]. now left.
Qed.

(** * No call is left out *)

Definition ran (loc : list nat) (c : list call) (i : nat) (f : treader) : Prop :=
  exists old ctx st ok s v, fst (f old ctx (loc ++ [i]) st) = DRet ok s v /\ incl (snd (f old ctx (loc ++ [i]) st)) c.

(** Returns nothing but true. *)
Definition firm (f : treader) : Prop := forall old ctx loc st ok s v, fst (f old ctx loc st) = DRet ok s v -> ok = true.

Lemma ran_incl : forall loc c c' i f, incl c c' -> ran loc c i f -> ran loc c' i f.
Proof. intros loc c c' i f I (old & ctx & st & ok & s & v & E & J). exists old, ctx, st, ok, s, v. split; [exact E|]. intros x H. auto. Qed.

Lemma items_run : forall init add fs, Forall firm fs -> forall k acc ctx loc st ok s v,
  fst (t_items init add fs k acc ctx loc st) = DRet ok s v ->
  ok = true /\ forall i f, nth_error fs i = Some f -> ran loc (snd (t_items init add fs k acc ctx loc st)) (k + i) f.
Proof.
  intros init add fs F. induction F as [|f fs H F IH]; intros k acc ctx loc st ok s v E; cbn in E |- *.
  - injection E as <- _ _. split; [reflexivity|]. intros [|i] f N; discriminate N.
  - pose proof (H init (at_index ctx (N.of_nat k)) (loc ++ [k]) st) as Hf.
    destruct (f init (at_index ctx (N.of_nat k)) (loc ++ [k]) st) as [[[|] s' x|why p| |] c] eqn:Ef; cbn in E, Hf |- *; try discriminate E.
    + destruct (IH _ _ _ _ _ _ _ _ E) as [-> R]. split; [reflexivity|]. intros [|i] g N.
      * cbn in N. injection N as <-. rewrite Nat.add_0_r. exists init, (at_index ctx (N.of_nat k)), st, true, s', x. rewrite Ef. split; [reflexivity|]. now apply incl_appl.
      * cbn in N. apply (ran_incl _ (snd (t_items init add fs (S k) (add acc x) ctx loc s'))); [now apply incl_appr|]. rewrite Nat.add_succ_r. apply (R _ _ N).
    + discriminate (Hf _ _ _ eq_refl).
Qed.

Lemma entries_run : forall init fs, Forall (fun f => firm (snd f)) fs -> forall k acc ctx loc st ok s v,
  fst (t_entries init fs k acc ctx loc st) = DRet ok s v ->
  ok = true /\ forall i f, nth_error (map snd fs) i = Some f -> ran loc (snd (t_entries init fs k acc ctx loc st)) (k + i) f.
Proof.
  intros init fs F. induction F as [|[n f] fs H F IH]; intros k acc ctx loc st ok s v E; cbn in E |- *.
  - injection E as <- _ _. split; [reflexivity|]. intros [|i] f N; discriminate N.
  - pose proof (H init (at_name ctx n) (loc ++ [k]) st) as Hf. cbn in Hf.
    destruct (f init (at_name ctx n) (loc ++ [k]) st) as [[[|] s' x|why p| |] c] eqn:Ef; cbn in E, Hf |- *; try discriminate E.
    + destruct (IH _ _ _ _ _ _ _ _ E) as [-> R]. split; [reflexivity|]. intros [|i] g N.
      * cbn in N. injection N as <-. rewrite Nat.add_0_r. exists init, (at_name ctx n), st, true, s', x. rewrite Ef. split; [reflexivity|]. now apply incl_appl.
      * cbn in N. apply (ran_incl _ (snd (t_entries init fs (S k) (map_assign acc (c_string n) x) ctx loc s'))); [now apply incl_appr|]. rewrite Nat.add_succ_r. apply (R _ _ N).
    + discriminate (Hf _ _ _ eq_refl).
Qed.

Lemma tuple_run : forall fs, Forall firm fs -> forall k olds ctx loc st ok s v,
  finish_tuple (fst (t_tuple fs k olds ctx loc st)) = DRet ok s v ->
  ok = true /\ forall i f, nth_error fs i = Some f -> ran loc (snd (t_tuple fs k olds ctx loc st)) (k + i) f.
Proof.
  intros fs F. induction F as [|f fs H F IH]; intros k olds ctx loc st ok s v E; cbn in E |- *.
  - injection E as <- _ _. split; [reflexivity|]. intros [|i] f N; discriminate N.
  - pose proof (H (hd VIndet olds) (at_index ctx (N.of_nat k)) (loc ++ [k]) st) as Hf.
    destruct (f (hd VIndet olds) (at_index ctx (N.of_nat k)) (loc ++ [k]) st) as [[[|] s' x|why p| |] c] eqn:Ef; cbn in E, Hf |- *; try discriminate E.
    + specialize (IH (S k) (tl olds) ctx loc s').
      destruct (t_tuple fs (S k) (tl olds) ctx loc s') as [[[[ok' l'] stop'] s''] c']. cbn in E, IH |- *.
      assert (G : exists v', finish_tuple (ok', l', stop', s'') = DRet ok s v') by (destruct stop' as [r|]; cbn in *; [eauto|injection E as -> -> _; eauto]).
      destruct G as [v' G]. destruct (IH _ _ _ G) as [-> R]. split; [reflexivity|]. intros [|i] g N.
      * cbn in N. injection N as <-. rewrite Nat.add_0_r. exists (hd VIndet olds), (at_index ctx (N.of_nat k)), st, true, s', x. rewrite Ef. split; [reflexivity|]. now apply incl_appl.
      * cbn in N. apply (ran_incl _ c'); [now apply incl_appr|]. rewrite Nat.add_succ_r. apply (R _ _ N).
    + discriminate (Hf _ _ _ eq_refl).
Qed.

Lemma members_run : forall e fs ms, (forall m k f, In m ms -> find_fun fs 0 (m_name m) = Some (k, f) -> firm (f true (m_ty m))) ->
  forall r olds ctx loc st ok s v,
  finish_object (fst (t_members e true fs ms r true true olds ctx loc st)) = DRet ok s v ->
  ok = true /\ forall i f, In (i, f) (found true fs ms) -> ran loc (snd (t_members e true fs ms r true true olds ctx loc st)) i f.
Proof.
  intros e fs ms. induction ms as [|m ms IH]; intros F r olds ctx loc st ok s v E.
  - cbn in E. injection E as <- _ _. split; [reflexivity|]. intros i f [].
  - cbn [t_members found flat_map] in E |- *.
    specialize (IH (fun m' k f I => F m' k f (or_intror I))). specialize (F m).
    assert (G : forall ok s' v, fst (t_member e true fs m true (hd VIndet olds) ctx loc st) = DRet ok s' v ->
      ok = true /\ forall k f, find_fun fs 0 (m_name m) = Some (k, f) -> ran loc (snd (t_member e true fs m true (hd VIndet olds) ctx loc st)) k (f true (m_ty m))).
    { unfold t_member. destruct (find_fun fs 0 (m_name m)) as [[k f]|].
      - specialize (F k f (or_introl eq_refl) eq_refl). intros ok' s' v0 E'. 
        destruct (m_kind m);
        [split; [now apply F in E'|]; intros k' f' K; injection K as <- <-; do 6 eexists; split; [exact E'|apply incl_refl]..|].
        specialize (F (dinit e (m_ty m)) (at_name ctx (m_name m)) (loc ++ [k]) st).
        destruct (f true (m_ty m) (dinit e (m_ty m)) (at_name ctx (m_name m)) (loc ++ [k]) st) as [[ok'' s'' x|why p| |] c] eqn:Ef; try discriminate E'.
        cbn in E', F |- *. injection E' as -> -> <-. split; [now apply (F _ _ _ eq_refl)|]. intros k' f' K. injection K as <- <-.
        exists (dinit e (m_ty m)), (at_name ctx (m_name m)), st, ok', s', x. rewrite Ef. split; [reflexivity|apply incl_refl].
      - intros ok' s' v0 E'. split; [|discriminate]. destruct (m_kind m); cbn in E'; congruence. }
    destruct (t_member e true fs m true (hd VIndet olds) ctx loc st) as [[ok' s' x|why p| |] c]; cbn in E; try discriminate E.
    destruct (G _ _ _ eq_refl) as [-> Gr].
    assert (X : match r with 0 => t_members e true fs ms 0 true true (tl olds) ctx loc s'
                | S r0 => t_members e true fs ms r0 true true (tl olds) ctx loc s' end =
                t_members e true fs ms (pred r) true true (tl olds) ctx loc s') by (now destruct r).
    rewrite X in E |- *. specialize (IH (pred r) (tl olds) ctx loc s').
    destruct (t_members e true fs ms (pred r) true true (tl olds) ctx loc s') as [[[[ok'' l'] stop'] s''] c']. cbn in E, IH |- *.
    assert (Z : exists v', finish_object (ok'', l', stop', s'') = DRet ok s v') by (destruct stop' as [d|]; cbn in *; [eauto|injection E as -> -> _; eauto]).
    destruct Z as [v' Z]. destruct (IH _ _ _ Z) as [-> R]. split; [reflexivity|]. intros i f I. apply in_app_or in I. destruct I as [I|I].
    + destruct (find_fun fs 0 (m_name m)) as [[k g]|]; [|destruct I]. destruct I as [I|[]]. injection I as <- <-.
      apply (ran_incl _ c); [now apply incl_appl|]. now apply Gr.
    + apply (ran_incl _ c'); [now apply incl_appr|]. now apply R.
Qed.

Lemma scalar_firm : forall e t j, firm (t_scalar e true t j).
Proof.
  intros e t j old ctx loc st ok s v E. cbn in E.
  destruct t; cbn in E; try discriminate E;
  unfold read_int, read_float, reject in E;
  repeat match type of E with
  | context [match ?x with _ => _ end] => lazymatch x with context [match _ with _ => _ end] => fail | _ => destruct x; try discriminate E end
  end; congruence.
Qed.

Definition thorough (e : env) (f : treader) (j : json) (t : ty) : Prop := forall old ctx loc st ok s v, fst (f old ctx loc st) = DRet ok s v ->
  ok = true /\ forall p w, reads e j t p w -> In (loc ++ p, w) (snd (f old ctx loc st)).

Lemma thorough_firm : forall e f j t, thorough e f j t -> firm f.
Proof. intros e f j t T old ctx loc st ok s v E. now apply T in E. Qed.

Lemma ran_reads : forall e f x u loc c i p w, thorough e f x u -> ran loc c i f -> reads e x u p w -> In (loc ++ i :: p, w) c.
Proof.
  intros e f x u loc c i p w T (old & ctx & st & ok & s & v & E & I) R. destruct (T _ _ _ _ _ _ _ E) as [_ H].
  apply I. specialize (H p w R). now rewrite <- app_assoc in H.
Qed.

Lemma first_fun : forall A (g : json -> A) l name i x, first_member l name i x ->
  find_fun (map (fun p => (fst p, g (snd p))) l) 0 name = Some (i, g x).
Proof.
  intros A g l name i x F.
  assert (G : forall k, find_fun (map (fun p => (fst p, g (snd p))) l) k name = Some (k + i, g x)).
  { revert i F. induction l as [|[n y] l IH]; intros i [F1 F2] k; [destruct i; discriminate F1|]. cbn. destruct (String.eqb_spec n name) as [->|N].
    - destruct i as [|i]; [cbn in F1; injection F1 as ->; now rewrite Nat.add_0_r|]. exfalso. now apply (F2 0 y); [lia|].
    - destruct i as [|i]; [cbn in F1; injection F1 as -> ->; congruence|]. rewrite (IH i).
      + f_equal. f_equal. lia.
      + split; [exact F1|]. intros i' x' L E. apply (F2 (S i') x'); [lia|exact E]. }
  apply (G 0).
Qed.

Lemma apply_nth : forall A (fs : list (ty -> A)) ts gs, apply_types fs ts = Some gs -> forall i f t,
  nth_error fs i = Some f -> nth_error ts i = Some t -> nth_error gs i = Some (f t).
Proof.
  intros A fs. induction fs as [|g fs IH]; intros [|u ts] gs E; try discriminate; cbn in E.
  - intros [|i] f t H; discriminate H.
  - destruct (apply_types fs ts) as [r|] eqn:E'; [|discriminate]. injection E as <-. intros [|i] f t H H'; cbn in *; [congruence|now apply (IH ts r E')].
Qed.

Section Complete.
Variable e : env.
Variable root : json.

Lemma traced_thorough : forall j t, no_variant e t -> no_shared e t -> thorough e (traced e root j true t) j t.
Proof.
  intros j. induction j as [|b|z|f|s|l IH|l IH] using json_ind'; intros t; induction t using ty_ind'; intros V U old ctx loc st ok st' v;
    try (now apply not_variant in V);
    try (exfalso; apply (U t); apply rt_refl);
    try (assert (V' : no_variant e t) by (eapply no_variant_within; [|exact V]; now left);
         assert (U' : no_shared e t) by (eapply no_shared_within; [|exact U]; now left); specialize (IHt V' U'));
    rewrite traced_unfold; unfold traced_step, called; cbn [snd fst app]; intros E; try discriminate E;
    try (split; [apply (scalar_firm e _ _ _ _ _ _ _ _ _ E)|]; intros p w R; inversion R; subst; rewrite app_nil_r; [now left|right; now left]);
    try (split; [apply (scalar_firm e _ _ _ _ _ _ _ _ _ E)|]; intros p w R; inversion R; subst; rewrite app_nil_r; now left);
    try (match type of E with context [traced e root ?j true t ?o ctx loc ?s] => specialize (IHt o ctx loc s);
        destruct (traced e root j true t o ctx loc s) as [[[|] s' x|why p'| |] c]; cbn in E, IHt |- *; try discriminate E;
        [|now destruct (IHt _ _ _ eq_refl)]; injection E as <- _ _; split; [reflexivity|];
        intros p w R; inversion R; subst; [rewrite app_nil_r; now left|right; now apply (IHt _ _ _ eq_refl)] end).
  - assert (T : Forall (fun x => thorough e (traced e root x true t) x t) l) by (rewrite Forall_forall in *; intros x I; now apply IH).
    destruct (items_run (dinit e t) push_back (map (fun f => f true t) (map (traced e root) l))
      ltac:(rewrite map_map; apply Forall_forall; intros f I; apply in_map_iff in I; destruct I as (x & <- & I); rewrite Forall_forall in T; eapply thorough_firm, T, I)
      _ _ _ _ _ _ _ _ E) as [-> R]. split; [reflexivity|]. intros p w Rd. inversion Rd as [| |? ? i x q ? En Rx| | | | | | | | |]; subst; [rewrite app_nil_r; now left|].
    right. rewrite Forall_forall in T. refine (ran_reads e _ x t _ _ _ _ _ (T x (nth_error_In _ _ En)) (R i _ _) Rx). rewrite map_map. now apply (map_nth_error (fun x => traced e root x true t)).
  - destruct (negb (List.length l =? n)) eqn:En; cbn [fst snd] in E |- *; [discriminate E|]. unfold t_array in E |- *.
    assert (T : Forall (fun x => thorough e (traced e root x true t) x t) l) by (rewrite Forall_forall in *; intros x I; now apply IH).
    pose proof (items_run (dinit e t) push_back (map (fun f => f true t) (map (traced e root) l))
      ltac:(rewrite map_map; apply Forall_forall; intros f I; apply in_map_iff in I; destruct I as (x & <- & I); rewrite Forall_forall in T; eapply thorough_firm, T, I)
      0 [] ctx loc st) as R.
    destruct (t_items _ _ _ _ _ _ _ _) as [[[|] s' y|why p'| |] c]; cbn in E, R |- *; try discriminate E; [|now destruct (R _ _ _ eq_refl)].
    injection E as <- _ _. destruct (R _ _ _ eq_refl) as [_ R']. split; [reflexivity|]. intros p w Rd.
    inversion Rd as [| | | |? ? i x q ? Ei Rx| | | | | | |]; subst; [rewrite app_nil_r; now left|].
    right. rewrite Forall_forall in T. refine (ran_reads e _ x t _ _ _ _ _ (T x (nth_error_In _ _ Ei)) (R' i _ _) Rx). rewrite map_map. now apply (map_nth_error (fun x => traced e root x true t)).
  - assert (T : Forall (fun x => thorough e (traced e root x true t) x t) l) by (rewrite Forall_forall in *; intros x I; now apply IH).
    destruct (items_run (dinit e t) (set_insert (less e t)) (map (fun f => f true t) (map (traced e root) l))
      ltac:(rewrite map_map; apply Forall_forall; intros f I; apply in_map_iff in I; destruct I as (x & <- & I); rewrite Forall_forall in T; eapply thorough_firm, T, I)
      _ _ _ _ _ _ _ _ E) as [-> R]. split; [reflexivity|]. intros p w Rd. inversion Rd as [| | |? ? i x q ? En Rx| | | | | | | |]; subst; [rewrite app_nil_r; now left|].
    right. rewrite Forall_forall in T. refine (ran_reads e _ x t _ _ _ _ _ (T x (nth_error_In _ _ En)) (R i _ _) Rx). rewrite map_map. now apply (map_nth_error (fun x => traced e root x true t)).
  - assert (T : forall x u, In x l -> In u [t1; t2] -> thorough e (traced e root x true u) x u).
    { intros x u I Iu. rewrite Forall_forall in IH. apply IH; [exact I| |]; [apply (no_variant_within e u (TPair t1 t2))|apply (no_shared_within e u (TPair t1 t2))]; auto. }
    destruct (apply_types (map (fun f => f true) (map (traced e root) l)) [t1; t2]) as [fs|] eqn:Ef; [|discriminate E].
    assert (Fi : Forall firm fs).
    { apply Forall_forall. intros f I. apply In_nth_error in I. destruct I as [i I]. apply nth_apply in Ef. destruct Ef as (_ & _ & Ef).
      destruct (Ef _ _ I) as (g & u & Eg & Eu & ->). rewrite map_map in Eg. apply nth_map in Eg. destruct Eg as (x & Ex & ->).
      eapply thorough_firm, T; eapply nth_error_In; eassumption. }
    pose proof (tuple_run fs Fi 0 (parts_of old) ctx loc st) as R.
    destruct (t_tuple fs 0 (parts_of old) ctx loc st) as [y c]. cbn [fst snd app] in E, R |- *.
    destruct (R _ _ _ E) as [-> R']. split; [reflexivity|]. intros p w Rd.
    inversion Rd as [| | | | |x1 x2 ? ? i z u q ? Ez Eu Rx| | | | | |]; subst; [rewrite app_nil_r; now left|]. right.
    refine (ran_reads e _ z u _ _ _ _ _ (T z u (nth_error_In _ _ Ez) (nth_error_In _ _ Eu)) (R' i _ _) Rx).
    eapply apply_nth; [exact Ef| |exact Eu]. rewrite map_map. now apply (map_nth_error (fun x => traced e root x true)).
  - assert (T : forall x u, In x l -> In u ts -> thorough e (traced e root x true u) x u).
    { intros x u I Iu. rewrite Forall_forall in IH. apply IH; [exact I| |]; [apply (no_variant_within e u (TTuple ts))|apply (no_shared_within e u (TTuple ts))]; auto. }
    destruct (apply_types (map (fun f => f true) (map (traced e root) l)) ts) as [fs|] eqn:Ef; [|discriminate E].
    assert (Fi : Forall firm fs).
    { apply Forall_forall. intros f I. apply In_nth_error in I. destruct I as [i I]. apply nth_apply in Ef. destruct Ef as (_ & _ & Ef).
      destruct (Ef _ _ I) as (g & u & Eg & Eu & ->). rewrite map_map in Eg. apply nth_map in Eg. destruct Eg as (x & Ex & ->).
      eapply thorough_firm, T; eapply nth_error_In; eassumption. }
    pose proof (tuple_run fs Fi 0 (parts_of old) ctx loc st) as R.
    destruct (t_tuple fs 0 (parts_of old) ctx loc st) as [y c]. cbn [fst snd app] in E, R |- *.
    destruct (R _ _ _ E) as [-> R']. split; [reflexivity|]. intros p w Rd.
    inversion Rd as [| | | | | |? ? i z u q ? El Ez Eu Rx| | | | |]; subst; [rewrite app_nil_r; now left|]. right.
    refine (ran_reads e _ z u _ _ _ _ _ (T z u (nth_error_In _ _ Ez) (nth_error_In _ _ Eu)) (R' i _ _) Rx).
    eapply apply_nth; [exact Ef| |exact Eu]. rewrite map_map. now apply (map_nth_error (fun x => traced e root x true)).
  - assert (T : forall key x, In (key, x) l -> thorough e (traced e root x true t) x t).
    { intros key x I. rewrite Forall_forall in IH. now apply (IH (key, x)). }
    rewrite map_map in E |- *.
    match type of E with fst (t_entries ?a ?fs _ _ _ _ _) = _ => destruct (entries_run a fs
      ltac:(apply Forall_forall; intros f I; apply in_map_iff in I; destruct I as ([key x] & <- & I); eapply thorough_firm, T, I)
      _ _ _ _ _ _ _ _ E) as [-> R] end. split; [reflexivity|]. intros p w Rd. 
    inversion Rd as [| | | | | | |? ? ? i key x q ? En Rx| | | |]; subst; [rewrite app_nil_r; now left|].
    right. refine (ran_reads e _ x t _ _ _ _ _ (T key x (nth_error_In _ _ En)) (R i _ _) Rx). rewrite map_map.
    now apply (map_nth_error (fun x => traced e root (snd x) true t)) in En.
  - assert (T : forall m x, In m (c_members (class_of e c)) -> In (m_name m, x) l -> thorough e (traced e root x true (m_ty m)) x (m_ty m)).
    { intros m x Im I. rewrite Forall_forall in IH. apply (IH (m_name m, x)); [exact I| |];
        [apply (no_variant_within e (m_ty m) (TClass c))|apply (no_shared_within e (m_ty m) (TClass c))]; try assumption; cbn; now apply in_map. }
    pose proof (members_run e (map (fun p => (fst p, traced e root (snd p))) l) (c_members (class_of e c))) as R.
    match type of R with ?A -> _ => assert (X : A) end.
    { intros m k f Im Ek. apply first_found in Ek. destruct Ek as (x & Fx & ->). eapply thorough_firm, T; [exact Im|apply (nth_error_In _ _ (proj1 Fx))]. }
    specialize (R X (c_root (class_of e c)) (parts_of old) ctx loc st).
    destruct (t_members _ _ _ _ _ _ _ _ _ _ _) as [y cs]. cbn [fst snd app] in E, R |- *.
    destruct (R _ _ _ E) as [-> R']. split; [reflexivity|]. intros p w Rd.
    inversion Rd as [| | | | | | | |? ? m i x q ? Im Fx Rx| | |]; subst; [rewrite app_nil_r; now left|]. right.
    refine (ran_reads e _ x (m_ty m) _ _ _ _ _ (T m x Im (nth_error_In _ _ (proj1 Fx))) (R' i _ _) Rx).
    unfold found. apply in_flat_map. exists m. split; [exact Im|]. rewrite (first_fun _ (traced e root) _ _ _ _ Fx). now left.
Qed.
End Complete.
