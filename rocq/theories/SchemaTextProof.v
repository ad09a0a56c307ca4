(** What the library writes for its schema objects is the document of the schema. *)
From Coq Require Import List Arith ZArith NArith Ascii String Bool Lia Relations.
From Verif Require Import Base Float NumericModel Json PathModel Types SerializeModel WriteModel WriteSpec SchemaModel SchemaGenSpec SchemaTextModel SchemaTextSpec.
From Verif Require TextSpec.
Import ListNotations.
Local Open Scope string_scope.
Local Open Scope list_scope.

(** * Writing *)

Definition writes (v : val) (t : ty) (j : json) : Prop := forall ctx tab, ser schema_env v t ctx tab = SOk tab j.

Lemma w_str : forall s, writes (VStr s) TString (JStr s).
Proof. intros s ctx tab. reflexivity. Qed.
Lemma w_bool : forall b, writes (VBool b) TBool (JBool b).
Proof. intros s ctx tab. reflexivity. Qed.
Lemma w_int : forall k z, writes (VInt z) (TInt k) (JInt z).
Proof. intros k z ctx tab. reflexivity. Qed.
Lemma w_ptr : forall v u j, writes v u j -> writes (VPtr v) (TUnique u) j.
Proof. intros v u j H ctx tab. apply H. Qed.
Lemma w_variant : forall ts i v u j, nth_error ts i = Some u -> writes v u j -> writes (VVariant i v) (TVariant ts) j.
Proof. intros ts i v u j E H ctx tab. cbn. rewrite E. apply H. Qed.

Lemma w_seq : forall u l l', Forall2 (fun v j => writes v u j) l l' -> forall at_ k tab,
  ser_seq at_ k (map (fun f => f u) (map (ser schema_env) l)) tab = SOk tab l'.
Proof. intros u l l' F. induction F as [|v j l l' H F IH]; intros at_ k tab; cbn [map ser_seq]; [reflexivity|]. rewrite H. cbn [sbind]. now rewrite IH. Qed.

Lemma w_vector : forall u l l', dict_type u = None -> Forall2 (fun v j => writes v u j) l l' -> writes (VList l) (TVector u) (JArr l').
Proof. intros u l l' D F ctx tab. cbn. rewrite D. now rewrite (w_seq u l l' F). Qed.

Lemma w_entries : forall u l l', Forall2 (fun p q => fst p = fst q /\ writes (snd p) u (snd q)) l l' -> forall ctx tab,
  ser_entries ctx (map (fun p : string * (ty -> sfun json) => (fst p, snd p u)) (map (fun p => (fst p, ser schema_env (snd p))) l)) tab = SOk tab l'.
Proof.
  intros u l l' F. induction F as [|[n v] [n' j] l l' [E H] F IH]; intros ctx tab; cbn in *; [reflexivity|]. subst n'. rewrite H. cbn [sbind]. now rewrite IH.
Qed.

Lemma w_map : forall u l l', Forall2 (fun p q => fst p = fst q /\ writes (snd p) u (snd q)) l l' -> writes (VMap l) (TMap true u) (JObj l').
Proof. intros u l l' F ctx tab. cbn. now rewrite (w_entries u l l' F). Qed.

Lemma w_dict : forall u l l', Forall2 (fun p q => fst p = fst q /\ writes (snd p) u (snd q)) l l' ->
  writes (VList (map (fun p => VList [VStr (fst p); snd p]) l)) (TVector (TPair TString u)) (JObj l').
Proof.
  intros u l l' F ctx tab. cbn [ser dict_type].
  replace (all_some (map (keyed (ser schema_env)) (map (fun p => VList [VStr (fst p); snd p]) l))) with (Some (map (fun p => (fst p, ser schema_env (snd p))) l)).
  - now rewrite (w_entries u l l' F).
  - clear F. induction l as [|[n v] l IH]; [reflexivity|]. cbn. rewrite <- IH. reflexivity.
Qed.

(** The members of an object. *)
Inductive writes_members : list member -> list val -> list (string * json) -> Prop :=
| wm_none : writes_members [] [] []
| wm_required : forall n u ms v vs j l, (v <> VNone /\ forall x, v <> VSome x) -> writes v u j -> writes_members ms vs l ->
    writes_members (SchemaTextModel.required n u :: ms) (v :: vs) ((n, j) :: l)
| wm_absent : forall n u ms vs l, writes_members ms vs l -> writes_members (optional n u :: ms) (VNone :: vs) l
| wm_present : forall n u ms v vs j l, writes v u j -> writes_members ms vs l -> writes_members (optional n u :: ms) (VSome v :: vs) ((n, j) :: l).

Lemma wm_ser : forall ms vs l, writes_members ms vs l -> forall ctx tab, ser_members ctx ms (map (mpart (ser schema_env)) vs) tab = SOk tab l.
Proof.
  intros ms vs l W. induction W as [|n u ms v vs j l [N1 N2] H W IH|n u ms vs l W IH|n u ms v vs j l H W IH]; intros ctx tab; cbn [map ser_members].
  - reflexivity.
  - replace (mpart (ser schema_env) v) with (MPlain (ser schema_env v)) by (destruct v; cbn; congruence). cbn. rewrite H. now rewrite IH.
  - cbn. now rewrite IH.
  - cbn. rewrite H. now rewrite IH.
Qed.

Lemma w_class : forall c vs l, writes_members (c_members (class_of schema_env c)) vs l -> writes (VObj vs) (TClass c) (JObj l).
Proof. intros c vs l W ctx tab. cbn [ser]. now rewrite (wm_ser _ _ _ W). Qed.

Lemma wm_opt : forall A n u ms (f : A -> val) (g : A -> json) o vs l, (forall a, o = Some a -> writes (f a) u (g a)) -> writes_members ms vs l ->
  writes_members (optional n u :: ms) (maybe f o :: vs) (opt n g o ++ l).
Proof. intros A n u ms f g [a|] vs l H W; cbn; constructor; auto. Qed.

Lemma wm_last : forall A n u (f : A -> val) (g : A -> json) o, (forall a, o = Some a -> writes (f a) u (g a)) ->
  writes_members [optional n u] [maybe f o] (opt n g o).
Proof. intros A n u f g o H. rewrite <- (app_nil_r (opt n g o)). apply wm_opt; [exact H|constructor]. Qed.

Definition members_for (s : jschema) : list member := nth (kind s) node_members [].

Lemma node_class : forall s, c_members (class_of schema_env (kind s)) = members_for s.
Proof. intros []; reflexivity. Qed.

Lemma document_members : forall s, c_members (class_of schema_env (8 + kind s)) = optional "$schema" TString :: optional "definitions" (TMap true schema_node) :: members_for s.
Proof. intros []; reflexivity. Qed.

Lemma kind_alternative : forall s, nth_error (map TClass (seq 0 8)) (kind s) = Some (TClass (kind s)).
Proof. intros []; reflexivity. Qed.

Lemma w_node : forall s l, writes_members (members_for s) (variables s) l -> render s = JObj l -> writes (schema_node_value s) schema_node (render s).
Proof.
  intros s l W ->. unfold schema_node_value. eapply w_variant; [apply kind_alternative|]. apply w_class. now rewrite node_class.
Qed.

Ltac plain_value := split; [discriminate|intros ?; discriminate].

Lemma render_object : forall s, render s = JObj (members_of (render s)).
Proof. intros []; reflexivity. Qed.

Lemma all_written : forall s, writes_members (members_for s) (variables s) (members_of (render s)).
Proof.
  fix IH 1. intros s.
  assert (N : forall s, writes_members (members_for s) (variables s) (members_of (render s)) -> writes (VPtr (schema_node_value s)) (TUnique schema_node) (render s)).
  { clear. intros s H. apply w_ptr. eapply w_node; [exact H|apply render_object]. }
  destruct s as [n|t f c|lo hi|hi|t|items prefix unique lo hi|props req additional|l]; cbn [render members_of variables]; unfold members_for; cbn [kind nth node_members].
  - apply wm_required; [plain_value|apply w_str|constructor].
  - apply wm_required; [plain_value|apply w_str|]. apply wm_opt; [intros; apply w_str|]. apply wm_last. intros; apply w_str.
  - repeat (apply wm_required; [plain_value|first [apply w_str|apply w_int]|]). constructor.
  - repeat (apply wm_required; [plain_value|first [apply w_str|apply w_int]|]). constructor.
  - apply wm_required; [plain_value|apply w_str|]. apply wm_required; [plain_value| |constructor].
    eapply w_variant; [reflexivity|]. apply w_vector; [reflexivity|constructor].
  - apply wm_required; [plain_value|apply w_str|]. apply wm_opt; [|apply wm_opt; [|apply wm_opt; [intros; apply w_bool|apply wm_opt; [intros; apply w_int|apply wm_last; intros; apply w_int]]]].
    + destruct items as [i|]; intros a E; [|discriminate]. injection E as <-. apply N, IH.
    + destruct prefix as [l|]; intros a E; [|discriminate]. injection E as <-. apply w_vector; [reflexivity|].
      induction l as [|s l IHl]; cbn [map]; constructor; [apply N, IH|exact IHl].
  - apply wm_required; [plain_value|apply w_str|]. apply wm_opt; [|apply wm_opt; [|apply wm_last]].
    + destruct props as [l|]; intros a E; [|discriminate]. injection E as <-.
      replace (map (fun p : string * jschema => VList [VStr (fst p); VPtr (VVariant (kind (snd p)) (VObj (variables (snd p))))]) l)
        with (map (fun p => VList [VStr (fst p); snd p]) (map (fun p : string * jschema => (fst p, VPtr (schema_node_value (snd p)))) l)) by (rewrite map_map; reflexivity).
      apply w_dict. induction l as [|[k s] l IHl]; cbn [map fst snd]; constructor; [split; [reflexivity|apply N, IH]|exact IHl].
    + intros l _. apply w_vector; [reflexivity|]. induction l as [|x l IHl]; cbn; constructor; [apply w_str|exact IHl].
    + destruct additional as [[b|s]|]; intros a E; [| |discriminate]; injection E as <-; (eapply w_variant; [reflexivity|]); [apply w_bool|apply N, IH].
  - apply wm_required; [plain_value| |constructor]. apply w_vector; [reflexivity|]. induction l as [|s l IHl]; cbn [map]; constructor; [apply N, IH|exact IHl].
Qed.

Lemma node_written : forall s, writes (schema_node_value s) schema_node (render s).
Proof. intros s. eapply w_node; [apply all_written|apply render_object]. Qed.

Lemma document_written : forall version s d, writes (schema_object version s d) (schema_type s)
  (JObj (opt "$schema" JStr version ++ match d with [] => [] | _ => [("definitions", JObj (map (fun p => (fst p, render (snd p))) d))] end ++ members_of (render s))).
Proof.
  intros version s d. unfold schema_object, schema_type. apply w_class. rewrite document_members. apply wm_opt; [intros; apply w_str|].
  destruct d as [|p d]; [apply wm_absent, all_written|]. cbn [app]. apply wm_present; [|apply all_written]. apply w_map.
  remember (p :: d) as l eqn:E. clear E p d. induction l as [|[k x] l IH]; cbn; constructor; [split; [reflexivity|apply node_written]|exact IH].
Qed.

(** * There are no floating-point numbers in a schema *)

Lemma maybe_finite : forall A (f : A -> val) o, (forall a, o = Some a -> finite (f a) = true) -> finite (maybe f o) = true.
Proof. intros A f [a|] H; cbn; auto. Qed.

Lemma variables_finite : forall s, forallb finite (variables s) = true.
Proof.
  fix IH 1. intros s.
  assert (L : forall l, forallb finite (map VStr l) = true) by (induction l; auto).
  destruct s as [n|t f c|lo hi|hi|t|items prefix unique lo hi|props req additional|l]; cbn [variables forallb finite andb]; rewrite ?andb_true_r, ?andb_true_iff; try reflexivity.
  - split; apply maybe_finite; reflexivity.
  - repeat split; apply maybe_finite; try reflexivity.
    + destruct items as [i|]; intros a E; [|discriminate]. injection E as <-. apply IH.
    + destruct prefix as [l|]; intros a E; [|discriminate]. injection E as <-. cbn [finite]. induction l as [|s l IHl]; [reflexivity|]. cbn [map forallb finite]. now rewrite IH.
  - repeat split; apply maybe_finite.
    + destruct props as [l|]; intros a E; [|discriminate]. injection E as <-. cbn [finite]. induction l as [|[k s] l IHl]; [reflexivity|]. cbn [map forallb finite fst snd]. now rewrite IH.
    + intros l _. apply L.
    + destruct additional as [[b|s]|]; intros a E; [| |discriminate]; injection E as <-; [reflexivity|]. apply IH.
  - induction l as [|s l IHl]; [reflexivity|]. cbn [map forallb finite]. now rewrite IH.
Qed.

Lemma object_finite : forall version s d, finite (schema_object version s d) = true.
Proof.
  intros version s d. unfold schema_object. cbn [finite forallb]. rewrite variables_finite, andb_true_r, andb_true_iff. split; [apply maybe_finite; reflexivity|].
  destruct d as [|p d]; [reflexivity|]. cbn [finite]. remember (p :: d) as l eqn:E. clear E p d. induction l as [|[k x] l IH]; [reflexivity|].
  cbn [map forallb fst snd finite schema_node_value]. now rewrite variables_finite.
Qed.

(** * The numbers in a schema have 64 bits *)

Section Numbers.
Variable e : env.
Variable tn : nat -> string.
Variable double : fl -> Prop.
Notation numbers := (TextSpec.numbers double).
Notation kept := TextSpec.kept.

Definition nums (s : jschema) : Prop := numbers (VObj (variables s)).
Definition def_nums (d : definitions) : Prop := Forall (fun p => nums (snd p)) d.

Lemma kept_size : forall n, (Z.of_nat n < 2 ^ 64)%Z -> kept (Z.of_nat n).
Proof. intros n H. unfold TextSpec.kept. lia. Qed.

Lemma power_le : forall w v, (0 <= w <= v)%Z -> (1 <= 2 ^ w <= 2 ^ v)%Z.
Proof. intros w v H. split; [|apply Z.pow_le_mono_r; lia]. pose proof (Z.pow_pos_nonneg 2 w). lia. Qed.

Lemma kept_bounds : forall k, machine_size (TInt k) -> kept (tmin k) /\ kept (tmax k).
Proof.
  intros [w s] H. cbn in H. unfold TextSpec.kept, tmin, tmax. cbn [width is_signed].
  pose proof (power_le (w - 1) 63). pose proof (power_le w 64). destruct s; lia.
Qed.

Lemma nums_pointers : forall l, Forall nums l -> fold_right (fun x P => numbers x /\ P) True (map (fun s => VPtr (VVariant (kind s) (VObj (variables s)))) l).
Proof. intros l F. induction F as [|s l H F IH]; cbn [map fold_right]; [exact I|]. split; [exact H|exact IH]. Qed.

Lemma nums_strings : forall l, fold_right (fun x P => numbers x /\ P) True (map VStr l).
Proof. induction l as [|s l IH]; cbn; auto. Qed.

Lemma nums_pairs : forall l, Forall (fun p => nums (snd p)) l ->
  fold_right (fun x P => numbers x /\ P) True (map (fun p : string * jschema => VList [VStr (fst p); VPtr (VVariant (kind (snd p)) (VObj (variables (snd p))))]) l).
Proof. intros l F. induction F as [|[k s] l H F IH]; cbn [map fold_right]; [exact I|]. split; [|exact IH]. split; [exact I|]. split; [exact H|exact I]. Qed.

Lemma def_insert_nums : forall d n s, def_nums d -> nums s -> def_nums (def_insert d n s).
Proof.
  intros d n s F H. induction F as [|[k x] d Hx F IH]; cbn [def_insert]; [repeat constructor; exact H|].
  destruct (str_ltb n k); [repeat constructor; assumption|]. destruct (str_ltb k n); constructor; assumption.
Qed.

Definition keeps_nums {A} (P : A -> Prop) (g : definitions -> gres A) : Prop := forall d a d', def_nums d -> g d = GOk a d' -> P a /\ def_nums d'.

Lemma gen_all_nums : forall f ts, (forall t, In t ts -> keeps_nums nums (f t)) -> keeps_nums (fun l => Forall nums l /\ List.length l = List.length ts) (gen_all f ts).
Proof.
  intros f ts. induction ts as [|t ts IH]; intros H d a d' N E; cbn [gen_all] in E; [injection E as <- <-; repeat split; auto|].
  destruct (f t d) as [s d1| |] eqn:E1; try discriminate. cbn [gbind] in E. destruct (gen_all f ts d1) as [ss d2| |] eqn:E2; try discriminate. injection E as <- <-.
  destruct (H t (or_introl eq_refl) _ _ _ N E1) as [A B]. destruct (IH (fun t I => H t (or_intror I)) _ _ _ B E2) as [[C L] D]. repeat split; cbn; auto.
Qed.

Lemma visit_nums : forall f ms, (forall m, In m ms -> keeps_nums nums (f (m_ty m))) -> keeps_nums (fun r => Forall (fun p => nums (snd p)) (fst r)) (visit f ms).
Proof.
  intros f ms. induction ms as [|m ms IH]; intros H d a d' N E; cbn [visit] in E; [injection E as <- <-; split; [constructor|exact N]|].
  destruct (m_kind m); try discriminate;
  (destruct (f (m_ty m) d) as [s d1| |] eqn:E1; try discriminate; cbn [gbind] in E; destruct (visit f ms d1) as [ss d2| |] eqn:E2; try discriminate; injection E as <- <-;
  destruct (H m (or_introl eq_refl) _ _ _ N E1) as [A B]; destruct (IH (fun m I => H m (or_intror I)) _ _ _ B E2) as [C D]; split; [constructor|]; assumption).
Qed.

Lemma gen_nums : forall n inline t, machine_type e t -> keeps_nums nums (gen e tn n inline t).
Proof.
  induction n as [|n IH]; intros inline t M d s d' N E; cbn [gen] in E; [discriminate|].
  assert (Sz : machine_size t) by (apply M, rt_refl).
  assert (Mi : forall u, within e u t -> machine_type e u) by (intros u W w R; apply M; eapply rt_trans; [exact R|apply rt_step, W]).
  assert (Bind : forall A (x : gres A) (f : A -> jschema) (P : A -> Prop), (forall a d1, x = GOk a d1 -> P a /\ def_nums d1) -> (forall a, P a -> nums (f a)) ->
    gbind x (fun a d => GOk (f a) d) = GOk s d' -> nums s /\ def_nums d').
  { intros A [a d1| |] f P H Q X; cbn in X; try discriminate. injection X as <- <-. destruct (H _ _ eq_refl). auto. }
  destruct t; try discriminate E; try (injection E as <- <-; split; [|exact N]; repeat split; fail).
  - injection E as <- <-. split; [|exact N]. destruct (kept_bounds _ Sz). destruct (is_signed k); cbn; unfold TextSpec.kept in *; repeat split; try lia.
  - eapply Bind; [intros a d1 X; exact (IH false t (Mi t (or_introl eq_refl)) _ _ _ N X)| |exact E]. intros a Ha. repeat split; exact Ha.
  - eapply Bind; [intros a d1 X; exact (IH false t (Mi t (or_introl eq_refl)) _ _ _ N X)| |exact E]. intros a Ha. repeat split; try exact Ha; cbn in *; lia.
  - eapply Bind; [intros a d1 X; exact (IH false t (Mi t (or_introl eq_refl)) _ _ _ N X)| |exact E]. intros a Ha. repeat split; exact Ha.
  - eapply Bind; [intros a d1 X; exact (IH false t (Mi t (or_introl eq_refl)) _ _ _ N X)| |exact E]. intros a Ha. repeat split; exact Ha.
  - eapply Bind; [intros a d1 X; refine (gen_all_nums _ _ _ _ _ _ N X); intros u U; apply IH, Mi, U| |exact E]. intros l [F L].
    pose proof (nums_pointers l F). repeat split; try exact H; cbn in *; lia.
  - eapply Bind; [intros a d1 X; refine (gen_all_nums _ _ _ _ _ _ N X); intros u U; apply IH, Mi, U| |exact E]. intros l [F L].
    pose proof (nums_pointers l F). repeat split; try exact H; cbn [machine_size] in *; lia.
  - eapply Bind; [intros a d1 X; refine (gen_all_nums _ _ _ _ _ _ N X); intros u U; apply IH, Mi, U| |exact E]. intros l [F L].
    pose proof (nums_pointers l F). repeat split; exact H.
  - destruct (visit (gen e tn n false) (c_members (class_of e c)) d) as [r d1| |] eqn:E1; cbn [gbind] in E; try discriminate.
    assert (V : Forall (fun p => nums (snd p)) (fst r) /\ def_nums d1).
    { refine (visit_nums _ _ _ _ _ _ N E1). intros m I. apply IH, Mi. unfold within. cbn [inner]. now apply in_map. }
    destruct V as [F N1].
    assert (Q : nums (SObject (Some (fst r)) (Some (snd r)) (Some (inl false)))).
    { pose proof (nums_pairs _ F). pose proof (nums_strings (snd r)). repeat split; assumption. }
    destruct inline; injection E as <- <-; [auto|]. split; [repeat split|now apply def_insert_nums].
  - destruct (context_aware t); [|discriminate]. exact (IH _ _ (Mi t (or_introl eq_refl)) _ _ _ N E).
  - destruct (context_aware t); [|discriminate]. exact (IH _ _ (Mi t (or_introl eq_refl)) _ _ _ N E).
Qed.

Lemma object_nums : forall version s d, nums s -> def_nums d -> numbers (schema_object version s d).
Proof.
  intros version s d S F. unfold schema_object. cbn [TextSpec.numbers fold_right]. split; [destruct version; exact I|]. split; [|exact S].
  destruct F as [|p d Hp F]; [exact I|]. cbn [TextSpec.numbers]. assert (G : def_nums (p :: d)) by now constructor. remember (p :: d) as l eqn:E. clear E.
  induction G as [|[k x] l H G IH]; cbn [map fold_right fst snd]; [exact I|]. split; [exact H|exact IH].
Qed.
End Numbers.
