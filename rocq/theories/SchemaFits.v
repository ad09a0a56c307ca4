(** The member variables of schemas have contents that fit their types. *)
From Coq Require Import List Arith ZArith NArith Ascii String Bool Lia Relations.
From Verif Require Import Base Float NumericModel NumericSpec Json Types SchemaModel SchemaSpec SchemaGenSpec SchemaTextModel SchemaTextSpec SchemaTextProof.
Import ListNotations.

Section Fits.
Variable e : env.
Variable tn : nat -> string.
Notation fit := (fits schema_env).

Definition member_fits (m : member) (x : val) : Prop :=
  (m_kind m <> MOptional -> fit (m_ty m) x) /\ (m_kind m = MOptional -> x = VNone \/ exists y, x = VSome y /\ fit (m_ty m) y).

Definition nums (s : jschema) : Prop := Forall2 member_fits (members_for s) (variables s).
Definition def_nums (d : definitions) : Prop := Forall (fun p => nums (snd p)) d.

Lemma here : forall n t x, fit t x -> member_fits (required n t) x.
Proof. intros n t x H. split; [auto|discriminate]. Qed.

Lemma absent : forall n t, member_fits (optional n t) VNone.
Proof. intros n t. split; [intros K; now destruct K|auto]. Qed.

Lemma present : forall n t x, fit t x -> member_fits (optional n t) (VSome x).
Proof. intros n t x H. split; [intros K; now destruct K|eauto]. Qed.

Lemma node_fits : forall s, nums s -> fit schema_node (VVariant (kind s) (VObj (variables s))).
Proof. intros s H. eapply fits_alternative; [apply kind_alternative|]. apply fits_object. now rewrite node_class. Qed.

Lemma nodes_fit : forall l, Forall nums l -> fit (TVector (TUnique schema_node)) (VList (map (fun s => VPtr (VVariant (kind s) (VObj (variables s)))) l)).
Proof. intros l F. apply fits_vector. induction F as [|s l H F IH]; constructor; [apply fits_owned, node_fits, H|exact IH]. Qed.

Lemma strings_fit : forall l, fit (TVector TString) (VList (map VStr l)).
Proof. intros l. apply fits_vector. induction l; constructor; [apply fits_text|assumption]. Qed.

Lemma pairs_fit : forall l, Forall (fun p => nums (snd p)) l ->
  fit node_dict (VList (map (fun p : string * jschema => VList [VStr (fst p); VPtr (VVariant (kind (snd p)) (VObj (variables (snd p))))]) l)).
Proof. intros l F. apply fits_vector. induction F as [|s l H F IH]; constructor; [|exact IH]. apply fits_pair; [apply fits_text|apply fits_owned, node_fits, H]. Qed.

Lemma size_fits : forall n, (Z.of_nat n < 2 ^ 64)%Z -> fit (TInt unsigned_long_long) (size_value n).
Proof. intros n H. apply fits_number. unfold in_range, tmin, tmax, unsigned_long_long. cbn [width is_signed]. lia. Qed.

Lemma bounds_fit : forall k, machine_size (TInt k) ->
  fit (TInt (if is_signed k then long_long else unsigned_long_long)) (VInt (tmin k)) /\ fit (TInt (if is_signed k then long_long else unsigned_long_long)) (VInt (tmax k)).
Proof.
  intros [w s] H. cbn in H. pose proof (power_le (w - 1) 63). pose proof (power_le w 64).
  destruct s; split; apply fits_number; unfold in_range, tmin, tmax, long_long, unsigned_long_long; cbn [width is_signed]; lia.
Qed.

Ltac fit := repeat first [assumption|apply here|apply absent|apply present|apply Forall2_nil|apply Forall2_cons|apply fits_text|apply fits_bool|apply fits_owned, node_fits|apply nodes_fit|apply strings_fit|apply pairs_fit|apply size_fits].

Lemma def_insert_nums : forall d n s, def_nums d -> nums s -> def_nums (def_insert d n s).
Proof.
  intros d n s F H. induction F as [|[k x] d Hx F IH]; cbn [def_insert]; [repeat constructor; exact H|].
  destruct (str_ltb n k); [repeat constructor; assumption|]. destruct (str_ltb k n); constructor; assumption.
Qed.

Definition keeps_nums {A} (P : A -> Prop) (g : definitions -> gres A) : Prop := forall d a d', def_nums d -> g d = GOk a d' -> P a /\ def_nums d'.

Lemma gen_all_nums : forall f ts, (forall t, In t ts -> keeps_nums nums (f t)) -> keeps_nums (fun l => Forall nums l /\ List.length l = List.length ts) (gen_all f ts).
Proof.
  intros f ts. induction ts as [|t ts IH]; intros H d a d' N E; cbn [gen_all] in E; [injection E as <- <-; repeat split; auto|].
  destruct (f t d) as [s d1| |] eqn:E1; try discriminate. cbn [gbind] in E. destruct (gen_all f ts d1) as [ss d2| |] eqn:E2; try discriminate. injection E as <- <-.
  destruct (H t (or_introl eq_refl) _ _ _ N E1) as [A B]. destruct (IH (fun t I => H t (or_intror I)) _ _ _ B E2) as [[C L] D]. repeat split; cbn; auto.
Qed.

Lemma visit_nums : forall f ms, (forall m, In m ms -> keeps_nums nums (f (m_ty m))) -> keeps_nums (fun r => Forall (fun p => nums (snd p)) (fst r)) (visit f ms).
Proof.
  intros f ms. induction ms as [|m ms IH]; intros H d a d' N E; cbn [visit] in E; [injection E as <- <-; split; [constructor|exact N]|].
  destruct (m_kind m); try discriminate;
  (destruct (f (m_ty m) d) as [s d1| |] eqn:E1; try discriminate; cbn [gbind] in E; destruct (visit f ms d1) as [ss d2| |] eqn:E2; try discriminate; injection E as <- <-;
  destruct (H m (or_introl eq_refl) _ _ _ N E1) as [A B]; destruct (IH (fun m I => H m (or_intror I)) _ _ _ B E2) as [C D]; split; [constructor|]; assumption).
Qed.

Lemma gen_nums : forall n inline t, machine_type e t -> keeps_nums nums (gen e tn n inline t).
Proof.
  induction n as [|n IH]; intros inline t M d s d' N E; cbn [gen] in E; [discriminate|].
  assert (Sz : machine_size t) by (apply M, rt_refl).
  assert (Mi : forall u, within e u t -> machine_type e u) by (intros u W w R; apply M; eapply rt_trans; [exact R|apply rt_step, W]).
  assert (Bind : forall A (x : gres A) (f : A -> jschema) (P : A -> Prop), (forall a d1, x = GOk a d1 -> P a /\ def_nums d1) -> (forall a, P a -> nums (f a)) ->
    gbind x (fun a d => GOk (f a) d) = GOk s d' -> nums s /\ def_nums d').
  { intros A [a d1| |] f P H Q X; cbn in X; try discriminate. injection X as <- <-. destruct (H _ _ eq_refl). auto. }
  destruct t; try discriminate E; try (injection E as <- <-; split; [|exact N]; unfold nums; cbn; fit; fail).
  - injection E as <- <-. split; [|exact N]. destruct (bounds_fit _ Sz). destruct k as [w [|]]; unfold nums; cbn; fit.
  - injection E as <- <-. split; [|exact N]. unfold nums; cbn; fit. eapply (fits_alternative _ _ 0); [reflexivity|]. apply fits_vector. constructor.
  - injection E as <- <-. split; [|exact N]. unfold nums; cbn; fit. eapply (fits_alternative _ _ 0); [reflexivity|]. apply fits_vector. constructor.
  - eapply Bind; [intros a d1 X; exact (IH false t (Mi t (or_introl eq_refl)) _ _ _ N X)| |exact E]. intros a Ha. unfold nums; cbn; fit.
  - eapply Bind; [intros a d1 X; exact (IH false t (Mi t (or_introl eq_refl)) _ _ _ N X)| |exact E]. intros a Ha. unfold nums; cbn; fit.
  - eapply Bind; [intros a d1 X; exact (IH false t (Mi t (or_introl eq_refl)) _ _ _ N X)| |exact E]. intros a Ha. unfold nums; cbn; fit.
  - eapply Bind; [intros a d1 X; exact (IH false t (Mi t (or_introl eq_refl)) _ _ _ N X)| |exact E]. intros a Ha. unfold nums; cbn; fit.
    eapply (fits_alternative _ _ 1); [reflexivity|]. fit.
  - eapply Bind; [intros a d1 X; refine (gen_all_nums _ _ _ _ _ _ N X); intros u U; apply IH, Mi, U| |exact E]. intros l [F L]. unfold nums; cbn; fit; cbn in *; lia.
  - eapply Bind; [intros a d1 X; refine (gen_all_nums _ _ _ _ _ _ N X); intros u U; apply IH, Mi, U| |exact E]. intros l [F L]. unfold nums; cbn; fit; cbn [machine_size] in *; lia.
  - eapply Bind; [intros a d1 X; refine (gen_all_nums _ _ _ _ _ _ N X); intros u U; apply IH, Mi, U| |exact E]. intros l [F L]. unfold nums; cbn; fit.
  - destruct (visit (gen e tn n false) (c_members (class_of e c)) d) as [r d1| |] eqn:E1; cbn [gbind] in E; try discriminate.
    assert (V : Forall (fun p => nums (snd p)) (fst r) /\ def_nums d1).
    { refine (visit_nums _ _ _ _ _ _ N E1). intros m I. apply IH, Mi. unfold within. cbn [inner]. now apply in_map. }
    destruct V as [F N1].
    assert (Q : nums (SObject (Some (fst r)) (Some (snd r)) (Some (inl false)))).
    { unfold nums; cbn; fit. eapply (fits_alternative _ _ 0); [reflexivity|]. fit. }
    destruct inline; injection E as <- <-; [auto|]. split; [unfold nums; cbn; fit|now apply def_insert_nums].
  - destruct (context_aware t); [|discriminate]. exact (IH _ _ (Mi t (or_introl eq_refl)) _ _ _ N E).
  - destruct (context_aware t); [|discriminate]. exact (IH _ _ (Mi t (or_introl eq_refl)) _ _ _ N E).
Qed.

Lemma object_fits : forall version s d, nums s -> def_nums d -> fit (schema_type s) (schema_object version s d).
Proof.
  intros version s d S F. apply fits_object. rewrite document_members. constructor; [destruct version; [apply present, fits_text|apply absent]|]. constructor; [|exact S].
  destruct F as [|p d Hp F]; [apply absent|]. apply present, fits_dictionary. assert (G : def_nums (p :: d)) by now constructor. remember (p :: d) as l eqn:E. clear E.
  induction G as [|q l H G IH]; cbn [map]; [constructor|]. constructor; [apply node_fits, H|exact IH].
Qed.
End Fits.
