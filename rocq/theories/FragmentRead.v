(** The form of the references in a document does not matter. *)
From Coq Require Import List Arith ZArith NArith Ascii String Bool Lia Relations.
From Verif Require Import Base Float Json Types RefsModel PathModel SerializeModel DeserializeModel DenoteProof DenoteFacts MemberFacts SchemaGenSpec SafetySpec
  SafetyProof TextSpec FragmentSpec FragmentProof RespellSpec.
Import ListNotations.

Definition alike (f f' : reader) : Prop := forall old ctx loc st, f old ctx loc st = f' old ctx loc st.

Lemma items_alike : forall init add fs fs', Forall2 alike fs fs' -> forall k acc ctx loc st,
  read_items init add fs k acc ctx loc st = read_items init add fs' k acc ctx loc st.
Proof.
  intros init add fs fs' F. induction F as [|f f' fs fs' A F IH]; intros k acc ctx loc st; [reflexivity|]. cbn [read_items]. rewrite A.
  destruct (f' init (at_index ctx (N.of_nat k)) (loc ++ [k]) st) as [[|] st' x|why p| |]; auto.
Qed.

Lemma tuple_alike : forall fs fs', Forall2 alike fs fs' -> forall k olds ctx loc st, read_tuple fs k olds ctx loc st = read_tuple fs' k olds ctx loc st.
Proof.
  intros fs fs' F. induction F as [|f f' fs fs' A F IH]; intros k olds ctx loc st; [reflexivity|]. cbn [read_tuple]. rewrite A.
  destruct (f' (hd VIndet olds) (at_index ctx (N.of_nat k)) (loc ++ [k]) st) as [[|] st' x|why p| |]; auto. now rewrite IH.
Qed.

Lemma entries_alike : forall init fs fs', Forall2 (fun p q => fst p = fst q /\ alike (snd p) (snd q)) fs fs' -> forall k acc ctx loc st,
  read_entries init fs k acc ctx loc st = read_entries init fs' k acc ctx loc st.
Proof.
  intros init fs fs' F. induction F as [|[n f] [n' f'] fs fs' [E A] F IH]; intros k acc ctx loc st; [reflexivity|]. cbn [fst snd] in E, A. subst n'. cbn [read_entries]. rewrite A.
  destruct (f' init (at_name ctx n) (loc ++ [k]) st) as [[|] st' x|why p| |]; auto.
Qed.

Lemma variant_alike : forall fs fs', Forall2 (fun p q => fst p = fst q /\ alike (snd p) (snd q)) fs fs' -> forall i ctx loc st,
  read_variant fs i ctx loc st = read_variant fs' i ctx loc st.
Proof.
  intros fs fs' F. induction F as [|[n f] [n' f'] fs fs' [E A] F IH]; intros i ctx loc st; [reflexivity|]. cbn [fst snd] in E, A. subst n'. cbn [read_variant]. rewrite A.
  destruct (f' n ctx loc st) as [[|] st' x|why p| |]; auto.
Qed.

Lemma find_fun_alike : forall A (R : string -> A -> A -> Prop) fs fs', Forall2 (fun p q => fst p = fst q /\ R (fst p) (snd p) (snd q)) fs fs' -> forall k name,
  find_fun fs k name = None /\ find_fun fs' k name = None \/ exists i f f', find_fun fs k name = Some (i, f) /\ find_fun fs' k name = Some (i, f') /\ R name f f'.
Proof.
  intros A R fs fs' F. induction F as [|[n f] [n' f'] fs fs' [E X] F IH]; intros k name; [now left|]. cbn [fst snd] in E, X. subst n'. cbn [find_fun].
  destruct (String.eqb_spec n name) as [->|_]; [right; now exists k, f, f'|apply IH].
Qed.

Lemma members_alike : forall e exc fs fs' ms,
  (forall m flag old ctx loc st, In m ms -> read_member e exc fs m flag old ctx loc st = read_member e exc fs' m flag old ctx loc st) ->
  forall r seen flag olds ctx loc st, read_members e exc fs ms r seen flag olds ctx loc st = read_members e exc fs' ms r seen flag olds ctx loc st.
Proof.
  intros e exc fs fs' ms. induction ms as [|m ms IH]; intros H r seen flag olds ctx loc st; [reflexivity|]. cbn [read_members]. rewrite H by now left.
  assert (T : forall r seen flag olds ctx loc st, read_members e exc fs ms r seen flag olds ctx loc st = read_members e exc fs' ms r seen flag olds ctx loc st) by (apply IH; intros; apply H; now right).
  destruct (read_member e exc fs' m flag (hd VIndet olds) ctx loc st) as [ok st' x|why p| |]; try reflexivity. destruct r; now rewrite T.
Qed.

Lemma types_alike : forall fs fs', Forall2 (fun f f' : ty -> reader => True) fs fs' -> forall ts,
  (forall f f' t, In (f, f') (combine fs fs') -> In t ts -> alike (f t) (f' t)) ->
  match apply_types fs ts, apply_types fs' ts with
  | None, None => True
  | Some gs, Some gs' => Forall2 alike gs gs'
  | _, _ => False
  end.
Proof.
  intros fs fs' F. induction F as [|f f' fs fs' _ F IH]; intros [|t ts] H; cbn [apply_types]; try constructor; auto.
  specialize (IH ts). destruct (apply_types fs ts) as [gs|], (apply_types fs' ts) as [gs'|]; try (apply IH; intros; apply H; [now right|now right]); auto.
  constructor; [apply H; now left|]. apply IH. intros g g' u I J. apply H; now right.
Qed.

(** ** Respelled documents *)

Lemma respelled_arrays : forall name l j, respelled name (JArr l) j -> exists l', j = JArr l' /\ Forall2 (respelled "") l l'.
Proof.
  intros name l j H. inversion H; subst; eauto. exists l. split; [reflexivity|]. clear. induction l; constructor; [constructor|assumption].
Qed.

Lemma respelled_objects : forall name l j, respelled name (JObj l) j ->
  exists l', j = JObj l' /\ Forall2 (fun p q => fst p = fst q /\ respelled (fst p) (snd p) (snd q)) l l'.
Proof.
  intros name l j H. inversion H; subst; eauto. exists l. split; [reflexivity|]. clear. induction l; constructor; [split; [reflexivity|constructor]|assumption].
Qed.

Lemma respelled_strings : forall name s j, respelled name (JStr s) j ->
  j = JStr s \/ name = "$ref"%string /\ exists s' ns, j = JStr s' /\ refers (list_ascii_of_string s) ns /\ refers (list_ascii_of_string s') ns.
Proof. intros name s j H. inversion H; subst; [now left|right; split; [reflexivity|]]. eauto. Qed.

Lemma respelled_leaves : forall name j j', respelled name j j' -> match j with JNull | JBool _ | JInt _ | JDbl _ => j' = j | _ => True end.
Proof. intros name j j' []; try exact I. now destruct j0. Qed.

(** The same places. *)
Lemma nth_alike : forall A (R : A -> A -> Prop) l l', Forall2 R l l' -> forall k,
  nth_error l k = None /\ nth_error l' k = None \/ exists x x', nth_error l k = Some x /\ nth_error l' k = Some x' /\ R x x' /\ In x l.
Proof.
  intros A R l l' F. induction F as [|x x' l l' X F IH]; intros [|k]; cbn [nth_error]; auto.
  - right. exists x, x'. repeat split; [exact X|now left].
  - destruct (IH k) as [?|(y & y' & ? & ? & ? & ?)]; [now left|]. right. exists y, y'. repeat split; auto. now right.
Qed.

Lemma respelled_places : forall j j' name, respelled name j j' -> forall ts, option_map fst (pointer_get j ts) = option_map fst (pointer_get j' ts).
Proof.
  induction j as [|b|z|f|s|l IH|l IH] using json_ind'; intros j' name R ts; try (apply respelled_leaves in R; now subst j').
  - apply respelled_strings in R as [->|(_ & s' & ns & -> & _)]; [reflexivity|]. destruct ts; reflexivity.
  - apply respelled_arrays in R as (l' & -> & F). destruct ts as [|t ts]; [reflexivity|]. cbn [pointer_get]. destruct (tok_index t) as [i|]; [|reflexivity].
    assert (L : List.length l = List.length l') by (clear -F; induction F; cbn; congruence). rewrite <- L. destruct (N.of_nat (List.length l) <=? i)%N; [reflexivity|].
    destruct (nth_alike _ _ _ _ F (N.to_nat i)) as [[-> ->]|(x & x' & -> & -> & X & I)]; [reflexivity|]. rewrite Forall_forall in IH. specialize (IH x I x' _ X ts).
    destruct (pointer_get x ts) as [[? ?]|], (pointer_get x' ts) as [[? ?]|]; cbn in *; congruence.
  - apply respelled_objects in R as (l' & -> & F). destruct ts as [|t ts]; [reflexivity|]. cbn [pointer_get].
    assert (Ix : forall n, find_index l n = find_index l' n).
    { intros n. clear IH. induction F as [|[n1 x] [n2 x'] l l' [E _] F IHF]; [reflexivity|]. cbn [fst] in E. subst n2. cbn [find_index]. now rewrite IHF. }
    rewrite <- Ix. destruct (find_index l (string_of_list_ascii (tok_name t))) as [k|]; [|reflexivity].
    destruct (nth_alike _ _ _ _ F k) as [[-> ->]|([n1 x] & [n2 x'] & -> & -> & [E X] & I)]; [reflexivity|]. rewrite Forall_forall in IH. specialize (IH _ I x' _ X ts). cbn [snd] in IH.
    destruct (pointer_get x ts) as [[? ?]|], (pointer_get x' ts) as [[? ?]|]; cbn in *; congruence.
Qed.

Section Respelled.
Variable e : env.
Variable T : ty.
Variables root root' : json.
Hypothesis Hroot : respelled "" root root'.
Hypothesis Honly : refs_only e T.

Lemma string_alike : forall s s' t, textual t = false -> forall exc, alike (deser e root (JStr s) exc t) (deser e root' (JStr s') exc t).
Proof.
  intros s s' t. induction t using ty_ind'; cbn [textual]; intros N exc old ctx loc st; try discriminate N; rewrite !deser_unfold; cbn [deser_step]; try reflexivity.
  - rewrite (variant_alike _ (map (fun u => (dinit e u, deser e root' (JStr s') false u)) ts)); [reflexivity|].
    clear -H N. induction H as [|t ts A H IH]; [constructor|]. cbn [existsb] in N. apply orb_false_iff in N as [N1 N2]. constructor; [split; [reflexivity|now apply A]|now apply IH].
  - now rewrite IHt.
  - now rewrite IHt.
Qed.

Lemma ref_alike : forall u x x' old st, respelled "$ref" x x' -> read_ref root u x old st = read_ref root' u x' old st.
Proof.
  intros u x x' old st R. pose proof (respelled_places _ _ _ Hroot) as P.
  assert (G : forall s s', parse_reference (list_ascii_of_string s) = parse_reference (list_ascii_of_string s') -> read_ref root u (JStr s) old st = read_ref root' u (JStr s') old st).
  { intros s s' E. unfold read_ref. rewrite E. destruct (parse_reference (list_ascii_of_string s')) as [ts|]; [|reflexivity]. specialize (P ts).
    destruct (pointer_get root ts) as [[place y]|], (pointer_get root' ts) as [[place' y']|]; cbn in P; try discriminate P; [|reflexivity]. now injection P as <-. }
  inversion R as [name j|s s' ns A B|name l l'|name l l']; subst; try reflexivity.
  - destruct x'; try reflexivity. now apply G.
  - apply G. transitivity (Some (map make_token ns)); [|symmetry]; apply parse_reference_exactly; eauto.
Qed.

Lemma deser_alike : forall j j' name, respelled name j j' -> forall t, reachable e t T -> (name = "$ref"%string -> textual t = false) ->
  forall exc, alike (deser e root j exc t) (deser e root' j' exc t).
Proof.
  assert (W1 : forall k t, (k = TVector \/ k = TSet \/ k = TUnique \/ k = TShared \/ (exists n, k = TArray n) \/ (exists o, k = TMap o)) ->
    reachable e (k t) T -> reachable e t T).
  { intros k t H R. apply (part_reachable e T t (k t)); [|exact R]. destruct H as [-> | [-> | [-> | [-> | [[n ->] | [o ->]]]]]]; now left. }
  assert (V : forall j j' ts exc, Forall (fun t => forall exc, alike (deser e root j exc t) (deser e root' j' exc t)) ts ->
    alike (deser e root j exc (TVariant ts)) (deser e root' j' exc (TVariant ts))).
  { intros j j' ts exc F old ctx loc st. rewrite !deser_unfold. cbn [deser_step]. rewrite (variant_alike _ (map (fun u => (dinit e u, deser e root' j' false u)) ts)); [reflexivity|].
    induction F as [|t ts A F IH]; constructor; [split; [reflexivity|apply A]|exact IH]. }
  assert (Vt : forall ts t, In t ts -> existsb textual ts = false -> textual t = false).
  { intros ts t I E. destruct (textual t) eqn:X; [|reflexivity]. rewrite <- E. symmetry. apply existsb_exists. eauto. }
  induction j as [|b|z|f|s|l IH|l IH] using json_ind'; intros j' name R; try (apply respelled_leaves in R; subst j').
  1-4: intros t; induction t using ty_ind'; intros Rt N exc;
    try (apply V; rewrite Forall_forall in *; intros u I; apply H; [exact I|exact (part_reachable e T u (TVariant ts) I Rt)|intros E; specialize (N E); cbn in N; eauto]);
    intros old ctx loc st; rewrite !deser_unfold; cbn [deser_step]; try reflexivity;
    rewrite IHt; try reflexivity; try exact N; first [apply (W1 TUnique); auto 6; fail|apply (W1 TShared); auto 6].
  - apply respelled_strings in R as [->|(-> & s' & ns & -> & A & B)]; [|intros t _ N; apply string_alike; now apply N].
    intros t; induction t using ty_ind'; intros Rt N exc;
    try (apply V; rewrite Forall_forall in *; intros u I; apply H; [exact I|exact (part_reachable e T u (TVariant ts) I Rt)|intros E; specialize (N E); cbn in N; eauto]);
    intros old ctx loc st; rewrite !deser_unfold; cbn [deser_step]; try reflexivity;
    rewrite IHt; try reflexivity; try exact N; first [apply (W1 TUnique); auto 6; fail|apply (W1 TShared); auto 6].
  - apply respelled_arrays in R as (l' & -> & F). assert (L : List.length l = List.length l') by (clear -F; induction F; cbn; congruence).
    assert (El : forall u exc, reachable e u T -> Forall2 alike (map (fun f => f exc u) (map (deser e root) l)) (map (fun f => f exc u) (map (deser e root') l'))).
    { intros u exc Ru. clear L. induction F as [|x x' l l' X F IHF]; [constructor|]. inversion IH as [|? ? Hx IH']; subst. constructor; [|now apply IHF].
      apply (Hx x' _ X); [exact Ru|discriminate]. }
    assert (Tu : forall ts exc, (forall u, In u ts -> reachable e u T) -> match apply_types (map (fun f => f exc) (map (deser e root) l)) ts, apply_types (map (fun f => f exc) (map (deser e root') l')) ts with
      | None, None => True | Some gs, Some gs' => Forall2 alike gs gs' | _, _ => False end).
    { intros ts exc Ru. apply types_alike; [clear -F; induction F; cbn; constructor; auto|]. intros f f' u I J.
      rewrite !map_map in I. clear L El. induction F as [|x x' l l' X F IHF]; [destruct I|]. inversion IH as [|? ? Hx IH']; subst. destruct I as [I|I]; [|now apply IHF].
      injection I as <- <-. apply (Hx x' _ X); [now apply Ru|discriminate]. }
    intros t; induction t using ty_ind'; intros Rt N exc;
    try (apply V; rewrite Forall_forall in *; intros u I; apply H; [exact I|exact (part_reachable e T u (TVariant ts) I Rt)|intros E; specialize (N E); cbn in N; eauto]);
    intros old ctx loc st; rewrite !deser_unfold; cbn [deser_step]; try reflexivity.
    + now rewrite (items_alike _ _ _ _ (El t exc (W1 TVector t ltac:(auto) Rt))).
    + rewrite <- L. destruct (negb _); [reflexivity|]. unfold read_array. now rewrite (items_alike _ _ _ _ (El t exc (W1 (TArray n) t ltac:(eauto 8) Rt))).
    + now rewrite (items_alike _ _ _ _ (El t exc (W1 TSet t ltac:(auto) Rt))).
    + specialize (Tu [t1; t2] exc (fun u I => part_reachable e T u (TPair t1 t2) I Rt)). rewrite <- L.
      destruct (apply_types (map (fun f => f exc) (map (deser e root) l)) _), (apply_types (map (fun f => f exc) (map (deser e root') l')) _); try contradiction; [|reflexivity]. now rewrite (tuple_alike _ _ Tu).
    + specialize (Tu ts exc (fun u I => part_reachable e T u (TTuple ts) I Rt)). rewrite <- L.
      destruct (apply_types (map (fun f => f exc) (map (deser e root) l)) _), (apply_types (map (fun f => f exc) (map (deser e root') l')) _); try contradiction; [|reflexivity]. now rewrite (tuple_alike _ _ Tu).
    + rewrite IHt; [reflexivity|apply (W1 TUnique); auto 6|exact N].
    + rewrite IHt; [reflexivity|apply (W1 TShared); auto 6|exact N].
  - apply respelled_objects in R as (l' & -> & F).
    intros t; induction t using ty_ind'; intros Rt N exc;
    try (apply V; rewrite Forall_forall in *; intros u I; apply H; [exact I|exact (part_reachable e T u (TVariant ts) I Rt)|intros E; specialize (N E); cbn in N; eauto]);
    intros old ctx loc st; rewrite !deser_unfold; cbn [deser_step]; try reflexivity.
    + apply entries_alike. assert (Nt : textual t = false) by exact (proj1 Honly _ _ Rt). pose proof (W1 (TMap o) t ltac:(eauto 8) Rt) as Ru. clear -F IH Nt Ru.
      induction F as [|[n1 x] [n2 x'] l l' [E X] F IHF]; [constructor|]. inversion IH as [|? ? Hx IH']; subst. constructor; [|now apply IHF]. cbn in E, X |- *. subst n2. split; [reflexivity|].
      apply (Hx x' n1 X); [exact Ru|auto].
    + f_equal. apply members_alike. intros m flag old' ctx' loc' st' I.
      assert (Rm : reachable e (m_ty m) T) by (apply (part_reachable e T (m_ty m) (TClass c)); [cbn; now apply in_map|exact Rt]).
      assert (Nm : m_name m = "$ref"%string -> textual (m_ty m) = false) by (intros E; exact (proj2 Honly c m Rt I E)).
      assert (FF : Forall2 (fun p q => fst p = fst q /\ (fun n f f' => (n = m_name m -> forall exc, alike (f exc (m_ty m)) (f' exc (m_ty m)))) (fst p) (snd p) (snd q))
        (map (fun p => (fst p, deser e root (snd p))) l) (map (fun p => (fst p, deser e root' (snd p))) l')).
      { clear -F IH Rm Nm. induction F as [|[n1 x] [n2 x'] l l' [E X] F IHF]; [constructor|]. inversion IH as [|? ? Hx IH']; subst. constructor; [|now apply IHF]. cbn in E, X |- *. subst n2.
        split; [reflexivity|]. intros -> exc. apply (Hx x' _ X); [exact Rm|exact Nm]. }
      unfold read_member. destruct (find_fun_alike _ _ _ _ FF 0 (m_name m)) as [[-> ->]|(i & f & f' & -> & -> & A)]; [reflexivity|]. specialize (A eq_refl).
      destruct (m_kind m); [apply A|apply A|]. now rewrite A.
    + rewrite IHt; [reflexivity|apply (W1 TUnique); auto 6|exact N].
    + assert (FM : find_member l "$ref" = None /\ find_member l' "$ref" = None \/ exists x x', find_member l "$ref" = Some x /\ find_member l' "$ref" = Some x' /\ respelled "$ref" x x').
      { clear -F. induction F as [|[n1 x] [n2 x'] l l' [E X] F IHF]; [now left|]. cbn in E, X. subst n2. cbn [find_member]. destruct (String.eqb_spec n1 "$ref") as [->|_]; [right; eauto|exact IHF]. }
      destruct FM as [[-> ->]|(x & x' & -> & -> & X)]; [|now apply ref_alike]. rewrite IHt; [reflexivity|apply (W1 TShared); auto 6|exact N].
Qed.
End Respelled.
