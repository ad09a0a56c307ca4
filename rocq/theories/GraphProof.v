(** Shared objects are written once, and read as shared again. *)
From Coq Require Import List Arith ZArith NArith Ascii String Bool Permutation Sorted Lia.
From Verif Require Import Base Float NumericModel NumericSpec Base64Model Base64Spec Base64Proof DatetimeModel DatetimeSpec EnumModel EnumProof RefsModel RefsProof
  Json PathModel PathSpec PathProof Types SerializeModel DeserializeModel DenoteSpec DenoteProof MapFacts AgreeProof RoundSpec DocSpec RoundProof RoundParse GraphSpec.
Import ListNotations.

(** * Places and paths *)
Inductive lies (root : json) : list step -> list nat -> json -> Prop :=
| lies_root : lies root [] [] root
| lies_member : forall ss loc l1 n v l2, lies root ss loc (JObj (l1 ++ (n, v) :: l2)) -> ~ In n (map fst l1) ->
    lies root (ss ++ [Member n]) (loc ++ [List.length l1]) v
| lies_element : forall ss loc l1 v l2, lies root ss loc (JArr (l1 ++ v :: l2)) ->
    lies root (ss ++ [Element (List.length l1)]) (loc ++ [List.length l1]) v.

Lemma pointer_get_app : forall ts j ts', pointer_get j (ts ++ ts') =
  match pointer_get j ts with
  | Some (loc, r) => match pointer_get r ts' with Some (loc', r') => Some (loc ++ loc', r') | None => None end
  | None => None
  end.
Proof.
  induction ts as [|t ts IH]; intros j ts'; cbn; [now destruct (pointer_get j ts') as [[]|]|].
  destruct j; auto.
  - destruct (tok_index t) as [i|]; auto. destruct (_ <=? _)%N; auto. destruct (nth_error l (N.to_nat i)) as [x|]; auto. rewrite IH.
    destruct (pointer_get x ts) as [[loc r]|]; auto. now destruct (pointer_get r ts') as [[]|].
  - destruct (find_index _ _); auto. destruct (nth_error l n) as [[k x]|]; auto. rewrite IH.
    destruct (pointer_get x ts) as [[loc r]|]; auto. now destruct (pointer_get r ts') as [[]|].
Qed.

Lemma lies_get : forall root ss loc j, lies root ss loc j -> Forall plain_step ss ->
  pointer_get root (map (fun s => make_token (name_of s)) ss) = Some (loc, j).
Proof.
  intros root ss loc j L. induction L as [|ss loc l1 n v l2 L IH N|ss loc l1 v l2 L IH]; intros P; [reflexivity| |];
    apply Forall_app in P; destruct P as [P Q]; inversion Q as [|? ? Q1 _]; subst; rewrite map_app, pointer_get_app, (IH P); cbn [map pointer_get].
  - unfold make_token at 1. cbn [tok_name name_of]. rewrite string_of_list_ascii_of_string, (find_index_app l1 n v l2 N), nth_error_mid. reflexivity.
  - cbn [name_of] in *. cbn in Q1. rewrite token_index_dec by exact Q1. rewrite app_length. cbn [List.length].
    destruct (N.leb_spec (N.of_nat (List.length l1 + S (List.length l2))) (N.of_nat (List.length l1))); [lia|].
    now rewrite Nat2N.id, nth_error_mid.
Qed.

Definition at_path (root : json) (ctx : list segment) (loc : list nat) (j : json) : Prop :=
  exists ss, lies root ss loc j /\ ctx = rev (map segment_of ss) /\ Forall plain_step ss.

Lemma at_member : forall root ctx loc l1 n v l2, at_path root ctx loc (JObj (l1 ++ (n, v) :: l2)) -> ~ In n (map fst l1) -> plain_step (Member n) ->
  at_path root (name_segment (list_ascii_of_string n) :: ctx) (loc ++ [List.length l1]) v.
Proof.
  intros root ctx loc l1 n v l2 (ss & L & -> & P) N Q. exists (ss ++ [Member n]). split; [eapply lies_member; eauto|].
  split; [now rewrite map_app, rev_app_distr|]. apply Forall_app. auto.
Qed.

Lemma at_element : forall root ctx loc l1 v l2, at_path root ctx loc (JArr (l1 ++ v :: l2)) -> plain_step (Element (List.length l1)) ->
  at_path root (at_index ctx (N.of_nat (List.length l1))) (loc ++ [List.length l1]) v.
Proof.
  intros root ctx loc l1 v l2 (ss & L & -> & P) Q. exists (ss ++ [Element (List.length l1)]). split; [eapply lies_element; eauto|].
  split; [now rewrite map_app, rev_app_distr|]. apply Forall_app. auto.
Qed.

(** The reference [segments] leads to [place]. *)
Definition resolves (root : json) (segments : list segment) (place : list nat) : Prop :=
  exists ss j, segments = rev (map segment_of ss) /\ ss <> [] /\ Forall plain_step ss /\ lies root ss place j.

Lemma at_resolves : forall root ctx loc j, at_path root ctx loc j -> ctx <> [] -> resolves root ctx loc.
Proof. intros root ctx loc j (ss & L & -> & P) N. exists ss, j. repeat split; auto. intros ->. now apply N. Qed.

Lemma resolves_get : forall root segments place, resolves root segments place ->
  exists ts j, parse_pointer (path_str segments) = Some ts /\ pointer_get root ts = Some (place, j).
Proof.
  intros root segments place (ss & j & -> & N & P & L). exists (map (fun s => make_token (name_of s)) ss), j.
  split; [now apply parse_path|now apply lies_get].
Qed.

Lemma resolves_unique : forall root segments p q, resolves root segments p -> resolves root segments q -> p = q.
Proof.
  intros root segments p q A B. apply resolves_get in A, B. destruct A as (ts & j & E & F). destruct B as (ts' & j' & E' & F'). congruence.
Qed.

Lemma path_slash : forall segments, exists r, path_str segments = "/"%char :: r.
Proof.
  intros [|s l]; [now exists []|]. unfold path_str. destruct (rev (s :: l)) as [|x r] eqn:E.
  - apply (f_equal (@List.length segment)) in E. rewrite rev_length in E. discriminate.
  - cbn. eauto.
Qed.

Definition prefix (loc place : list nat) : Prop := exists rest, place = loc ++ rest.

Lemma prefix_refl : forall l, prefix l l. Proof. intros l. exists []. now rewrite app_nil_r. Qed.

Lemma prefix_trans : forall a b c, prefix a b -> prefix b c -> prefix a c.
Proof. intros a b c (r & ->) (s & ->). exists (r ++ s). now rewrite app_assoc. Qed.

Lemma prefix_below : forall loc i, prefix loc (loc ++ [i]). Proof. intros. now exists [i]. Qed.

Lemma prefix_apart : forall loc i j place, prefix (loc ++ [i]) place -> prefix (loc ++ [j]) place -> i = j.
Proof. intros loc i j place (r & ->) (s & E). rewrite <- !app_assoc in E. apply app_inv_head in E. now inversion E. Qed.

Lemma prefix_below_not : forall loc i, ~ prefix (loc ++ [i]) loc.
Proof. intros loc i (r & E). apply (f_equal (@List.length nat)) in E. rewrite !app_length in E. cbn in E. lia. Qed.

Lemma place_eqb_spec : forall a b, place_eqb a b = true <-> a = b.
Proof. intros a b. unfold place_eqb. destruct (list_eq_dec Nat.eq_dec a b); split; congruence. Qed.

Lemma put_place : forall (t : DeserializeModel.rtable) k o key, ref_get place_eqb t k = None ->
  ref_get place_eqb (ref_put place_eqb t k o) key = match ref_get place_eqb t key with Some w => Some w | None => if place_eqb k key then Some o else None end.
Proof.
  intros t k o key N. unfold ref_put. rewrite N. clear N. induction t as [|[q w] t IH]; cbn; auto. destruct (place_eqb q key); auto.
Qed.

Lemma put_address : forall V (t : list (nat * V)) k o key, ref_get Nat.eqb t k = None ->
  ref_get Nat.eqb (ref_put Nat.eqb t k o) key = match ref_get Nat.eqb t key with Some w => Some w | None => if Nat.eqb k key then Some o else None end.
Proof.
  intros V t k o key N. unfold ref_put. rewrite N. clear N. induction t as [|[q w] t IH]; cbn; auto. destruct (Nat.eqb q key); auto.
Qed.

Lemma ty_eqb_refl : forall t, ty_eqb t t = true.
Proof.
  fix IH 1. intros t. destruct t; cbn; auto; rewrite ?Nat.eqb_refl, ?Bool.eqb_reflx, ?IH; auto.
  - unfold ity_eqb. now rewrite Z.eqb_refl, Bool.eqb_reflx.
  - unfold ity_eqb. now rewrite Z.eqb_refl, Bool.eqb_reflx.
  - induction names as [|[z s] l IHl]; cbn; auto. now rewrite Z.eqb_refl, String.eqb_refl, IHl.
  - induction ts as [|u ts IHl]; cbn; auto. now rewrite IH.
  - induction ts as [|u ts IHl]; cbn; auto. now rewrite IH.
Qed.

(** * Addresses *)
Definition lookup (m : list (nat * nat)) (a : nat) : option nat := ref_get Nat.eqb m a.
Definition fn (m : list (nat * nat)) (a : nat) : nat := match lookup m a with Some b => b | None => 0 end.
Definition extends (m m' : list (nat * nat)) : Prop := forall a b, lookup m a = Some b -> lookup m' a = Some b.
Definition covers (m : list (nat * nat)) (v : val) : Prop := forall a, In a (addresses v) -> lookup m a <> None.

Lemma extends_refl : forall m, extends m m. Proof. intros m a b E. exact E. Qed.
Lemma extends_trans : forall a b c, extends a b -> extends b c -> extends a c. Proof. intros a b c E F x y L. auto. Qed.

Lemma covers_extends : forall m m' v, extends m m' -> covers m v -> covers m' v.
Proof. intros m m' v E C a I. specialize (C a I). destruct (lookup m a) eqn:L; [|congruence]. apply E in L. congruence. Qed.

Lemma fn_extends : forall m m' a, extends m m' -> lookup m a <> None -> fn m' a = fn m a.
Proof. intros m m' a E N. unfold fn. destruct (lookup m a) as [b|] eqn:L; [|congruence]. now rewrite (E _ _ L). Qed.

Lemma rename_ext : forall r r' v, (forall a, In a (addresses v) -> r a = r' a) -> rename r v = rename r' v.
Proof.
  intros r r'.
  induction v as [| |b|z|f|s|b|z|z|l IH|l IH|i v IH|l IH| |v IH| |v IH|a v IH] using val_ind'; intros E; cbn in *; auto;
    try (rewrite IH; auto; fail).
  - f_equal. apply map_ext_in. intros x I. rewrite Forall_forall in IH. apply (IH x I). intros a Ia. apply E. apply in_flat_map. eauto.
  - f_equal. apply map_ext_in. intros x I. rewrite Forall_forall in IH. rewrite (IH x I); auto. intros a Ia. apply E. apply in_flat_map. eauto.
  - f_equal. apply map_ext_in. intros x I. rewrite Forall_forall in IH. apply (IH x I). intros a Ia. apply E. apply in_flat_map. eauto.
  - rewrite IH; auto. f_equal. auto.
Qed.

Lemma rename_extends : forall m m' v, extends m m' -> covers m v -> rename (fn m') v = rename (fn m) v.
Proof. intros m m' v E C. apply rename_ext. intros a I. apply fn_extends; auto. Qed.

Lemma rename_unshared : forall r v, addresses v = [] -> rename r v = v.
Proof.
  intros r v E. rewrite (rename_ext r (fun a => a)) by (rewrite E; easy). clear E.
  induction v as [| |b|z|f|s|b|z|z|l IH|l IH|i v IH|l IH| |v IH| |v IH|a v IH] using val_ind'; cbn; auto; try (now rewrite IH).
  - f_equal. rewrite <- (map_id l) at 2. apply map_ext_in. intros x I. rewrite Forall_forall in IH. auto.
  - f_equal. rewrite <- (map_id l) at 2. apply map_ext_in. intros [k x] I. rewrite Forall_forall in IH. specialize (IH (k, x) I). cbn in *. now rewrite IH.
  - f_equal. rewrite <- (map_id l) at 2. apply map_ext_in. intros x I. rewrite Forall_forall in IH. auto.
Qed.

(** An address is not part of what it points to. *)
Fixpoint size (v : val) : nat :=
  match v with
  | VList l | VObj l => S (list_sum (map size l))
  | VMap l => S (list_sum (map (fun p => size (snd p)) l))
  | VVariant _ x | VSome x | VPtr x | VShared _ x => S (size x)
  | _ => 1
  end.

Lemma in_size : forall x l, In x l -> size x <= list_sum (map size l).
Proof. intros x l. unfold list_sum. induction l as [|y l IH]; intros []; cbn; [subst; lia|]. specialize (IH H). lia. Qed.

Lemma vpart_size : forall e t v u x, vpart e t v u x -> size x < size v.
Proof.
  intros e t v u x P. inversion P; subst; cbn [size]; try lia;
    try match goal with I : In x _ |- _ => apply in_size in I; lia | I : nth_error _ _ = Some x |- _ => apply nth_error_In, in_size in I; lia end.
  - apply Nat.lt_succ_r. unfold list_sum. clear P. match goal with I : In _ _ |- _ => revert I end. induction l as [|q l IH]; intros I; cbn in *; [tauto|].
    destruct I as [->|I]; cbn; [lia|]. specialize (IH I). lia.
  - match goal with I : nth_error _ _ = Some (VSome x) |- _ => apply nth_error_In, in_size in I; cbn in I; lia end.
Qed.

Lemma occurs_size : forall e t v u x, occurs e t v u x -> size x <= size v.
Proof. intros e t v u x O. induction O as [|t v u x t' v' P O IH]; auto. apply vpart_size in P. lia. Qed.

Lemma simple_part : forall e t v u x, vpart e t v u x -> simple e t v -> simple e u x.
Proof. intros e t v u x P [G1 G2]. split; intros; eauto using occurs. Qed.

Lemma graph_simple : forall e H T t v, graph e H T t v -> simple e t v.
Proof. intros e H T t v [G1 G2 G3 G4 G5]. split; eauto. Qed.

Lemma graph_part : forall e H T t v u x, vpart e t v u x -> graph e H T t v -> graph e H T u x.
Proof.
  intros e H T t v u x P [G1 G2 G3 G4 G5]. split; intros; eauto using occurs.
Qed.

(** The parts of a value with their labels, in the order of the type. *)
Fixpoint present (ms : list member) (vs : list val) : list (string * ty * val) :=
  match ms, vs with
  | m :: ms', v :: vs' =>
    match m_kind m, v with
    | MOptional, VNone => present ms' vs'
    | MOptional, VSome x => (m_name m, m_ty m, x) :: present ms' vs'
    | _, _ => (m_name m, m_ty m, v) :: present ms' vs'
    end
  | _, _ => []
  end.

Lemma present_parts : forall e ms vs, Forall2 (member_holds (holds e)) ms vs ->
  Forall (fun q => exists m v, In m ms /\ In v vs /\ fst (fst q) = m_name m /\ snd (fst q) = m_ty m /\ holds e (m_ty m) (snd q) /\ (v = snd q \/ v = VSome (snd q))) (present ms vs).
Proof.
  intros e ms vs F. induction F as [|m v ms vs M F IH]; cbn; [constructor|].
  assert (R : Forall (fun q => exists m0 v0, In m0 (m :: ms) /\ In v0 (v :: vs) /\ fst (fst q) = m_name m0 /\ snd (fst q) = m_ty m0 /\ holds e (m_ty m0) (snd q) /\ (v0 = snd q \/ v0 = VSome (snd q))) (present ms vs)).
  { eapply Forall_impl; [|exact IH]. intros q (m' & v' & I & J & X). exists m', v'. split; [now right|]. split; [now right|]. exact X. }
  inversion M as [? K Hv|K|x K Hv]; subst.
  - destruct (m_kind m); try congruence; constructor; auto; exists m, v; cbn; auto 8.
  - rewrite K. exact R.
  - rewrite K. constructor; auto. exists m, (VSome x). cbn. auto 8.
Qed.

Lemma present_vpart : forall e c vs, Forall2 (member_holds (holds e)) (c_members (class_of e c)) vs ->
  Forall (fun q => vpart e (TClass c) (VObj vs) (snd (fst q)) (snd q)) (present (c_members (class_of e c)) vs).
Proof.
  intros e c vs F.
  assert (A : forall pre pre' ms us, c_members (class_of e c) = pre ++ ms -> vs = pre' ++ us -> List.length pre = List.length pre' ->
    Forall2 (member_holds (holds e)) ms us -> Forall (fun q => vpart e (TClass c) (VObj vs) (snd (fst q)) (snd q)) (present ms us)).
  { intros pre pre' ms us E1 E2 L G. revert pre pre' E1 E2 L. induction G as [|m v ms us M G IH]; intros; cbn; [constructor|].
    assert (R : Forall (fun q => vpart e (TClass c) (VObj vs) (snd (fst q)) (snd q)) (present ms us)).
    { apply (IH (pre ++ [m]) (pre' ++ [v])); rewrite <- ?app_assoc; auto. rewrite !app_length; cbn; lia. }
    assert (N1 : nth_error (c_members (class_of e c)) (List.length pre) = Some m) by (rewrite E1; apply nth_error_mid).
    assert (N2 : nth_error vs (List.length pre) = Some v) by (rewrite E2, L; apply nth_error_mid).
    inversion M as [? K Hv|K|x K Hv]; subst v0 || subst v || idtac.
    - destruct (m_kind m) eqn:Km; try congruence; constructor; auto; eapply vpart_member; eauto; congruence.
    - rewrite K. exact R.
    - rewrite K. constructor; auto. eapply vpart_optional; eauto. }
  apply (A [] []); auto.
Qed.

Lemma present_addresses : forall e ms vs, Forall2 (member_holds (holds e)) ms vs ->
  flat_map addresses vs = flat_map (fun q => addresses (snd q)) (present ms vs).
Proof.
  intros e ms vs F. induction F as [|m v ms vs M F IH]; cbn; auto. rewrite IH. inversion M as [? K Hv|K|x K Hv]; subst.
  - destruct (m_kind m); try congruence; reflexivity.
  - now rewrite K.
  - now rewrite K.
Qed.

(** Where an address comes from. *)
Definition findable (e : env) (v : val) : Prop := forall t a, holds e t v -> In a (addresses v) -> exists u y, occurs e t v (TShared u) (VShared a y).

Lemma all_findable : forall e v, findable e v /\ forall x, v = VSome x -> findable e x.
Proof.
  intros e.
  induction v as [| |b|z|f|s|b|z|z|l IH|l IH|i v IH|l IH| |v IH| |v IH|a v IH] using val_ind';
    (split; [intros t a0 Hh I|intros x E; first [discriminate E|injection E as <-; exact (proj1 IH)]]); cbn in I; try contradiction; try (inversion Hh; fail).
  - apply in_flat_map in I. destruct I as (x & I & Ia). rewrite Forall_forall in IH. destruct (IH x I) as [Fx _].
    assert (X : exists u, vpart e t (VList l) u x /\ holds e u x).
    { inversion Hh as [| | | | | | | | | | |u l' S F|u l' F|u l' F S| |a b y z Ha Hb|ts l' F| | | |]; subst; try (rewrite Forall_forall in F).
      - exists u. split; auto. now constructor.
      - exists u. split; auto. now constructor.
      - exists u. split; auto. now constructor.
      - destruct I as [<-|[<-|[]]]; [exists a|exists b]; (split; [|auto]); [apply (vpart_pair e a b _ 0)|apply (vpart_pair e a b _ 1)]; auto.
      - apply In_nth_error in I. destruct I as (i & I). clear - F I. assert (X : exists u, nth_error ts i = Some u /\ holds e u x).
        { revert i I. induction F as [|u y ts l Hy F IHF]; intros [|i] I; cbn in *; try discriminate; [inversion I; subst; eauto|eauto]. }
        destruct X as (u & N & Hx). exists u. split; auto. eapply vpart_tuple; eauto. }
    destruct X as (u & V & Hx). destruct (Fx u a0 Hx Ia) as (w & y & O). exists w, y. eapply occurs_part; eauto.
  - apply in_flat_map in I. destruct I as ([k x] & I & Ia). rewrite Forall_forall in IH. destruct (IH _ I) as [Fx _].
    inversion Hh as [| | | | | | | | | | | | | |o u l' F S| | | | | |]; subst. rewrite Forall_forall in F. destruct (F _ I) as [_ Hx].
    destruct (Fx u a0 Hx Ia) as (w & y & O). exists w, y. eapply occurs_part; [eapply vpart_map|]; eauto.
  - inversion Hh; subst. match goal with N : nth_error _ _ = Some ?u, X : holds _ ?u v |- _ => destruct (proj1 IH u a0 X I) as (w & y & O) end.
    exists w, y. eapply occurs_part; eauto using vpart.
  - inversion Hh as [| | | | | | | | | | | | | | | | |c l' F| | |]; subst.
    rewrite (present_addresses e _ _ F) in I. apply in_flat_map in I. destruct I as ([[n u] x] & I & Ia).
    pose proof (present_vpart e c l F) as V. pose proof (present_parts e _ _ F) as Pp. rewrite Forall_forall in V, Pp, IH.
    destruct (Pp _ I) as (m & v & Im & Iv & En & Eu & Hx & Ev). cbn in *. subst u.
    assert (Fx : findable e x) by (destruct (IH v Iv) as [F1 F2]; destruct Ev as [<-|Ev]; auto).
    destruct (Fx _ a0 Hx Ia) as (w & y & O). exists w, y. eapply occurs_part; [exact (V _ I)|exact O].
  - inversion Hh; subst. destruct (proj1 IH u a0) as (w & y & O); auto. exists w, y. eapply occurs_part; eauto using vpart.
  - inversion Hh; subst. destruct I as [<-|I]; [exists u, v; apply occurs_here|].
    destruct (proj1 IH u a0) as (w & y & O); auto. exists w, y. eapply occurs_part; eauto using vpart.
Qed.

Lemma not_within : forall e H T u a x, holds e u x -> graph e H T (TShared u) (VShared a x) -> ~ In a (addresses x).
Proof.
  intros e H T u a x Hx G I. destruct (proj1 (all_findable e x) u a Hx I) as (w & y & O).
  destruct (heap_objects _ _ _ _ _ G u a x) as [E _]; [apply occurs_here|].
  destruct (heap_objects _ _ _ _ _ G w a y) as [E' _]; [eapply occurs_part; eauto using vpart|].
  apply occurs_size in O. cbn in O. assert (x = y) by congruence. subst. lia.
Qed.

(** * Writing and reading *)
Definition unref (j : json) : Prop := match j with JObj l => find_member l "$ref" = None | _ => True end.

Definition closed (tab : wtable) : Prop := forall a, ref_get Nat.eqb tab a <> Some [].

Definition agrees (al : bool) (home : nat -> option (list step)) (tab : wtable) : Prop :=
  (al = true -> forall a ss, Forall plain_step ss -> ref_get Nat.eqb tab a = Some (rev (map segment_of ss)) -> home a = Some ss) /\
  (al = false -> forall a, home a = None).

Section Graph.
Variable e : env.
Variable H : nat -> val.
Variable T : nat -> ty.
Hypothesis real : real_classes e.
Hypothesis clock : (0 < tick e)%Z.
Hypothesis name : named e.
Hypothesis order : iterates e.
(** Whether there may be aliases; references are found if names are printable. *)
Variable al : bool.
Hypothesis print : al = true -> printable e.

Definition linked (t : ty) (v : val) : Prop := simple e t v /\ (al = true -> graph e H T t v).

Lemma linked_part : forall t v u x, vpart e t v u x -> linked t v -> linked u x.
Proof. intros t v u x P [S G]. split; [eapply simple_part; eauto|]. intros E. eapply graph_part; eauto. Qed.

Definition apart (l : list nat) (tab : wtable) : Prop := al = false -> NoDup l /\ forall a, In a l -> ref_get Nat.eqb tab a = None.

Record inv (root : json) (m : list (nat * nat)) (tab : wtable) (st : dstate) : Prop := {
  inv_known : al = true -> forall a segments, ref_get Nat.eqb tab a = Some segments -> exists b place,
    lookup m a = Some b /\ (segments = [] \/ resolves root segments place) /\
    ref_get place_eqb (objects st) place = Some {| o_type := T a; o_address := b; o_content := rename (fn m) (H a) |} /\ covers m (H a);
  inv_unknown : forall a, ref_get Nat.eqb tab a = None -> lookup m a = None;
  inv_inj : forall a a' b, lookup m a = Some b -> lookup m a' = Some b -> a = a';
  inv_next : forall a b, lookup m a = Some b -> b < next_address st }.

Definition clear (st : dstate) (loc : list nat) : Prop :=
  forall place o, ref_get place_eqb (objects st) place = Some o -> ~ prefix loc place.

Record wpost (t : ty) (v : val) (ctx : list segment) (tab tab' : wtable) (j : json) : Prop := {
  w_kept : forall a s, ref_get Nat.eqb tab a = Some s -> ref_get Nat.eqb tab' a = Some s;
  w_new : forall a, ref_get Nat.eqb tab' a <> None -> ref_get Nat.eqb tab a <> None \/ In a (addresses v);
  w_closed : ctx <> [] \/ pointee e t v \/ addresses v = [] -> closed tab';
  w_unref : pointee e t v -> unref j }.

Definition fits (home : nat -> option (list step)) (ctx : list segment) (t : ty) (v : val) (j : json) : Prop :=
  forall p, (al = true -> addresses v <> [] -> ctx = rev (map segment_of p) /\ Forall plain_step p) -> placed e home t v p j.

Record advance (m m' : list (nat * nat)) (st st' : dstate) : Prop := {
  adv_extends : extends m m';
  adv_next : next_address st <= next_address st';
  adv_fresh : forall a b, lookup m' a = Some b -> lookup m a = Some b \/ next_address st <= b }.

Definition sim (root : json) (t : ty) (v : val) (ctx : list segment) (tab tab' : wtable) (j : json) : Prop :=
  forall loc st m, (al = true -> addresses v <> [] -> at_path root ctx loc j) -> inv root m tab st -> clear st loc ->
  exists st' m',
    (forall exc old ctx', deser e root j exc t old ctx' loc st = DRet true st' (rename (fn m') v)) /\
    inv root m' tab' st' /\ advance m m' st st' /\ covers m' v /\
    (forall place o, ref_get place_eqb (objects st') place = Some o ->
       ref_get place_eqb (objects st) place = Some o \/ (prefix loc place /\ (pointee e t v -> place <> loc))) /\
    (forall home, agrees al home tab' -> fits home ctx t v j).

Definition good (v : val) : Prop := forall t, real_ints t = true -> holds e t v -> linked t v -> forall ctx tab, closed tab -> apart (addresses v) tab ->
  exists tab' j, ser e v t ctx tab = SOk tab' j /\ wpost t v ctx tab tab' j /\ forall root, sim root t v ctx tab tab' j.

Lemma advance_refl : forall m st, advance m m st st.
Proof. intros m st. split; auto using extends_refl. Qed.

Lemma advance_trans : forall m1 m2 m3 s1 s2 s3, advance m1 m2 s1 s2 -> advance m2 m3 s2 s3 -> advance m1 m3 s1 s3.
Proof.
  intros m1 m2 m3 s1 s2 s3 [A1 A2 A3] [B1 B2 B3]. split; [eapply extends_trans; eauto|lia|].
  intros a b L. apply B3 in L. destruct L as [L|L]; [apply A3 in L; tauto|right; lia].
Qed.

(** ** Parts *)
Definition part := (list segment * ty * val)%type.

Inductive writes : list part -> wtable -> list json -> wtable -> Prop :=
| writes_nil : forall tab, writes [] tab [] tab
| writes_cons : forall c u x ps tab j tab1 js tab2, ser e x u c tab = SOk tab1 j -> writes ps tab1 js tab2 -> writes ((c, u, x) :: ps) tab (j :: js) tab2.

Inductive runs (root : json) (loc : list nat) : nat -> list part -> list json -> dstate -> list val -> dstate -> Prop :=
| runs_nil : forall n st, runs root loc n [] [] st [] st
| runs_cons : forall n c u x ps j js st y st1 ys st2,
    (forall exc old ctx', deser e root j exc u old ctx' (loc ++ [n]) st = DRet true st1 y) ->
    runs root loc (S n) ps js st1 ys st2 -> runs root loc n ((c, u, x) :: ps) (j :: js) st (y :: ys) st2.

Definition part_ok (p : part) : Prop :=
  let '(c, u, x) := p in good x /\ real_ints u = true /\ holds e u x /\ linked u x /\ (c <> [] \/ addresses x = []).

Inductive located (root : json) (loc : list nat) : nat -> list part -> list json -> Prop :=
| located_nil : forall n, located root loc n [] []
| located_cons : forall n c u x ps j js, (al = true -> addresses x <> [] -> at_path root c (loc ++ [n]) j) -> located root loc (S n) ps js ->
    located root loc n ((c, u, x) :: ps) (j :: js).

Definition all_fit (home : nat -> option (list step)) (ps : list part) (js : list json) : Prop :=
  Forall2 (fun p j => fits home (fst (fst p)) (snd (fst p)) (snd p) j) ps js.

Lemma agrees_kept : forall home tab tab', (forall a s, ref_get Nat.eqb tab a = Some s -> ref_get Nat.eqb tab' a = Some s) -> agrees al home tab' -> agrees al home tab.
Proof. intros home tab tab' K [A B]. split; [|exact B]. intros Ea a ss P E. apply A; auto. Qed.

Definition mentioned (ps : list part) : list nat := flat_map (fun p => addresses (snd p)) ps.

Lemma NoDup_app_parts : forall A (l m : list A), NoDup (l ++ m) -> NoDup l /\ NoDup m /\ forall x, In x l -> ~ In x m.
Proof.
  intros A l m. induction l as [|y l IH]; cbn; intros N; [split; [constructor|split; auto]|]. inversion N as [|? ? N1 N2]; subst. destruct (IH N2) as (L & M & D).
  rewrite in_app_iff in N1. split; [constructor; tauto|]. split; auto. intros x [<-|I]; [tauto|auto].
Qed.

Lemma all_parts : forall ps, Forall part_ok ps -> forall tab, closed tab -> apart (mentioned ps) tab ->
  exists tab' js, writes ps tab js tab' /\
    (forall a s, ref_get Nat.eqb tab a = Some s -> ref_get Nat.eqb tab' a = Some s) /\
    (forall a, ref_get Nat.eqb tab' a <> None -> ref_get Nat.eqb tab a <> None \/ exists p, In p ps /\ In a (addresses (snd p))) /\
    closed tab' /\
    forall root loc n st m, located root loc n ps js -> inv root m tab st -> (forall i, n <= i -> clear st (loc ++ [i])) ->
    exists st' m', runs root loc n ps js st (map (fun p => rename (fn m') (snd p)) ps) st' /\ inv root m' tab' st' /\ advance m m' st st' /\
      Forall (fun p => covers m' (snd p)) ps /\
      (forall place o, ref_get place_eqb (objects st') place = Some o ->
        ref_get place_eqb (objects st) place = Some o \/ exists i, n <= i /\ prefix (loc ++ [i]) place) /\
      (forall home, agrees al home tab' -> all_fit home ps js).
Proof.
  intros ps F. induction F as [|[[c u] x] ps (G & R & Hx & Gr & C) F IH]; intros tab Ct Ap.
  - exists tab, []. split; [constructor|]. split; auto. split; auto. split; auto. intros root loc n st m L I Cl. exists st, m.
    split; [constructor|]. split; auto. split; [apply advance_refl|]. split; [constructor|]. split; auto. intros; constructor.
  - assert (Ap1 : apart (addresses x) tab).
    { intros Ea. destruct (Ap Ea) as [N D]. cbn in N. apply NoDup_app_parts in N. split; [tauto|]. intros a I. apply D. cbn. apply in_app_iff. now left. }
    destruct (G u R Hx Gr c tab Ct Ap1) as (tab1 & j & E & [W1 W2 W3 _] & Sm).
    assert (C1 : closed tab1) by (apply W3; tauto).
    assert (Ap2 : apart (mentioned ps) tab1).
    { intros Ea. destruct (Ap Ea) as [N D]. cbn in N. apply NoDup_app_parts in N. split; [tauto|]. intros a I.
      destruct (ref_get Nat.eqb tab1 a) eqn:Et; auto. exfalso. destruct (W2 a) as [X|X]; [congruence| |].
      - apply X. apply D. cbn. apply in_app_iff. now right.
      - destruct N as (_ & _ & N). apply (N a); auto. }
    destruct (IH tab1 C1 Ap2) as (tab2 & js & Wr & K2 & N2 & C2 & Run).
    exists tab2, (j :: js). split; [econstructor; eauto|]. split; [auto|]. split; [|split; auto].
    + intros a Ha. destruct (N2 a Ha) as [Hb|(p & Ip & Ia)]; [|right; exists p; split; auto; now right].
      destruct (W2 a Hb) as [|Ia]; [tauto|]. right. exists (c, u, x). split; auto. now left.
    + intros root loc n st m L I Cl. inversion L as [|? ? ? ? ? ? ? L1 L2]; subst.
      destruct (Sm root (loc ++ [n]) st m L1 I (Cl n (le_n _))) as (st1 & m1 & D & I1 & A1 & Cv & Pl & Pc).
      destruct (Run root loc (S n) st1 m1 L2 I1) as (st2 & m2 & Rs & I2 & A2 & Cvs & Pls & Pcs).
      { intros i Hi place o Ho Pf. destruct (Pl place o Ho) as [Ho'|[Pf' _]]; [apply (Cl i) in Ho'; [auto|lia]|].
        pose proof (prefix_apart _ _ _ _ Pf Pf'). lia. }
      exists st2, m2. split; [|split; [auto|split; [eapply advance_trans; eauto|split; [|split]]]].
      * cbn [map snd]. rewrite (rename_extends m1 m2 x) by (auto; apply (adv_extends _ _ _ _ A2)). econstructor; eauto.
      * constructor; auto. cbn [snd]. eapply covers_extends; eauto. apply (adv_extends _ _ _ _ A2).
      * intros place o Ho. destruct (Pls place o Ho) as [Ho'|(i & Hi & Pf)]; [|right; exists i; split; auto; lia].
        destruct (Pl place o Ho') as [|[Pf _]]; [tauto|]. right. exists n. auto.
      * intros home Ag. constructor; [|now apply Pcs]. cbn [fst snd]. apply Pc; auto. eapply agrees_kept; eauto.
Qed.

(** ** Values without parts *)
Lemma scalar_written : forall t v, scalar_value v = true -> holds e t v -> exists j, doc e t v j /\ gives e t v j.
Proof.
  intros t v Sv Hh. destruct v as [| |b|z|f|s|b|z|z|l|l|i v|l| |v| |v|a v]; try discriminate Sv.
  - inversion Hh; subst. exists JNull. split; [constructor|]. intros ctx tab. reflexivity.
  - inversion Hh; subst. exists (JBool b). split; [constructor|]. intros ctx tab. reflexivity.
  - inversion Hh; subst.
    + exists (JInt z). split; [constructor|]. intros ctx tab. reflexivity.
    + exists (JInt z). split; [constructor|]. intros ctx tab. reflexivity.
    + match goal with I : In z _ |- _ => apply in_map_iff in I; destruct I as ([z' s] & E & I); cbn in E; subst z' end.
      exists (JStr s). split; [now constructor|]. intros ctx tab. cbn. now rewrite (enum_to_string_in names z s).
  - inversion Hh; subst; exists (JDbl f); (split; [constructor|]); intros ctx tab; cbn; match goal with E : is_finite f = true |- _ => now rewrite E end.
  - inversion Hh; subst. exists (JStr s). split; [constructor|]. intros ctx tab. reflexivity.
  - inversion Hh; subst. eexists. split; [apply doc_bytes|]. intros ctx tab. cbn. now rewrite encode_ok.
  - inversion Hh; subst. destruct (time_written e s) as (y & m & d & hh & mi & ss & I & Y & E); auto.
    eexists. split; [eapply doc_time; eauto|]. intros ctx tab. cbn. now rewrite E.
  - inversion Hh; subst. destruct (date_written e z) as (y & m & d & C & Y & E); auto.
    eexists. split; [eapply doc_date; eauto|]. intros ctx tab. cbn. unfold day_ticks, in_int64.
    replace ((- 2 ^ 63 <=? z * 86400 * tick e) && (z * 86400 * tick e <? 2 ^ 63))%Z with true by lia. now rewrite E.
Qed.

Lemma scalar_good : forall v, scalar_value v = true -> good v.
Proof.
  intros v Sv t R Hh G ctx tab Ct _. destruct (scalar_written t v Sv Hh) as (j & D & W).
  assert (A : addresses v = []) by (destruct v; try discriminate Sv; reflexivity).
  exists tab, j. split; [apply W|]. split.
  - split; auto. intros _. unfold unref. destruct v; try discriminate Sv; inversion Hh; subst; inversion D; subst; exact I.
  - intros root loc st m _ I Cl. exists st, m. split; [|split; [auto|split; [apply advance_refl|split; [|split; [auto|]]]]].
    + intros exc old ctx'. rewrite rename_unshared by auto. apply (scalar_complete e root clock); auto.
      * destruct v; try discriminate Sv; inversion Hh; exact Logic.I.
      * apply (proj1 (all_read_back e name clock v)); auto.
    + unfold covers. rewrite A. easy.
    + intros home _ p _. now apply placed_scalar.
Qed.

(** ** Arrays *)
Fixpoint items_of (at_ : N -> list segment) (k : N) (l : list (ty * val)) : list part :=
  match l with
  | [] => []
  | (u, x) :: l' => (at_ k, u, x) :: items_of at_ (k + 1)%N l'
  end.

Lemma writes_seq : forall at_ l k tab js tab', writes (items_of at_ k l) tab js tab' ->
  ser_seq at_ k (map (fun p => ser e (snd p) (fst p)) l) tab = SOk tab' js.
Proof.
  intros at_ l. induction l as [|[u x] l IH]; intros k tab js tab' W; cbn in *; inversion W; subst; auto.
  match goal with E : ser _ _ _ _ _ = _ |- _ => rewrite E end. cbn. erewrite IH by eassumption. reflexivity.
Qed.

Lemma items_snd : forall at_ l k B (f : val -> B), map (fun p => f (snd p)) (items_of at_ k l) = map (fun p => f (snd p)) l.
Proof. intros at_ l. induction l as [|[u x] l IH]; intros; cbn; auto. now rewrite IH. Qed.

Lemma items_in : forall at_ l k p, In p (items_of at_ k l) -> exists i, nth_error l i = Some (snd (fst p), snd p) /\ fst (fst p) = at_ (k + N.of_nat i)%N.
Proof.
  intros at_ l. induction l as [|[u x] l IH]; intros k p I; cbn in *; [tauto|]. destruct I as [<-|I].
  - exists 0. cbn. split; auto. f_equal. lia.
  - destruct (IH _ _ I) as (i & E & F). exists (S i). split; auto. rewrite F. f_equal. lia.
Qed.

Lemma items_of_in : forall at_ l k u x, In (u, x) l -> exists c, In (c, u, x) (items_of at_ k l).
Proof.
  intros at_ l. induction l as [|[w y] l IH]; intros k u x I; cbn in *; [tauto|]. destruct I as [I|I]; [inversion I; subst; eauto|].
  destruct (IH (k + 1)%N _ _ I) as (c & J). eauto.
Qed.

Lemma apply_types_map : forall A B (f : A -> ty -> B) ts l, List.length ts = List.length l ->
  apply_types (map f l) ts = Some (map (fun p => f (snd p) (fst p)) (combine ts l)).
Proof.
  intros A B f ts. induction ts as [|t ts IH]; intros [|x l] L; cbn in *; try discriminate; auto. injection L as L. now rewrite IH.
Qed.

Lemma located_items : forall root ctx loc js, (al = true -> at_path root ctx loc (JArr js)) -> forall pre post l, js = pre ++ post -> List.length l = List.length post ->
  (al = true -> (N.of_nat (List.length js) < 2 ^ 32 - 1)%N) ->
  located root loc (List.length pre) (items_of (at_index ctx) (N.of_nat (List.length pre)) l) post.
Proof.
  intros root ctx loc js A pre post. revert pre. induction post as [|j post IH]; intros pre l E L B; destruct l as [|[u x] l]; try discriminate; cbn [items_of]; constructor.
  - intros Ea _. specialize (A Ea). specialize (B Ea). subst js. eapply at_element; [exact A|]. cbn. rewrite app_length in B. cbn in B. lia.
  - replace (N.of_nat (List.length pre) + 1)%N with (N.of_nat (List.length (pre ++ [j]))) by (rewrite app_length; cbn; lia).
    replace (S (List.length pre)) with (List.length (pre ++ [j])) by (rewrite app_length; cbn; lia).
    apply IH; auto. now rewrite <- app_assoc.
Qed.

Lemma located_unshared : forall root loc ps js n, List.length ps = List.length js -> Forall (fun p : part => addresses (snd p) = []) ps -> located root loc n ps js.
Proof.
  intros root loc ps. induction ps as [|[[c u] x] ps IH]; intros [|j js] n L F; try discriminate; constructor; inversion F; subst; auto.
  intros _ N. now destruct N.
Qed.

Lemma writes_length : forall ps tab js tab', writes ps tab js tab' -> List.length ps = List.length js.
Proof. intros ps tab js tab' W. induction W; cbn; auto. Qed.

Lemma runs_items : forall root loc u n ps js st ys st', runs root loc n ps js st ys st' -> Forall (fun p : part => snd (fst p) = u) ps ->
  forall exc init add acc ctx, read_items init add (map (fun f => f exc u) (map (deser e root) js)) n acc ctx loc st = DRet true st' (VList (fold_left add ys acc)).
Proof.
  intros root loc u n ps js st ys st' R. induction R as [|n c w x ps j js st y st1 ys st2 D R IH]; intros F exc init add acc ctx; cbn [map read_items]; auto.
  inversion F as [|? ? E F']; subst. cbn in *. now rewrite D, IH.
Qed.

Lemma runs_tuple : forall root loc n ps js st ys st', runs root loc n ps js st ys st' -> forall exc,
  exists fs, apply_types (map (fun f => f exc) (map (deser e root) js)) (map (fun p : part => snd (fst p)) ps) = Some fs /\
  forall olds ctx, read_tuple fs n olds ctx loc st = (true, ys, None, st').
Proof.
  intros root loc n ps js st ys st' R. induction R as [|n c w x ps j js st y st1 ys st2 D R IH]; intros exc; cbn [map apply_types].
  - exists []. auto.
  - destruct (IH exc) as (fs & -> & E). eexists. split; [reflexivity|]. intros olds ctx. cbn [read_tuple]. now rewrite D, E.
Qed.

(** ** Objects *)
Definition named_parts (ctx : list segment) (qs : list (string * ty * val)) : list part :=
  map (fun q => (name_segment (list_ascii_of_string (fst (fst q))) :: ctx, snd (fst q), snd q)) qs.

Definition labels (qs : list (string * ty * val)) : list string := map (fun q => fst (fst q)) qs.

Lemma writes_entries : forall ctx qs tab js tab', writes (named_parts ctx qs) tab js tab' ->
  ser_entries ctx (map (fun q => (fst (fst q), ser e (snd q) (snd (fst q)))) qs) tab = SOk tab' (combine (labels qs) js).
Proof.
  intros ctx qs. induction qs as [|[[k u] x] qs IH]; intros tab js tab' W; cbn in *; inversion W; subst; auto.
  match goal with E : ser _ _ _ _ _ = _ |- _ => rewrite E end. cbn. erewrite IH by eassumption. reflexivity.
Qed.

Lemma writes_members : forall ctx ms vs, Forall2 (member_holds (holds e)) ms vs -> forall tab js tab', writes (named_parts ctx (present ms vs)) tab js tab' ->
  ser_members ctx ms (map (mpart (ser e)) vs) tab = SOk tab' (combine (labels (present ms vs)) js).
Proof.
  intros ctx ms vs F. induction F as [|m v ms vs M F IH]; intros tab js tab' W.
  - cbn in *. inversion W; subst. reflexivity.
  - inversion M as [? K Hv|K|x K Hv]; subst.
    + assert (E : present (m :: ms) (v :: vs) = (m_name m, m_ty m, v) :: present ms vs) by (cbn; destruct (m_kind m); try congruence; reflexivity).
      rewrite E in *. cbn [named_parts map fst snd labels] in *. inversion W as [|? ? ? ? ? ? ? ? ? S W']; subst. cbn [map ser_members combine].
      rewrite (not_option e (m_ty m) v Hv). unfold to_write. destruct (m_kind m); try congruence; rewrite S; erewrite IH by eassumption; reflexivity.
    + cbn [present] in *. rewrite K in *. cbn [map ser_members mpart]. unfold to_write. rewrite K. now apply IH.
    + cbn [present] in *. rewrite K in *. cbn [named_parts map fst snd labels] in *. inversion W as [|? ? ? ? ? ? ? ? ? S W']; subst. cbn [map ser_members combine mpart].
      unfold to_write. rewrite K, S. erewrite IH by eassumption. reflexivity.
Qed.

Lemma located_named : forall root ctx loc all, (al = true -> at_path root ctx loc (JObj all)) -> NoDup (map fst all) -> forall pre js qs, all = pre ++ combine (labels qs) js ->
  List.length qs = List.length js -> Forall (fun q => al = true -> addresses (snd q) <> [] -> plain_step (Member (fst (fst q)))) qs ->
  located root loc (List.length pre) (named_parts ctx qs) js.
Proof.
  intros root ctx loc all A N pre js qs. revert pre js. induction qs as [|[[k u] x] qs IH]; intros pre js E L F; destruct js as [|j js]; try discriminate; cbn; constructor.
  - intros Ea Nx. specialize (A Ea). inversion F as [|? ? P _]; subst. cbn in *. apply (at_member root ctx loc pre k j (combine (labels qs) js)); [exact A| |exact (P Ea Nx)].
    rewrite map_app in N. cbn in N. apply NoDup_remove_2 in N. rewrite in_app_iff in N. tauto.
  - inversion F; subst. replace (S (List.length pre)) with (List.length (pre ++ [(k, j)])) by (rewrite app_length; cbn; lia).
    apply IH; auto. now rewrite <- app_assoc.
Qed.

Lemma runs_entries : forall root loc u n ps js st ys st', runs root loc n ps js st ys st' -> Forall (fun p : part => snd (fst p) = u) ps ->
  forall names exc init acc ctx, List.length names = List.length js ->
  read_entries init (map (fun p => (fst p, snd p exc u)) (map (fun p => (fst p, deser e root (snd p))) (combine names js))) n acc ctx loc st =
    DRet true st' (VMap (fold_left (fun m p => map_assign m (fst p) (snd p)) (combine (map (fun k => until_nul k) names) ys) acc)).
Proof.
  intros root loc u n ps js st ys st' R. induction R as [|n c w x ps j js st y st1 ys st2 D R IH]; intros F names exc init acc ctx L;
    destruct names as [|k names]; try discriminate; cbn [map combine read_entries fst snd fold_left]; auto.
  inversion F as [|? ? E F']; subst. cbn in *. rewrite D, IH by auto. now rewrite c_string_spec.
Qed.

Lemma runs_members : forall root loc exc ctx all, NoDup (map fst all) -> forall ms vs, Forall2 (member_holds (holds e)) ms vs -> NoDup (map m_name ms) ->
  forall pre js r ps st st', all = pre ++ combine (labels (present ms vs)) js -> List.length (present ms vs) = List.length js ->
  (forall m, In m ms -> ~ In (m_name m) (map fst pre)) ->
  ps = named_parts ctx (present ms vs) ->
  runs root loc (List.length pre) ps js st (map (fun p => rename r (snd p)) ps) st' ->
  forall n olds ctx', read_members e exc (map (fun p => (fst p, deser e root (snd p))) all) ms n true true olds ctx' loc st = (true, map (rename r) vs, None, st').
Proof.
  intros root loc exc ctx all Na ms vs F. induction F as [|m v ms vs M F IH]; intros N pre js r ps st st' E L Np -> R n olds ctx'.
  - cbn in *. inversion R; subst. reflexivity.
  - cbn in N. inversion N as [|? ? N1 N2]; subst.
    assert (Filled : forall x, present (m :: ms) (v :: vs) = (m_name m, m_ty m, x) :: present ms vs -> rename r v = (match m_kind m with MOptional => VSome (rename r x) | _ => rename r x end) ->
      read_members e exc (map (fun p => (fst p, deser e root (snd p))) (pre ++ combine (labels (present (m :: ms) (v :: vs))) js)) (m :: ms) n true true olds ctx' loc st = (true, map (rename r) (v :: vs), None, st')).
    { intros x Ep Er. rewrite Ep in *. cbn [named_parts map fst snd labels] in R. destruct js as [|j js]; [discriminate L|].
      inversion R as [|? ? ? ? ? ? ? ? y st1 ys st2 D R']; subst. clear R. change (labels ((m_name m, m_ty m, x) :: present ms vs)) with (m_name m :: labels (present ms vs)) in *. cbn [combine] in *. cbn [List.length] in L. injection L as L.
      assert (Nm : ~ In (m_name m) (map fst pre)) by (apply Np; now left).
      assert (IHr : forall k olds, read_members e exc (map (fun p => (fst p, deser e root (snd p))) (pre ++ (m_name m, j) :: combine (labels (present ms vs)) js)) ms k true true olds ctx' loc st1 = (true, map (rename r) vs, None, st')).
      { intros k olds'. apply (IH N2 (pre ++ [(m_name m, j)]) js r (named_parts ctx (present ms vs)) st1 st'); auto.
        - now rewrite <- app_assoc.
        - intros m' I. rewrite map_app, in_app_iff. cbn. intros [X|[X|[]]]; [eapply Np; eauto; now right|]. apply N1. rewrite X. now apply in_map.
        - rewrite app_length. cbn. now rewrite Nat.add_1_r. }
      cbn [read_members]. unfold read_member. rewrite find_fun_spec, (find_index_app pre (m_name m) j _ Nm), (RoundProof.find_member_app pre (m_name m) j _ Nm). cbn [option_map Nat.add].
      destruct (m_kind m); rewrite D; cbn [map]; rewrite Er; destruct n; rewrite IHr; reflexivity. }
    inversion M as [? K Hv|K|x K Hv]; subst.
    + apply (Filled v); [cbn; destruct (m_kind m); try congruence; reflexivity|]. destruct (m_kind m); try congruence; reflexivity.
    + assert (Ep : present (m :: ms) (VNone :: vs) = present ms vs) by (cbn; now rewrite K). rewrite Ep in *. cbn [read_members]. unfold read_member.
      rewrite find_fun_spec.
      assert (X : find_index (pre ++ combine (labels (present ms vs)) js) (m_name m) = None).
      { destruct (find_index _ _) eqn:Ef; auto. exfalso. assert (Fm : find_member (pre ++ combine (labels (present ms vs)) js) (m_name m) <> None) by (intros X; apply find_index_member in X; congruence).
        destruct (find_member _ _) as [j|] eqn:Fe; [|congruence]. apply find_member_In in Fe. apply (in_map fst) in Fe. cbn in Fe. rewrite map_app, in_app_iff in Fe.
        destruct Fe as [Fe|Fe]; [eapply Np; eauto; now left|]. apply N1.
        assert (Il : incl (map fst (combine (labels (present ms vs)) js)) (map m_name ms)).
        { clear - F. intros k I. apply in_map_iff in I. destruct I as ([k' j] & <- & I). apply in_combine_l in I. cbn. unfold labels in I. apply in_map_iff in I.
          destruct I as (q & <- & I). pose proof (present_parts e ms vs F) as Pp. rewrite Forall_forall in Pp. destruct (Pp q I) as (m & v & Im & _ & -> & _). now apply in_map. }
        now apply Il. }
      rewrite X, K. cbn [map]. assert (IHr : forall k o, read_members e exc (map (fun p => (fst p, deser e root (snd p))) (pre ++ combine (labels (present ms vs)) js)) ms k true true o ctx' loc st = (true, map (rename r) vs, None, st')).
      { intros k o. eapply (IH N2 pre js r); eauto. intros m' I. apply Np. now right. }
      destruct n; rewrite IHr; reflexivity.
    + apply (Filled x); [cbn; now rewrite K|]. now rewrite K.
Qed.

(** ** A value and its parts *)
Lemma container : forall t v ctx ps (mk : list json -> json), Forall part_ok ps ->
  Permutation (addresses v) (mentioned ps) ->
  (forall tab js tab', writes ps tab js tab' -> ser e v t ctx tab = SOk tab' (mk js)) ->
  (pointee e t v -> forall js, List.length ps = List.length js -> unref (mk js)) ->
  (forall root loc js, List.length ps = List.length js -> (al = true -> addresses v <> [] -> at_path root ctx loc (mk js)) -> located root loc 0 ps js) ->
  (forall root loc js st r st', List.length ps = List.length js -> runs root loc 0 ps js st (map (fun p => rename r (snd p)) ps) st' ->
     forall exc old ctx', deser e root (mk js) exc t old ctx' loc st = DRet true st' (rename r v)) ->
  (forall home js, all_fit home ps js -> fits home ctx t v (mk js)) ->
  forall tab, closed tab -> apart (addresses v) tab -> exists tab' j, ser e v t ctx tab = SOk tab' j /\ wpost t v ctx tab tab' j /\ forall root, sim root t v ctx tab tab' j.
Proof.
  intros t v ctx ps mk F Pm W U L R Fi tab Ct Ap.
  assert (Ad : forall a, In a (addresses v) <-> exists p, In p ps /\ In a (addresses (snd p))).
  { intros a. transitivity (In a (mentioned ps)); [split; apply Permutation_in; auto using Permutation_sym|]. unfold mentioned. now rewrite in_flat_map. }
  assert (Ap' : apart (mentioned ps) tab).
  { intros Ea. destruct (Ap Ea) as [N D]. split; [eapply Permutation_NoDup; eauto|]. intros a I. apply D. eapply Permutation_in; [apply Permutation_sym; eauto|auto]. }
  destruct (all_parts ps F tab Ct Ap') as (tab' & js & Wr & K & Nw & C' & Run).
  pose proof (writes_length _ _ _ _ Wr) as Len.
  exists tab', (mk js). split; [eapply W; eauto|]. split.
  - split; auto. intros a Ha. rewrite Ad. auto.
  - intros root loc st m A I Cl. destruct (Run root loc 0 st m) as (st' & m' & Rs & I' & Av & Cv & Pl & Pc); auto.
    { intros i _ place o Ho P. apply (Cl _ _ Ho). eapply prefix_trans; [apply prefix_below|exact P]. }
    exists st', m'. split; [|split; [auto|split; [auto|split; [|split; [|auto]]]]].
    + intros. eapply R; eauto.
    + intros a Ia. apply Ad in Ia. destruct Ia as (p & Ip & Ia). rewrite Forall_forall in Cv. exact (Cv p Ip a Ia).
    + intros place o Ho. destruct (Pl place o Ho) as [|(i & _ & P)]; [tauto|]. right. split; [eapply prefix_trans; [apply prefix_below|exact P]|].
      intros _ ->. eapply prefix_below_not; eauto.
Qed.

Lemma combine_parts : forall ts l, Forall2 (holds e) ts l -> Forall (fun p => holds e (fst p) (snd p)) (combine ts l).
Proof. intros ts l F. induction F; cbn; constructor; auto. Qed.

Lemma items_addresses : forall at_ l k a, In a (flat_map (fun p => addresses (snd p)) l) <-> exists p, In p (items_of at_ k l) /\ In a (addresses (snd p)).
Proof.
  intros at_ l k a. rewrite in_flat_map. split.
  - intros ([u x] & I & Ia). destruct (items_of_in at_ l k u x I) as (c & J). exists (c, u, x). auto.
  - intros (p & I & Ia). apply items_in in I. destruct I as (i & N & _). apply nth_error_In in N. eauto.
Qed.

Definition all_good (l : list val) : Prop := Forall good l.

Lemma items_ok : forall t v at_ l k, (forall u x, In (u, x) l -> vpart e t v u x /\ good x /\ real_ints u = true /\ holds e u x) ->
  linked t v -> (forall i, at_ i <> []) \/ addresses v = [] /\ (forall u x, In (u, x) l -> addresses x = []) -> Forall part_ok (items_of at_ k l).
Proof.
  intros t v at_ l k X G N. apply Forall_forall. intros [[c u] x] I. apply items_in in I. cbn [fst snd] in I. destruct I as (i & E & F). apply nth_error_In in E.
  destruct (X u x E) as (V & Gx & R & Hx). cbn. split; [auto|]. split; [auto|]. split; [auto|]. split; [eapply linked_part; eauto|].
  destruct N as [N|[_ N]]; [left; rewrite F; apply N|right; eauto].
Qed.

Lemma flat_map_items : forall at_ l k, flat_map (fun p => addresses (snd p)) (items_of at_ k l) = flat_map (fun p => addresses (snd p)) l.
Proof. intros at_ l. induction l as [|[u x] l IH]; intros k; cbn; auto. now rewrite IH. Qed.

Lemma fit_items : forall home ctx p l k js, all_fit home (items_of (at_index ctx) (N.of_nat k) l) js ->
  (al = true -> forall x, (exists u, In (u, x) l) -> addresses x <> [] -> ctx = rev (map segment_of p) /\ Forall plain_step p /\ (N.of_nat (k + List.length l) < 2 ^ 32 - 1)%N) ->
  parts_placed (placed e home) p k (map fst l) (map snd l) js.
Proof.
  intros home ctx p l. induction l as [|[u x] l IH]; intros k js F X; inversion F as [|? j ? js' Fx Fl]; subst; cbn [map fst snd]; constructor.
  - apply Fx. cbn [fst snd]. intros Ea N. destruct (X Ea x) as (-> & P & B); [exists u; now left|auto|]. cbn [List.length] in B. split.
    + unfold at_index. now rewrite map_app, rev_app_distr.
    + apply Forall_app. split; auto. constructor; auto. cbn. lia.
  - apply IH.
    + now replace (N.of_nat (S k)) with (N.of_nat k + 1)%N by lia.
    + intros Ea y (w & I) N. destruct (X Ea y) as (E & P & B); [exists w; now right|auto|]. split; auto. split; auto. cbn [List.length] in B. lia.
Qed.

Lemma parts_items : forall D u path l n js, parts_placed D path n (map fst (map (fun x => (u, x)) l)) (map snd (map (fun x : val => (u, x)) l)) js -> items_placed D u path n l js.
Proof.
  intros D u path l. induction l as [|x l IH]; intros n js P; cbn in *; inversion P; subst; constructor; auto.
Qed.

Lemma flat_map_snd : forall A (l : list (A * val)), flat_map (fun p => addresses (snd p)) l = flat_map addresses (map snd l).
Proof. intros A l. induction l as [|p l IH]; cbn; congruence. Qed.

(** Arrays of all kinds but sets: [l] are the components with their types. *)
Lemma array_good : forall t l ctx,
  (forall u x, In (u, x) l -> vpart e t (VList (map snd l)) u x /\ good x /\ real_ints u = true /\ holds e u x) ->
  linked t (VList (map snd l)) ->
  (forall tab js tab', ser_seq (at_index ctx) 0 (map (fun p => ser e (snd p) (fst p)) l) tab = SOk tab' js -> ser e (VList (map snd l)) t ctx tab = SOk tab' (JArr js)) ->
  (forall root loc js st ys st', runs root loc 0 (items_of (at_index ctx) 0 l) js st ys st' -> List.length l = List.length js ->
     forall exc old ctx', deser e root (JArr js) exc t old ctx' loc st = DRet true st' (VList ys)) ->
  (forall home p js, parts_placed (placed e home) p 0 (map fst l) (map snd l) js -> placed e home t (VList (map snd l)) p (JArr js)) ->
  forall tab, closed tab -> apart (addresses (VList (map snd l))) tab -> exists tab' j, ser e (VList (map snd l)) t ctx tab = SOk tab' j /\ wpost t (VList (map snd l)) ctx tab tab' j /\ forall root, sim root t (VList (map snd l)) ctx tab tab' j.
Proof.
  intros t l ctx X G W R Pl.
  assert (Ln : forall js : list json, List.length (items_of (at_index ctx) 0 l) = List.length js -> List.length l = List.length js).
  { intros js <-. generalize 0%N. clear. induction l as [|[u x] l IH]; intros k; cbn; auto. }
  assert (Bd : al = true -> addresses (VList (map snd l)) <> [] -> (N.of_nat (List.length l) < 2 ^ 32 - 1)%N).
  { intros Ea N. rewrite <- (map_length snd). apply (heap_lengths _ _ _ _ _ (proj2 G Ea) t); auto. apply occurs_here. }
  apply container with (ps := items_of (at_index ctx) 0 l) (mk := JArr).
  - apply (items_ok t (VList (map snd l))); auto. left. intros i E. discriminate E.
  - unfold mentioned. rewrite flat_map_items. cbn [addresses]. now rewrite flat_map_snd.
  - intros tab js tab' Wr. apply W. now apply writes_seq.
  - intros _ js _. exact I.
  - intros root loc js Len A. apply Ln in Len. destruct (addresses (VList (map snd l))) as [|a rest] eqn:E.
    + apply located_unshared; [rewrite <- Len; generalize 0%N; clear; induction l as [|[u x] l IH]; intros k; cbn; auto|].
      apply Forall_forall. intros p I. destruct (addresses (snd p)) as [|b r] eqn:Eb; auto. exfalso.
      assert (Y : In b (flat_map (fun p => addresses (snd p)) l)) by (apply (items_addresses (at_index ctx) l 0); exists p; rewrite Eb; split; auto; now left).
      rewrite flat_map_snd in Y. cbn [addresses] in E. rewrite E in Y. destruct Y.
    + apply (located_items root ctx loc js) with (pre := []) (post := js); auto; [intros Ea; apply A; [exact Ea|discriminate]|]. intros Ea. rewrite <- Len. apply Bd; [exact Ea|discriminate].
  - intros root loc js st r st' Len Rs exc old ctx'. apply Ln in Len. rewrite items_snd with (f := rename r) in Rs. cbn [rename].
    rewrite map_map. eapply R; eauto.
  - intros home js Fi p A. apply Pl; auto. apply (fit_items home ctx p l 0 js); auto.
    intros Ea x (u & I) N. assert (Na : addresses (VList (map snd l)) <> []).
    { cbn [addresses]. intros E. apply N. destruct (addresses x) as [|b r] eqn:Eb; auto. exfalso.
      assert (Y : In b (flat_map addresses (map snd l))) by (apply in_flat_map; exists x; split; [apply (in_map snd) in I; exact I|rewrite Eb; now left]).
      rewrite E in Y. destruct Y. }
    destruct (A Ea Na) as [E P]. split; auto.
Qed.

Lemma labels_combine : forall qs (js : list json), List.length qs = List.length js -> map fst (combine (labels qs) js) = labels qs.
Proof. intros qs. induction qs as [|q qs IH]; intros [|j js] L; cbn in *; try discriminate; auto. injection L as L. f_equal. apply IH. exact L. Qed.

Lemma absent_member : forall l k, ~ In k (map fst l) -> find_member l k = None.
Proof.
  intros l k N. destruct (find_member l k) as [j|] eqn:E; auto. apply find_member_In in E. apply (in_map fst) in E. contradiction.
Qed.

Lemma object_good : forall t v qs ctx,
  (forall n u x, In (n, u, x) qs -> vpart e t v u x /\ good x /\ real_ints u = true /\ holds e u x /\ (al = true -> addresses x <> [] -> plain_step (Member n))) ->
  NoDup (labels qs) -> linked t v ->
  Permutation (addresses v) (flat_map (fun q => addresses (snd q)) qs) ->
  (forall tab js tab', writes (named_parts ctx qs) tab js tab' -> ser e v t ctx tab = SOk tab' (JObj (combine (labels qs) js))) ->
  (pointee e t v -> ~ In "$ref"%string (labels qs)) ->
  (forall root loc js st r st', List.length qs = List.length js ->
     runs root loc 0 (named_parts ctx qs) js st (map (fun p => rename r (snd p)) (named_parts ctx qs)) st' ->
     forall exc old ctx', deser e root (JObj (combine (labels qs) js)) exc t old ctx' loc st = DRet true st' (rename r v)) ->
  (forall home p js, Forall2 (fun q j => placed e home (snd (fst q)) (snd q) (p ++ [Member (fst (fst q))]) j) qs js ->
     placed e home t v p (JObj (combine (labels qs) js))) ->
  forall tab, closed tab -> apart (addresses v) tab ->
  exists tab' j, ser e v t ctx tab = SOk tab' j /\ wpost t v ctx tab tab' j /\ forall root, sim root t v ctx tab tab' j.
Proof.
  intros t v qs ctx X Nd G Pm W U R Pl.
  assert (Ad : forall a, In a (addresses v) <-> exists q, In q qs /\ In a (addresses (snd q))).
  { intros a. transitivity (In a (flat_map (fun q => addresses (snd q)) qs)); [split; apply Permutation_in; auto using Permutation_sym|]. now rewrite in_flat_map. }
  assert (Ln : forall js : list json, List.length (named_parts ctx qs) = List.length js -> List.length qs = List.length js).
  { intros js. unfold named_parts. now rewrite map_length. }
  apply container with (ps := named_parts ctx qs) (mk := fun js => JObj (combine (labels qs) js)).
  - apply Forall_forall. intros p I. unfold named_parts in I. apply in_map_iff in I. destruct I as ([[n u] x] & <- & I). cbn [fst snd].
    destruct (X n u x I) as (V & Gx & Rx & Hx & Px). cbn. split; [auto|]. split; [auto|]. split; [auto|]. split; [eapply linked_part; eauto|]. left. discriminate.
  - unfold mentioned, named_parts. rewrite flat_map_concat_map, map_map, <- flat_map_concat_map. exact Pm.
  - exact W.
  - intros Pt js L. cbn. apply absent_member. rewrite labels_combine by auto. auto.
  - intros root loc js L A. apply Ln in L. assert (S : {addresses v = []} + {addresses v <> []}) by (destruct (addresses v); [now left|now right]).
    destruct S as [S|S].
    + apply located_unshared; [unfold named_parts; now rewrite map_length|]. apply Forall_forall. intros p I.
      unfold named_parts in I. apply in_map_iff in I. destruct I as (q & <- & I). cbn [snd]. destruct (addresses (snd q)) as [|b r] eqn:Eb; auto. exfalso.
      assert (Y : In b (addresses v)) by (apply Ad; exists q; rewrite Eb; split; auto; now left). rewrite S in Y. destruct Y.
    + apply (located_named root ctx loc _ (fun Ea => A Ea S)) with (pre := []); auto; [now rewrite labels_combine|].
      apply Forall_forall. intros [[n u] x] I. cbn. apply (X n u x I).
  - intros root loc js st r st' L Rs. apply Ln in L. now apply R.
  - intros home js Fi p A. apply Pl; auto. unfold all_fit, named_parts in Fi.
    assert (Y : al = true -> forall q, In q qs -> addresses (snd q) <> [] -> ctx = rev (map segment_of p) /\ Forall plain_step p /\ plain_step (Member (fst (fst q)))).
    { intros Ea [[n u] x] I N. cbn in N. destruct A as [E P]; [exact Ea| |].
      - intros E. apply N. destruct (addresses x) as [|b r] eqn:Eb; auto. exfalso.
        assert (Z : In b (addresses v)) by (apply Ad; exists (n, u, x); cbn; rewrite Eb; split; auto; now left). rewrite E in Z. destruct Z.
      - split; auto. split; auto. now apply (X n u x I). }
    clear - Fi Y. revert js Fi. induction qs as [|[[n u] x] qs IH]; intros js Fi; inversion Fi as [|? j ? js' F1 F2]; subst; constructor.
    + cbn [fst snd] in *. apply F1. intros Ea N. destruct (Y Ea (n, u, x) (or_introl eq_refl) N) as (-> & P & Q). split.
      * now rewrite map_app, rev_app_distr.
      * apply Forall_app. auto.
    + apply IH; auto. intros Ea q I. apply Y; [exact Ea|now right].
Qed.

Lemma entries_map_assign : forall r l l', StronglySorted (fun p q : string * val => str_ltb (fst p) (fst q) = true) l -> Permutation l l' ->
  Forall (fun p : string * val => until_nul (fst p) = fst p) l ->
  fold_left (fun m p => map_assign m (fst p) (snd p)) (combine (map (fun k => until_nul k) (map fst l')) (map (fun p => rename r (snd p)) l')) [] =
    map (fun p => (fst p, rename r (snd p))) l.
Proof.
  intros r l l' S P F. set (m := map (fun p => (fst p, rename r (snd p))) l).
  assert (Sm : StronglySorted (fun p q : string * val => str_ltb (fst p) (fst q) = true) m).
  { subst m. clear - S. induction S as [|p l S IH F]; cbn; constructor; auto. rewrite Forall_forall in *. intros q I. apply in_map_iff in I.
    destruct I as (q' & <- & I). cbn. auto. }
  pose proof (ascending_nodup m Sm) as N.
  replace (map (fun k => until_nul k) (map fst l')) with (map (fun p => until_nul (fst p)) (map (fun p : string * val => (fst p, JNull)) l')) by (rewrite !map_map; reflexivity).
  assert (K : map fst (map (fun p : string * val => (fst p, JNull)) l') = map fst l') by (rewrite map_map; reflexivity).
  assert (Km : map fst m = map fst l) by (subst m; rewrite map_map; reflexivity).
  apply map_is; auto.
  - rewrite K. eapply Permutation_NoDup; [apply Permutation_map; exact P|]. rewrite <- Km. exact N.
  - apply Forall_forall. intros p I. apply in_map_iff in I. destruct I as (q & <- & I). cbn. rewrite Forall_forall in F. apply F.
    apply (Permutation_in _ (Permutation_sym P)). exact I.
  - now rewrite !map_length.
  - intros k Hk. rewrite K. change (find_entry m k <> None) in Hk. destruct (find_entry m k) as [v|] eqn:Ek; [|congruence].
    apply find_entry_In in Ek. apply (in_map fst) in Ek. rewrite Km in Ek. apply (Permutation_in _ (Permutation_map fst P)). exact Ek.
  - intros i k j v Hi Hv. rewrite nth_error_map in Hi, Hv. destruct (nth_error l' i) as [[k' w]|] eqn:El; [|discriminate]. cbn in *. inversion Hi; subst. inversion Hv; subst.
    change (find_entry m k = Some (rename r w)). apply find_entry_nodup; auto. apply nth_error_In in El. apply (Permutation_in _ (Permutation_sym P)) in El.
    subst m. apply in_map_iff. exists (k, w). auto.
Qed.

Lemma set_good : forall u l, Forall good l -> real_ints u = true -> holds e (TSet u) (VList l) -> linked (TSet u) (VList l) ->
  forall ctx tab, closed tab -> apart (addresses (VList l)) tab -> exists tab' j, ser e (VList l) (TSet u) ctx tab = SOk tab' j /\ wpost (TSet u) (VList l) ctx tab tab' j /\
    forall root, sim root (TSet u) (VList l) ctx tab tab' j.
Proof.
  intros u l Gl R Hh G ctx. inversion Hh as [| | | | | | | | | | | | |u' l' F S| | | | | | |]; subst.
  pose proof (simple_sets _ _ _ (proj1 G) u l (occurs_here _ _ _)) as A0. cbn [addresses] in A0.
  assert (Ax : forall x, In x l -> addresses x = []).
  { intros x I. destruct (addresses x) as [|b r] eqn:Eb; auto. exfalso. assert (Y : In b (flat_map addresses l)) by (apply in_flat_map; exists x; rewrite Eb; split; auto; now left).
    rewrite A0 in Y. destruct Y. }
  set (tl := map (fun x => (u, x)) l).
  assert (Et : map snd tl = l) by (subst tl; rewrite map_map; apply map_id).
  assert (It : forall w x, In (w, x) tl -> w = u /\ In x l) by (subst tl; intros w x I; apply in_map_iff in I; destruct I as (y & E & I); inversion E; subst; auto).
  assert (Ln : forall (at_ : N -> list segment) k (js : list json), List.length (items_of at_ k tl) = List.length js -> List.length tl = List.length js).
  { clear. intros at_ k js <-. revert k. induction tl as [|[w x] tl IH]; intros k; cbn; auto. }
  apply container with (ps := items_of (fun _ => ctx) 0 tl) (mk := JArr).
  - rewrite Forall_forall in Gl, F. apply (items_ok (TSet u) (VList l)); auto.
    + intros w x I. apply It in I. destruct I as [-> I]. split; [now constructor|auto].
    + right. split; [exact A0|]. intros w x I. apply It in I. apply Ax. tauto.
  - unfold mentioned. rewrite flat_map_items, flat_map_snd, Et. reflexivity.
  - intros tab js tab' W. apply writes_seq in W. cbn [ser]. rewrite map_map. subst tl. rewrite map_map in W. cbn [fst snd] in W. now rewrite W.
  - intros _ js _. exact I.
  - intros root loc js L _. apply located_unshared; auto. apply Forall_forall. intros p I. apply items_in in I. destruct I as (i & N & _). apply nth_error_In, It in N. apply Ax. tauto.
  - intros root loc js st r st' L Rs exc old ctx'. rewrite deser_unfold. cbn [deser_step].
    erewrite runs_items; [|exact Rs|].
    + f_equal. rewrite items_snd with (f := rename r). rewrite <- (map_map snd (rename r)), Et. cbn [rename].
      replace (map (rename r) l) with l; [now rewrite set_sorted|]. rewrite <- (map_id l) at 1. apply map_ext_in. intros x I. now rewrite rename_unshared by auto.
    + apply Forall_forall. intros p I. apply items_in in I. destruct I as (i & N & _). apply nth_error_In, It in N. tauto.
  - intros home js Fi p _. apply placed_set. assert (Y : Forall2 (fun q j => placed e home (fst q) (snd q) p j) tl js).
    { assert (Ax' : forall q, In q tl -> addresses (snd q) = []) by (intros [w x] I; apply It in I; apply Ax; tauto).
      unfold all_fit in Fi. revert Fi. generalize 0%N. clear - Ax'. revert js. induction tl as [|[w x] tl IH]; intros js k Fi; cbn in Fi; inversion Fi as [|? j ? js' F1 F2]; subst; constructor.
      - cbn [fst snd] in *. apply F1. intros _ N. destruct N. apply (Ax' (w, x)). now left.
      - eapply IH; eauto. intros q I. apply Ax'. now right. }
    subst tl. clear - Y. revert js Y. induction l as [|x l IH]; intros js Y; cbn in Y; inversion Y; subst; constructor; auto.
Qed.

Lemma dict_none : forall u, string_pair u = false -> dict_type u = None.
Proof. intros u S. destruct u as [| | | | | | | | | | | | | | |[]| | | | | |]; try reflexivity; discriminate S. Qed.

Lemma list_good : forall l, Forall good l -> good (VList l).
Proof.
  intros l Gl t R Hh G ctx. rewrite Forall_forall in Gl.
  inversion Hh as [| | | | | | | | | | |u l' S F|u l' F|u l' F S| |a b x y Ha Hb|ts l' F| | | |]; subst; cbn [real_ints] in R.
  - rewrite Forall_forall in F. set (tl := map (fun x => (u, x)) l). assert (Et : map snd tl = l) by (subst tl; rewrite map_map; apply map_id).
    assert (It : forall w x, In (w, x) tl -> w = u /\ In x l) by (subst tl; intros w x I; apply in_map_iff in I; destruct I as (y & E & I); inversion E; subst; auto).
    rewrite <- Et. apply array_good; rewrite ?Et; auto.
    + intros w x I. apply It in I. destruct I as [-> I]. split; [now constructor|auto].
    + intros tab js tab' E. cbn [ser]. rewrite (dict_none u S). subst tl. rewrite map_map in E. cbn [fst snd] in E. now rewrite map_map, E.
    + intros root loc js st ys st' Rs L exc old ctx'. rewrite deser_unfold. cbn [deser_step]. erewrite runs_items; [|exact Rs|].
      * now rewrite fold_push_back.
      * apply Forall_forall. intros p I. apply items_in in I. destruct I as (i & N & _). apply nth_error_In, It in N. tauto.
    + intros home p js Pp. apply placed_vector; auto. rewrite <- Et in Pp. subst tl. rewrite Et in Pp. apply parts_items. now rewrite Et.
  - rewrite Forall_forall in F. set (tl := map (fun x => (u, x)) l). assert (Et : map snd tl = l) by (subst tl; rewrite map_map; apply map_id).
    assert (It : forall w x, In (w, x) tl -> w = u /\ In x l) by (subst tl; intros w x I; apply in_map_iff in I; destruct I as (y & E & I); inversion E; subst; auto).
    assert (Lt : List.length tl = List.length l) by (subst tl; apply map_length).
    remember (List.length l) as n eqn:En. rewrite <- Et. apply array_good; rewrite ?Et; auto.
    + intros w x I. apply It in I. destruct I as [-> I]. split; [now constructor|auto].
    + intros tab js tab' E. cbn [ser]. rewrite <- En, Nat.eqb_refl. subst tl. rewrite map_map in E. cbn [fst snd] in E. now rewrite map_map, E.
    + intros root loc js st ys st' Rs L exc old ctx'. rewrite deser_unfold. cbn [deser_step]. rewrite <- L, Lt, Nat.eqb_refl. cbn [negb]. unfold read_array. erewrite runs_items; [|exact Rs|].
      * now rewrite fold_push_back.
      * apply Forall_forall. intros p I. apply items_in in I. destruct I as (i & N & _). apply nth_error_In, It in N. tauto.
    + intros home p js Pp. rewrite En. apply placed_array. apply parts_items. subst tl. now rewrite Et.
  - now apply set_good; [apply Forall_forall| | |].
  - apply andb_prop in R. destruct R as [Ra Rb]. set (tl := [(a, x); (b, y)]). change [x; y] with (map snd tl). apply array_good; auto.
    + intros w z I. cbn in I. destruct I as [I|[I|[]]]; inversion I; subst; (split; [|split; [apply Gl; cbn; tauto|auto]]).
      * now apply (vpart_pair e _ b _ 0).
      * now apply (vpart_pair e a _ _ 1).
    + intros tab js tab' E. cbn [ser map snd apply_types tl]. unfold tl in E. cbn [map fst snd] in E. now rewrite E.
    + intros root loc js st ys st' Rs L exc old ctx'. rewrite deser_unfold. cbn [deser_step].
      destruct (runs_tuple _ _ _ _ _ _ _ _ Rs exc) as (fs & Ea & E). unfold tl in Ea. cbn [items_of map fst snd] in Ea. rewrite Ea, E. reflexivity.
    + intros home p js Pp. apply placed_pair. exact Pp.
  - set (tl := combine ts l). assert (Lf : List.length ts = List.length l) by (clear - F; induction F; cbn; auto).
    assert (Et : map snd tl = l) by (subst tl; clear - Lf; revert l Lf; induction ts; intros [|y l] L; try discriminate; cbn; auto; f_equal; auto).
    assert (Ef : map fst tl = ts) by (subst tl; clear - Lf; revert l Lf; induction ts; intros [|y l] L; try discriminate; cbn; auto; f_equal; auto).
    rewrite <- Et. apply array_good; rewrite ?Et; auto.
    + intros w x I. apply In_nth_error in I. destruct I as (i & I). pose proof (map_nth_error fst i tl I) as I1. pose proof (map_nth_error snd i tl I) as I2.
      rewrite Ef in I1. rewrite Et in I2. cbn in I1, I2. split; [eapply vpart_tuple; eauto|]. pose proof (nth_error_In _ _ I1). pose proof (nth_error_In _ _ I2).
      split; [auto|]. rewrite forallb_forall in R. split; [auto|]. apply nth_error_In in I. pose proof (combine_parts ts l F) as Cp. rewrite Forall_forall in Cp. apply (Cp _ I).
    + intros tab js tab' E. cbn [ser]. rewrite (apply_types_map _ _ (ser e) ts l Lf). fold tl. now rewrite E.
    + intros root loc js st ys st' Rs L exc old ctx'. rewrite deser_unfold. cbn [deser_step].
      destruct (runs_tuple _ _ _ _ _ _ _ _ Rs exc) as (fs & Ea & E).
      assert (X : map (fun p : part => snd (fst p)) (items_of (at_index ctx) 0 tl) = ts).
      { rewrite <- Ef. clear. generalize 0%N. induction tl as [|[w x] tl IH]; intros k; cbn; auto. now rewrite IH. }
      rewrite X in Ea. rewrite Ea, E. reflexivity.
    + intros home p js Pp. apply placed_tuple. now rewrite Ef in Pp.
Qed.

Lemma map_good : forall l, Forall (fun p : string * val => good (snd p)) l -> good (VMap l).
Proof.
  intros l Gl t R Hh G ctx. inversion Hh as [| | | | | | | | | | | | | |o u l' F S| | | | | |]; subst. cbn [real_ints] in R.
  destruct (visited_entries e _ (ser e) o l order) as (l' & Pm & V).
  assert (P : Permutation l l') by (destruct o; subst; auto).
  set (qs := map (fun p : string * val => (fst p, u, snd p)) l').
  assert (Iq : forall n w x, In (n, w, x) qs -> w = u /\ In (n, x) l).
  { subst qs. intros n w x I. apply in_map_iff in I. destruct I as ([k y] & E & I). cbn in E. inversion E; subst. split; auto.
    apply (Permutation_in _ (Permutation_sym P)). exact I. }
  assert (Lq : labels qs = map fst l') by (subst qs; unfold labels; rewrite map_map; reflexivity).
  assert (Sq : forall B (f : val -> B), map (fun q => f (snd q)) qs = map (fun p => f (snd p)) l') by (intros; subst qs; rewrite map_map; reflexivity).
  rewrite Forall_forall in Gl, F. apply object_good with (qs := qs); auto.
  - intros n w x I. apply Iq in I. destruct I as [-> I]. split; [eapply vpart_map; eauto|]. split; [apply (Gl _ I)|]. split; [auto|]. split; [apply (F _ I)|].
    intros Ea N. eapply (heap_keys _ _ _ _ _ (proj2 G Ea)); eauto. apply occurs_here.
  - rewrite Lq. eapply Permutation_NoDup; [apply Permutation_map; exact P|]. now apply ascending_nodup.
  - cbn [addresses]. subst qs. rewrite (flat_map_concat_map _ (map _ _)), map_map, <- flat_map_concat_map. cbn [snd]. now apply Permutation_flat_map.
  - intros tab js tab' W. apply writes_entries in W. cbn [ser]. rewrite V. rewrite map_map. cbn [fst snd]. subst qs. rewrite map_map in W. cbn [fst snd] in W. now rewrite W.
  - cbn [pointee]. intros N I. apply N. rewrite Lq in I. apply (Permutation_in _ (Permutation_map fst (Permutation_sym P))). exact I.
  - intros root loc js st r st' L Rs exc old ctx'. rewrite deser_unfold. cbn [deser_step]. erewrite runs_entries; [|exact Rs| |].
    + f_equal. cbn [rename]. f_equal. rewrite Lq. rewrite <- (entries_map_assign r l l' S P) by (apply Forall_forall; intros p I; apply (F p I)).
      do 2 f_equal. unfold named_parts. rewrite map_map. cbn [snd]. apply (Sq _ (rename r)).
    + apply Forall_forall. intros p I. unfold named_parts in I. apply in_map_iff in I. destruct I as ([[n w] x] & <- & I). apply Iq in I. cbn. tauto.
    + rewrite <- L. unfold labels. apply map_length.
  - intros home p js Fi. apply (placed_map e home o u l l'); [destruct o; auto|]. subst qs. rewrite Lq. clear - Fi. revert js Fi.
    induction l' as [|[k x] l' IH]; intros js Fi; cbn in Fi; inversion Fi; subst; cbn; constructor; auto.
Qed.

Lemma class_good : forall l, Forall (fun v => good v /\ forall x, v = VSome x -> good x) l -> good (VObj l).
Proof.
  intros l Gl t R Hh G ctx. inversion Hh as [| | | | | | | | | | | | | | | | |c l' F| | |]; subst.
  set (ms := c_members (class_of e c)) in *. set (qs := present ms l).
  pose proof (present_parts e ms l F) as Pp. pose proof (present_vpart e c l F) as Pv. fold ms qs in Pp, Pv. rewrite Forall_forall in Pp, Pv, Gl.
  assert (Lq : incl (labels qs) (map m_name ms)).
  { intros k I. unfold labels in I. apply in_map_iff in I. destruct I as (q & <- & I). destruct (Pp q I) as (m & v & Im & _ & -> & _). now apply in_map. }
  assert (Nq : NoDup (labels qs)).
  { assert (N : NoDup (map m_name ms)) by apply name. unfold qs. clear - F N. induction F as [|m v ms vs M F IH]; [constructor|].
    cbn in N. inversion N as [|? ? N1 N2]; subst. specialize (IH N2).
    assert (X : ~ In (m_name m) (labels (present ms vs))).
    { intros I. apply N1. unfold labels in I. apply in_map_iff in I. destruct I as (q & E & I). pose proof (present_parts e ms vs F) as Pp. rewrite Forall_forall in Pp.
      destruct (Pp q I) as (m' & _ & Im & _ & E' & _). rewrite <- E, E'. now apply in_map. }
    inversion M as [? K Hv|K|x K Hv]; subst; cbn; [|now rewrite K|rewrite K; now constructor].
    destruct (m_kind m); try congruence; now constructor. }
  apply object_good with (qs := qs); auto.
  - intros n u x I. destruct (Pp _ I) as (m & v & Im & Iv & En & Eu & Hx & Ev). cbn in En, Eu, Hx, Ev. subst u n. split; [apply (Pv _ I)|].
    split; [destruct (Gl v Iv) as [G1 G2]; destruct Ev as [<-|Ev]; auto|]. split; [|split; [auto|intros Ea _; now apply (print Ea c m)]].
    pose proof (real c) as Rc. rewrite forallb_forall in Rc. now apply Rc.
  - cbn [addresses]. now rewrite (present_addresses e ms l F).
  - intros tab js tab' W. apply writes_members in W; auto. cbn [ser]. fold ms. now rewrite W.
  - intros root loc js st r st' L Rs exc old ctx'. rewrite deser_unfold. cbn [deser_step]. fold ms.
    erewrite (runs_members root loc exc ctx (combine (labels qs) js)) with (pre := []) (js := js) (vs := l) (r := r); [reflexivity|now rewrite labels_combine|exact F|apply name|reflexivity|exact L|intros ? ? []|reflexivity|exact Rs].
  - intros home p js Fi. apply placed_class. fold ms. unfold qs in *. clear - F Fi. revert js Fi. induction F as [|m v ms vs M F IH]; intros js Fi.
    + cbn in Fi. inversion Fi; subst. constructor.
    + inversion M as [? K Hv|K|x K Hv]; subst.
      * assert (E : present (m :: ms) (v :: vs) = (m_name m, m_ty m, v) :: present ms vs) by (cbn; destruct (m_kind m); try congruence; reflexivity).
        rewrite E in *. inversion Fi; subst. apply mplaced_plain; auto.
      * cbn [present] in *. rewrite K in *. apply mplaced_none; auto.
      * cbn [present] in *. rewrite K in *. inversion Fi; subst. apply mplaced_some; auto.
Qed.

Lemma unique_good : forall x, good x -> good (VPtr x).
Proof.
  intros x Gx t R Hh G ctx tab Ct Ap. inversion Hh; subst. cbn [real_ints] in R.
  assert (Hx : holds e u x) by assumption.
  pose proof (linked_part _ _ _ _ (vpart_unique e u x) G) as Gp.
  destruct (Gx u R Hx Gp ctx tab Ct Ap) as (tab' & j & S & [W1 W2 W3 W4] & Sm).
  exists tab', j. split; [exact S|]. split; [split; auto|].
  intros root loc st m A I Cl. destruct (Sm root loc st m A I Cl) as (st' & m' & D & I' & Av & Cv & Pl & Pc). exists st', m'.
  split; [|split; [auto|split; [auto|split; [auto|split; [auto|]]]]].
  - intros. rewrite deser_unfold. cbn [deser_step]. now rewrite D.
  - intros home Ag p X. apply placed_unique. now apply Pc.
Qed.

(** ** Variants *)
Definition shape_of (j : json) : shape :=
  match j with
  | JNull => SNull
  | JBool _ => SBool
  | JInt _ => SInt
  | JDbl _ => SDbl
  | JStr _ => SString
  | JArr _ => SArray
  | JObj _ => SObject
  end.

(** Reading a value of the wrong shape only uses up addresses. *)
Fixpoint wasted (t : ty) : nat :=
  match t with
  | TVariant ts => list_sum (map wasted ts)
  | TUnique u => wasted u
  | TShared u => S (wasted u)
  | _ => 0
  end.

Definition waste (n : nat) (st : dstate) : dstate := {| next_address := n + next_address st; objects := objects st |}.

Lemma waste_none : forall st, waste 0 st = st.
Proof. now intros []. Qed.

Lemma waste_more : forall n m st, waste n (waste m st) = waste (m + n) st.
Proof. intros n m st. unfold waste. cbn. f_equal. lia. Qed.

Definition unread (root j : json) (t : ty) : Prop := read_from t (shape_of j) = false -> forall old ctx loc st,
  exists w, deser e root j false t old ctx loc st = DRet false (waste (wasted t) st) w.

Lemma unread_before : forall root j ts, Forall (unread root j) ts -> (forall u, In u ts -> read_from u (shape_of j) = false) -> forall fs i ctx loc st,
  read_variant (map (fun u => (dinit e u, deser e root j false u)) ts ++ fs) i ctx loc st =
  read_variant fs (i + List.length ts) ctx loc (waste (list_sum (map wasted ts)) st).
Proof.
  intros root j ts F. induction F as [|u ts U F IH]; intros N fs i ctx loc st; cbn [map app list_sum fold_right List.length].
  - now rewrite waste_none, Nat.add_0_r.
  - cbn [read_variant]. destruct (U (N u (or_introl eq_refl)) (dinit e u) ctx loc st) as (w & ->).
    rewrite IH by (intros; apply N; now right). rewrite waste_more. change (fold_right Nat.add 0 (map wasted ts)) with (list_sum (map wasted ts)).
    now replace (S i + List.length ts) with (i + S (List.length ts)) by lia.
Qed.

Lemma not_read : forall root j t, unread root j t.
Proof.
  intros root j. induction t using ty_ind'; intros R old ctx loc st;
    try (rewrite deser_unfold; cbn [deser_step wasted]; destruct j; try discriminate R; rewrite waste_none; eexists; reflexivity).
  - (* variant *)
    rewrite deser_unfold. cbn [deser_step wasted]. rewrite <- (app_nil_r (map _ ts)), unread_before; [|assumption|].
    + cbn. eauto.
    + intros u I. cbn [read_from] in R. destruct (read_from u (shape_of j)) eqn:E; auto.
      assert (existsb (fun u => read_from u (shape_of j)) ts = true) by (apply existsb_exists; eauto). congruence.
  - rewrite deser_unfold. cbn [deser_step wasted]. destruct (IHt R (vinit e t) ctx loc st) as (w & ->). eauto.
  - rewrite deser_unfold. cbn [deser_step wasted].
    assert (N : match j with JObj l => find_member l "$ref" | _ => None end = None) by (destruct j; try discriminate R; reflexivity). rewrite N.
    assert (R' : read_from t (shape_of j) = false) by (destruct j; try discriminate R; exact R).
    destruct (IHt R' (vinit e t) ctx loc (new_address st)) as (w & ->). cbn.
    replace (waste (wasted t) (new_address st)) with (waste (S (wasted t)) st) by (unfold waste, new_address; cbn; f_equal; lia). eauto.
Qed.

(** What is written has one of the shapes of the type. *)
Lemma scalar_shape : forall t v tab tab' j, ser_scalar e t v tab = SOk tab' j -> written_as t (shape_of j) = true.
Proof.
  intros t v tab tab' j S. unfold ser_scalar, of_text in S. destruct t, v; try discriminate S; cbn;
    repeat match type of S with context [match ?x with _ => _ end] => destruct x; try discriminate S end; inversion S; subst; reflexivity.
Qed.

Lemma smap_shape : forall A (f : A -> json) r tab' j, smap f r = SOk tab' j -> exists x, j = f x.
Proof. intros A f r tab' j E. unfold smap, sbind in E. destruct r; try discriminate E. inversion E; subst. eauto. Qed.

Lemma written_shape : forall v t, holds e t v -> forall ctx tab tab' j, ser e v t ctx tab = SOk tab' j -> written_as t (shape_of j) = true.
Proof.
  induction v as [| |b|z|f|s|b|z|z|l IH|l IH|i v IH|l IH| |v IH| |v IH|a v IH] using val_ind'; intros t Hh ctx tab tab' j S; cbn [ser] in S;
    try (inversion Hh; subst; eapply scalar_shape; exact S).
  - inversion Hh; subst.
    + rewrite dict_none in S by assumption. apply smap_shape in S. now destruct S as (x & ->).
    + rewrite Nat.eqb_refl in S. apply smap_shape in S. now destruct S as (x & ->).
    + apply smap_shape in S. now destruct S as (x & ->).
    + destruct (apply_types _ _); [|discriminate S]. apply smap_shape in S. now destruct S as (y0 & ->).
    + destruct (apply_types _ _); [|discriminate S]. apply smap_shape in S. now destruct S as (y0 & ->).
  - inversion Hh; subst. destruct (visited _ _ _); [|discriminate S]. apply smap_shape in S. now destruct S as (y0 & ->).
  - inversion Hh as [| | | | | | | | | | | | | | | | | | | |ts i' u x N Hx U]; subst. rewrite N in S. cbn [written_as].
    apply existsb_exists. exists u. split; [eapply nth_error_In; eauto|]. eapply IH; eauto.
  - inversion Hh; subst. apply smap_shape in S. now destruct S as (y0 & ->).
  - inversion Hh; subst. cbn [written_as]. eapply IH; eauto.
  - inversion Hh; subst. cbn [written_as]. destruct (ref_get Nat.eqb tab a); [inversion S; reflexivity|].
    unfold sbind in S. destruct (ser e v u ctx tab) as [tab1 j1| |] eqn:E; try discriminate S. inversion S; subst.
    assert (W : written_as u (shape_of j) = true) by (eapply IH; eauto). now destruct j.
Qed.

Lemma pointee_variant : forall ts i u x, nth_error ts i = Some u -> pointee e (TVariant ts) (VVariant i x) = pointee e u x.
Proof.
  induction ts as [|w ts IH]; intros [|i] u x N; cbn in N; try discriminate N; [now inversion N|]. exact (IH i u x N).
Qed.

Lemma variant_good : forall i x, good x -> good (VVariant i x).
Proof.
  intros i x Gx t R Hh G ctx tab Ct Ap. inversion Hh as [| | | | | | | | | | | | | | | | | | | |ts i' u x' N Hx U]; subst. cbn [real_ints] in R.
  assert (Ru : real_ints u = true) by (rewrite forallb_forall in R; apply R; eapply nth_error_In; eauto).
  pose proof (linked_part _ _ _ _ (vpart_variant e ts i u x N) G) as Gp.
  destruct (Gx u Ru Hx Gp ctx tab Ct Ap) as (tab' & j & S & [W1 W2 W3 W4] & Sm).
  pose proof (written_shape x u Hx ctx tab tab' j S) as Sh.
  exists tab', j. split; [cbn [ser]; now rewrite N|]. split; [split; auto; rewrite (pointee_variant _ _ _ _ N); auto|].
  assert (Ts : exists before after, ts = before ++ u :: after /\ List.length before = i) by (apply nth_error_split in N; exact N).
  destruct Ts as (before & after & -> & Li).
  assert (Un : forall w, In w before -> read_from w (shape_of j) = false).
  { intros w I. apply In_nth_error in I. destruct I as (k & K). assert (k < List.length before) by (apply nth_error_Some; congruence).
    apply (U k w); [lia| |exact Sh]. now rewrite nth_error_app1. }
  intros root loc st m A I Cl. set (n := list_sum (map wasted before)).
  assert (I0 : inv root m tab (waste n st)).
  { destruct I as [I1 I2 I3 I4]. split; auto. intros c b E. apply I4 in E. cbn. lia. }
  destruct (Sm root loc (waste n st) m A I0 Cl) as (st' & m' & D & I' & Av & Cv & Pl & Pc). exists st', m'.
  split; [|split; [exact I'|split; [|split; [exact Cv|split]]]].
  - intros exc old ctx'. rewrite deser_unfold. cbn [deser_step]. rewrite map_app, unread_before; [| |exact Un].
    + cbn [map read_variant]. fold n. rewrite D. cbn [rename]. now rewrite Nat.add_0_l, Li.
    + apply Forall_forall. intros. apply not_read.
  - destruct Av as [V1 V2 V3]. cbn in V2, V3. split; [exact V1|lia|]. intros c b E. destruct (V3 c b E); [now left|right; lia].
  - intros place o E. rewrite (pointee_variant _ _ _ _ N). exact (Pl place o E).
  - intros home Ag p X. eapply placed_variant; [exact N|]. now apply Pc.
Qed.

Lemma path_not_fragment : forall segments, parse_reference (path_str segments) = parse_pointer (path_str segments).
Proof. intros segments. destruct (path_slash segments) as (r & ->). reflexivity. Qed.

Lemma shared_good : forall a x, good x -> good (VShared a x).
Proof.
  intros a x Gx t R Hh G ctx tab Ct Ap. inversion Hh; subst. cbn [real_ints] in R.
  assert (Hx' : holds e u x) by assumption.
  pose proof (linked_part _ _ _ _ (vpart_shared e u a x) G) as Gp.
  assert (HT : al = true -> H a = x /\ T a = u) by (intros Ea; exact (heap_objects _ _ _ _ _ (proj2 G Ea) u a x (occurs_here _ _ _))).
  pose proof (simple_pointees _ _ _ (proj1 G) u a x (occurs_here _ _ _)) as Pt.
  assert (Nw : ~ In a (addresses x)).
  { destruct al eqn:Ea; [apply (not_within e H T u a x Hx' (proj2 G Ea))|]. destruct (Ap Ea) as [N _]. cbn in N. now inversion N. }
  cbn [ser]. destruct (ref_get Nat.eqb tab a) as [segments|] eqn:Et.
  - (* again *)
    assert (Ea : al = true).
    { destruct al eqn:Ea; auto. destruct (Ap Ea) as [_ N]. rewrite (N a) in Et by now left. discriminate. }
    destruct (HT Ea) as [Ha Ta].
    exists tab, (ref_json segments). split; [reflexivity|]. split; [split; auto; intros []|].
    intros root loc st m A I Cl. specialize (A Ea). destruct (inv_known _ _ _ _ I Ea a segments Et) as (b & place & Lb & Rs & Ob & Cv).
    assert (Ns : segments <> []) by (intros ->; now apply (Ct a)).
    destruct Rs as [->|Rs]; [congruence|].
    exists st, m. split; [|split; [auto|split; [apply advance_refl|split; [|split; [auto|]]]]].
    + intros exc old ctx'. rewrite deser_unfold. cbn [deser_step ref_json find_member]. cbn [String.eqb Ascii.eqb Bool.eqb].
      unfold read_ref. rewrite list_ascii_of_string_of_list_ascii, path_not_fragment.
      destruct (resolves_get _ _ _ Rs) as (ts & j & -> & ->). rewrite Ob. cbn [o_type o_address o_content rename].
      rewrite Ta, ty_eqb_refl, Ha. replace (fn m a) with b by (unfold fn; now rewrite Lb). reflexivity.
    + intros c [<-|Ic]; [congruence|]. apply Cv. now rewrite Ha.
    + intros home [Ag _] p X. destruct (X Ea ltac:(discriminate)) as [Ec Pp].
      pose proof Rs as (ss & j & Es & Nn & Ps & Ls). rewrite Es in Et. pose proof (Ag Ea a ss Ps Et) as Eh.
      replace (ref_json segments) with (reference ss) by (rewrite Es; reflexivity).
      apply placed_again; [exact Eh|]. intros Ep. specialize (A ltac:(discriminate)). apply at_resolves in A.
      * assert (place = loc) by (eapply resolves_unique; [exact Rs|]; rewrite Es, Ep, <- Ec; exact A).
        subst place. apply (Cl _ _ Ob). apply prefix_refl.
      * intros Z. apply Ns. rewrite Es, Ep, <- Ec. exact Z.
  - (* first *)
    assert (Ap' : apart (addresses x) tab).
    { intros Ea. destruct (Ap Ea) as [N D]. cbn in N. inversion N; subst. split; auto. intros c I. apply D. now right. }
    destruct (Gx u R Hx' Gp ctx tab Ct Ap') as (tab1 & j & S & [W1 W2 W3 W4] & Sm).
    assert (Na : ref_get Nat.eqb tab1 a = None).
    { destruct (ref_get Nat.eqb tab1 a) eqn:E; auto. destruct (W2 a); [congruence|congruence|contradiction]. }
    pose proof (fun key => put_address _ tab1 a ctx key Na) as Pa.
    exists (ref_put Nat.eqb tab1 a ctx), j. rewrite S. split; [reflexivity|]. split.
    + split.
      * intros c s E. rewrite Pa. now rewrite (W1 _ _ E).
      * intros c E. rewrite Pa in E. cbn [addresses]. destruct (ref_get Nat.eqb tab1 c) eqn:E1.
        -- destruct (W2 c); [congruence|tauto|]. right. now right.
        -- destruct (Nat.eqb_spec a c); [right; now left|congruence].
      * intros [N|[[]|N]]; [|discriminate N]. intros c E. rewrite Pa in E. destruct (ref_get Nat.eqb tab1 c) eqn:E1.
        -- apply (W3 (or_intror (or_introl Pt)) c). congruence.
        -- destruct (Nat.eqb a c); congruence.
      * intros [].
    + intros root loc st m A I Cl.
      assert (I0 : inv root m tab (new_address st)).
      { destruct I as [I1 I2 I3 I4]. split; auto. intros c b E. apply I4 in E. cbn. lia. }
      destruct (Sm root loc (new_address st) m) as (st1 & m1 & D & I1 & Av & Cv & Pl & Pc); auto.
      { intros Ea _. apply A; [exact Ea|discriminate]. }
      set (b := next_address st). set (m2 := ref_put Nat.eqb m1 a b).
      assert (Lm : lookup m1 a = None) by now apply (inv_unknown _ _ _ _ I1).
      assert (L2 : forall c, lookup m2 c = match lookup m1 c with Some w => Some w | None => if Nat.eqb a c then Some b else None end) by (intros c; apply put_address; exact Lm).
      assert (X12 : extends m1 m2) by (intros c d E; now rewrite L2, E).
      set (ob := {| o_type := u; o_address := b; o_content := rename (fn m1) x |}).
      assert (No : ref_get place_eqb (objects st1) loc = None).
      { destruct (ref_get place_eqb (objects st1) loc) as [o|] eqn:E; auto. destruct (Pl loc o E) as [E'|[_ E']]; [|now destruct (E' Pt)].
        exfalso. apply (Cl _ _ E'). apply prefix_refl. }
      pose proof (fun key => put_place (objects st1) loc ob key No) as Po.
      set (st2 := {| next_address := next_address st1; objects := ref_put place_eqb (objects st1) loc ob |}).
      assert (Fb : fn m2 a = b) by (unfold fn; now rewrite L2, Lm, Nat.eqb_refl).
      assert (Rn : rename (fn m2) x = rename (fn m1) x) by now apply rename_extends.
      assert (C2 : covers m2 x) by (eapply covers_extends; eauto).
      assert (Bn : b < next_address st1) by (pose proof (adv_next _ _ _ _ Av) as Z; cbn in Z; unfold b; lia).
      exists st2, m2. split; [|split; [|split; [|split; [|split]]]].
      * intros exc old ctx'. rewrite deser_unfold. cbn [deser_step].
        assert (Un : match j with JObj l => find_member l "$ref" | _ => None end = None) by (specialize (W4 Pt); destruct j; auto).
        rewrite Un, D. cbn. unfold st2, ob, b. rewrite Fb, Rn. reflexivity.
      * split.
        -- intros Ea c s E. destruct (HT Ea) as [Ha Ta]. rewrite Pa in E. destruct (ref_get Nat.eqb tab1 c) as [s'|] eqn:E1.
           ++ inversion E; subst s'. destruct (inv_known _ _ _ _ I1 Ea c s E1) as (d & place & Ld & Rs & Ob & Cc). exists d, place.
              split; [now apply X12|]. split; [auto|]. split; [cbn; rewrite Po, Ob; now rewrite (rename_extends m1 m2)|eapply covers_extends; eauto].
           ++ destruct (Nat.eqb_spec a c) as [<-|]; [|congruence]. inversion E; subst s. exists b, loc. split; [rewrite L2, Lm, Nat.eqb_refl; reflexivity|].
              split; [destruct ctx; [now left|right]|].
              ** eapply at_resolves; [apply A; [exact Ea|discriminate]|discriminate].
              ** split; [cbn; rewrite Po, No|now rewrite Ha]. rewrite (proj2 (place_eqb_spec loc loc) eq_refl). unfold ob. now rewrite Ta, Ha, Rn.
        -- intros c E. rewrite Pa in E. destruct (ref_get Nat.eqb tab1 c) eqn:E1; [discriminate|]. destruct (Nat.eqb_spec a c); [discriminate|].
           rewrite L2, (inv_unknown _ _ _ _ I1 c E1). destruct (Nat.eqb_spec a c); congruence.
        -- assert (New : forall c, lookup m1 c = Some b -> False).
           { intros c E. destruct (adv_fresh _ _ _ _ Av c b E) as [E'|E']; [apply (inv_next _ _ _ _ I) in E'; unfold b in E'; lia|cbn in E'; unfold b in E'; lia]. }
           intros c c' d E E'. rewrite L2 in E, E'. destruct (lookup m1 c) as [w|] eqn:F1, (lookup m1 c') as [w'|] eqn:F2.
           ++ apply (inv_inj _ _ _ _ I1 c c' d); congruence.
           ++ destruct (Nat.eqb a c'); [|discriminate]. exfalso. apply (New c). congruence.
           ++ destruct (Nat.eqb a c); [|discriminate]. exfalso. apply (New c'). congruence.
           ++ destruct (Nat.eqb_spec a c), (Nat.eqb_spec a c'); congruence.
        -- intros c d E. rewrite L2 in E. cbn. destruct (lookup m1 c) as [w|] eqn:F1.
           ++ apply (inv_next _ _ _ _ I1) in F1. inversion E; subst. auto.
           ++ destruct (Nat.eqb a c); [|discriminate]. inversion E; subst. exact Bn.
      * destruct Av as [V1 V2 V3]. cbn in V2, V3. split; cbn; [eapply extends_trans; eauto|lia|].
        intros c d E. rewrite L2 in E. destruct (lookup m1 c) as [w|] eqn:F1.
        -- inversion E; subst w. destruct (V3 _ _ F1); [tauto|right; lia].
        -- destruct (Nat.eqb a c); [|discriminate]. inversion E; subst. right. unfold b. lia.
      * intros c [<-|Ic]; [rewrite L2, Lm, Nat.eqb_refl; discriminate|now apply C2].
      * intros place o E. cbn in E. rewrite Po in E. destruct (ref_get place_eqb (objects st1) place) as [o'|] eqn:E1.
        -- inversion E; subst o'. destruct (Pl place o E1) as [E2|[E2 _]]; [now left|]. right. split; [auto|intros []].
        -- destruct (place_eqb loc place) eqn:Ep; [|discriminate]. apply place_eqb_spec in Ep. subst place. right. split; [apply prefix_refl|intros []].
      * intros home Ag p X.
        assert (Ag' : agrees al home tab1) by (eapply agrees_kept; [|exact Ag]; intros c s E; now rewrite Pa, E).
        assert (Px : placed e home u x p j) by (apply Pc; [exact Ag'|]; intros Ea _; apply X; [exact Ea|discriminate]).
        destruct al eqn:Ea; [|apply placed_only; [now apply Ag|exact Px]].
        destruct (X eq_refl ltac:(discriminate)) as [Ec Pp]. apply placed_first; [|exact Px].
        apply Ag; auto. rewrite Pa, Na, Nat.eqb_refl. now rewrite Ec.
Qed.

Lemma everything_good : forall v, good v /\ forall x, v = VSome x -> good x.
Proof.
  induction v as [| |b|z|f|s|b|z|z|l IH|l IH|i v IH|l IH| |v IH| |v IH|a v IH] using val_ind';
    (split; [|intros x E; first [discriminate E|injection E as <-; exact (proj1 IH)]]); try (now apply scalar_good);
    try (intros t R Hh; inversion Hh; fail).
  - apply list_good. eapply Forall_impl; [|exact IH]. now intros v [? _].
  - apply map_good. rewrite Forall_forall in *. intros p I. exact (proj1 (IH p I)).
  - apply variant_good. exact (proj1 IH).
  - now apply class_good.
  - apply unique_good. exact (proj1 IH).
  - apply shared_good. exact (proj1 IH).
Qed.
End Graph.

(** * Whole documents *)
Lemma distinct_fn : forall H T al root m tab st v, inv H T al root m tab st -> covers m v -> distinct (fn m) v.
Proof.
  intros H T al root m tab st v I C a b Ia Ib E. pose proof (C a Ia) as Ca. pose proof (C b Ib) as Cb. unfold fn in E.
  destruct (lookup m a) as [x|] eqn:La; [|congruence]. destruct (lookup m b) as [y|] eqn:Lb; [|congruence]. subst.
  exact (inv_inj _ _ _ _ _ _ _ I a b y La Lb).
Qed.

Definition unsegment (s : segment) : step :=
  match seg_name s with [] => Element (N.to_nat (seg_index s)) | n => Member (string_of_list_ascii n) end.

Lemma unsegment_of : forall s, plain_step s -> unsegment (segment_of s) = s.
Proof.
  intros [n|i] P; unfold unsegment; cbn in *.
  - destruct P as [P _]. destruct (list_ascii_of_string n) as [|c l] eqn:E; [|change (Member (string_of_list_ascii (c :: l)) = Member n); rewrite <- E; now rewrite string_of_list_ascii_of_string].
    apply (f_equal string_of_list_ascii) in E. rewrite string_of_list_ascii_of_string in E. now subst.
  - now rewrite Nat2N.id.
Qed.

Definition home_of (al : bool) (tab : wtable) (a : nat) : option (list step) :=
  if al then match ref_get Nat.eqb tab a with Some l => Some (map unsegment (rev l)) | None => None end else None.

Lemma home_agrees : forall al tab, agrees al (home_of al tab) tab.
Proof.
  intros al tab. unfold home_of. split; [|now intros ->]. intros -> a ss P E. rewrite E, rev_involutive, map_map. f_equal. rewrite <- (map_id ss) at 2. apply map_ext_in. intros s I.
  rewrite Forall_forall in P. apply unsegment_of. auto.
Qed.

Lemma round_trip : forall e H T al, real_classes e -> (0 < tick e)%Z -> named e -> iterates e -> (al = true -> printable e) ->
  forall t v, real_ints t = true -> holds e t v -> linked e H T al t v -> (al = false -> NoDup (addresses v)) ->
  exists tab j, serialize_to_document e t v = SOk tab j /\ placed e (home_of al tab) t v [] j /\
    exists r, distinct r v /\ deserialize_throw e t j = Returned (rename r v) /\ exists st, forall obj, deserialize e t j obj = DRet true st (rename r v).
Proof.
  intros e H T al Rc Tk Nm It Pr t v Rt Hh Lk Nd.
  destruct (proj1 (everything_good e H T Rc Tk Nm It al Pr v) t Rt Hh Lk [] []) as (tab & j & S & W & Sm); [now intros a| |].
  { intros E. split; auto. }
  destruct (Sm j [] start []) as (st & m & D & I & Av & Cv & _ & Pc).
  - intros _ _. exists []. split; [constructor|]. split; [reflexivity|constructor].
  - split; cbn; try discriminate; auto.
  - intros place o E. discriminate E.
  - exists tab, j. split; [exact S|]. split.
    + apply (Pc _ (home_agrees al tab)). intros _ _. split; [reflexivity|constructor].
    + exists (fn m). split; [eapply distinct_fn; eauto|]. unfold deserialize_throw, deserialize. rewrite D. split; [reflexivity|]. exists st. intros obj. apply D.
Qed.

Lemma shared_round_trip : forall e H T t v, real_classes e -> (0 < tick e)%Z -> named e -> iterates e -> printable e ->
  real_ints t = true -> holds e t v -> graph e H T t v ->
  exists tab j home, serialize_to_document e t v = SOk tab j /\ placed e home t v [] j /\
    exists r, distinct r v /\ deserialize_throw e t j = Returned (rename r v) /\ exists st, forall obj, deserialize e t j obj = DRet true st (rename r v).
Proof.
  intros e H T t v Rc Tk Nm It Pr Rt Hh G.
  destruct (round_trip e H T true Rc Tk Nm It (fun _ => Pr) t v Rt Hh) as (tab & j & S & P & R).
  - split; [eapply graph_simple; eauto|auto].
  - discriminate.
  - exists tab, j, (home_of true tab). auto.
Qed.

Lemma unaliased_round_trip : forall e t v, real_classes e -> (0 < tick e)%Z -> named e -> iterates e ->
  real_ints t = true -> holds e t v -> simple e t v -> NoDup (addresses v) ->
  exists tab j, serialize_to_document e t v = SOk tab j /\ placed e homeless t v [] j /\
    exists r, distinct r v /\ deserialize_throw e t j = Returned (rename r v) /\ exists st, forall obj, deserialize e t j obj = DRet true st (rename r v).
Proof.
  intros e t v Rc Tk Nm It Rt Hh G Nd.
  destruct (round_trip e (fun _ => VNull) (fun _ => TNull) false Rc Tk Nm It ltac:(discriminate) t v Rt Hh) as (tab & j & S & P & R); auto.
  - split; [auto|discriminate].
  - exists tab, j. auto.
Qed.
