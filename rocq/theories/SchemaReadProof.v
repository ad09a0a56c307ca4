(** What the schema accepts can be read. *)
From Coq Require Import List Arith ZArith NArith Ascii String Bool Lia.
From Verif Require Import Base Float NumericModel NumericSpec Base64Spec DatetimeSpec EnumModel Json Types DenoteSpec DocSpec RoundSpec MapFacts DenoteProof DenoteFacts
  SchemaModel SchemaSpec SchemaProof SchemaReadSpec.
Import ListNotations.
Local Open Scope string_scope.
Local Open Scope nat_scope.

(** * Base64 *)

Lemma base64_char_value : forall c, base64_char c = true -> exists v, char_value c v.
Proof.
  intros c H. unfold base64_char in H. apply existsb_exists in H. destruct H as (d & I & E). apply Ascii.eqb_eq in E. subst d. cbn in I.
  assert (Q : exists i, i < 64 /\ alphabet (N.of_nat i) = c).
  { repeat (destruct I as [<-|I]; [match goal with |- exists i, _ /\ alphabet _ = ?a => let v := eval vm_compute in (List.find (fun i => Ascii.eqb (alphabet (N.of_nat i)) a) (seq 0 64)) in
      match v with Some ?i => exists i; split; [lia|vm_compute; reflexivity] end end|]). destruct I. }
  destruct Q as (i & L & <-). exists (N.of_nat i). split; [lia|reflexivity].
Qed.

Lemma base64_body : forall n l, List.length l <= n -> base64_text l = true -> exists body pads vals,
  l = (body ++ repeat "="%char pads)%list /\ pads <= 2 /\ List.length l mod 4 = 0 /\ Forall2 char_value body vals.
Proof.
  induction n as [|n IH]; intros l L H.
  - destruct l; [|cbn in L; lia]. exists [], 0, []. repeat split; try lia. constructor.
  - destruct l as [|a [|b [|c [|d r]]]]; try discriminate H.
    + exists [], 0, []. repeat split; try lia. constructor.
    + cbn [base64_text] in H. apply andb_true_iff in H. destruct H as [H K]. apply andb_true_iff in H. destruct H as [Ha Hb].
      apply base64_char_value in Ha, Hb. destruct Ha as (va & Ha), Hb as (vb & Hb). destruct r as [|x r].
      * apply orb_true_iff in K. destruct K as [K|K]; apply andb_true_iff in K; destruct K as [Kc Kd].
        -- apply Ascii.eqb_eq in Kc, Kd. subst. exists [a; b], 2, [va; vb]. repeat split; try lia. repeat (constructor; [assumption|]). constructor.
        -- apply base64_char_value in Kc. destruct Kc as (vc & Kc). apply orb_true_iff in Kd. destruct Kd as [Kd|Kd].
           ++ apply Ascii.eqb_eq in Kd. subst. exists [a; b; c], 1, [va; vb; vc]. repeat split; try lia. repeat (constructor; [assumption|]). constructor.
           ++ apply base64_char_value in Kd. destruct Kd as (vd & Kd). exists [a; b; c; d], 0, [va; vb; vc; vd]. repeat split; try lia. repeat (constructor; [assumption|]). constructor.
      * apply andb_true_iff in K. destruct K as [K T]. apply andb_true_iff in K. destruct K as [Kc Kd].
        apply base64_char_value in Kc, Kd. destruct Kc as (vc & Kc), Kd as (vd & Kd).
        destruct (IH (x :: r)) as (body & pads & vals & E & P & M & F); [cbn [List.length] in *; lia|exact T|].
        exists (a :: b :: c :: d :: body), pads, (va :: vb :: vc :: vd :: vals). split; [rewrite E; reflexivity|]. split; [exact P|]. split.
        -- change (List.length (a :: b :: c :: d :: x :: r)) with (4 + List.length (x :: r)). rewrite Nat.add_mod, M by lia. reflexivity.
        -- repeat (constructor; [assumption|]). exact F.
Qed.

Lemma base64_decodes : forall l, base64_text l = true -> exists vals data, decodes l vals data.
Proof.
  intros l H. destruct (base64_body _ l (le_n _) H) as (body & pads & vals & E & P & M & F). exists vals. eexists. exists body, pads.
  split; [exact E|]. split; [exact P|]. split; [exact M|]. split; [exact F|reflexivity].
Qed.

(** * Keywords *)

Lemma all_of_true : forall l, all_of l = Some true -> Forall (fun o => o = Some true) l.
Proof.
  induction l as [|o l IH]; intros H; constructor; unfold all_of in *; cbn in H.
  - destruct o as [[]|], (fold_right _ _ l) as [[]|]; try discriminate; reflexivity.
  - apply IH. destruct o as [[]|], (fold_right _ _ l) as [[]|]; try discriminate; reflexivity.
Qed.

Lemma all_map : forall A (f : A -> option bool) l, all_of (map f l) = Some true -> forall x, In x l -> f x = Some true.
Proof. intros A f l H x I. apply all_of_true in H. rewrite Forall_forall in H. apply H. now apply in_map. Qed.

Lemma pairwise_parts : forall V ss l, all_of (pairwise V ss l) = Some true -> List.length ss = List.length l -> Forall2 (fun s j => V s j = Some true) ss l.
Proof.
  intros V ss l H. apply all_of_true in H. revert l H. induction ss as [|s ss IH]; intros [|j l] H L; try discriminate; [constructor|]. cbn in H, L. inversion H; subst. constructor; auto.
Qed.

Lemma at_most_int : forall a b, at_most (JInt a) (JInt b) = true <-> (a <= b)%Z.
Proof.
  intros a b. unfold at_most. cbn [number]. unfold compare_numbers. cbn [fst snd]. change (Z.min 0 0) with 0%Z. change (2 ^ (0 - 0))%Z with 1%Z. rewrite !Z.mul_1_r.
  unfold Z.le. destruct (a ?= b)%Z; split; intros; congruence.
Qed.

Section Read.
Variable e : env.
Variable tn : nat -> string.
Variable D : definitions.
Variable root : json.
Hypothesis Hdef : forall c s, def_find D (tn c) = Some s -> described e tn D true (TClass c) s.
Hypothesis Hroot : forall c s, def_find D (tn c) = Some s -> resolve root ("#/definitions/" ++ tn c) = Some (render s).
Hypothesis Htime : timeless_classes e.
Hypothesis Hplain : plain_classes e.

Definition readable (t : ty) (j : json) : Prop := forall old, exists v, denotes e t old j v.

Lemma integer_type : forall j, is_type "integer" j = true -> whole_as_integers j = true -> exists z, j = JInt z.
Proof.
  intros j T W. destruct j as [| |z|f| | |]; try discriminate T; [eauto|].
  exfalso. unfold is_type in T. cbn [whole_as_integers] in W. destruct (number (JDbl f)) as [a|]; [|discriminate T]. cbn in T. now rewrite T in W.
Qed.

Ltac keywords V :=
  rewrite validate_members in V; cbn [map fst snd] in V; apply all_of_true in V;
  repeat match type of V with
  | Forall _ (_ :: _) => let K := fresh "K" in let T := fresh "T" in pose proof (Forall_inv V) as K; pose proof (Forall_inv_tail V) as T; clear V; rename T into V; cbn beta in K
  end; clear V.

Lemma number_type : forall j n, is_type n j = true -> n <> "number" -> n <> "integer" -> match j with JInt _ | JDbl _ => False | _ => True end.
Proof.
  intros j n T A B. apply String.eqb_neq in A, B. destruct j; auto; unfold is_type in T; rewrite A, B in T; destruct (number _); discriminate.
Qed.

Lemma scalar_read : forall t s m j, scalar_schema t = Some s -> timeless t = true -> validate (S m) root (render s) j = Some true -> whole_as_integers j = true -> readable t j.
Proof.
  intros t s m j Sc Ti V W old.
  assert (Num : is_type "number" j = true -> (exists z, j = JInt z) \/ exists f, j = JDbl f) by (destruct j; try discriminate; eauto).
  destruct t; try discriminate Sc; try discriminate Ti; injection Sc as <-.
  3: { assert (Q : exists z, j = JInt z /\ in_range k z).
    { unfold in_range, tmin, tmax in *. destruct (is_signed k); cbn [render] in V; keywords V; rewrite kw_type in K; injection K as K; destruct (integer_type j K W) as (z & ->);
        rewrite kw_minimum in K0; rewrite kw_maximum in K1; injection K0 as K0; injection K1 as K1; apply at_most_int in K0, K1; exists z; (split; [reflexivity|lia]). }
    destruct Q as (z & -> & Q). eexists. now constructor. }
  all: cbn [render opt app] in V; keywords V; rewrite kw_type in K; injection K as K.
  - assert (X := number_type _ _ K ltac:(discriminate) ltac:(discriminate)). destruct j; try discriminate K; try contradiction. eexists; constructor.
  - assert (X := number_type _ _ K ltac:(discriminate) ltac:(discriminate)). destruct j; try discriminate K; try contradiction. eexists; constructor.
  - destruct (Num K) as [(z & ->)|(f & ->)]; eexists; constructor.
  - destruct (Num K) as [(z & ->)|(f & ->)]; eexists; constructor.
  - assert (X := number_type _ _ K ltac:(discriminate) ltac:(discriminate)). destruct j; try discriminate K; try contradiction. eexists; constructor.
  - assert (X := number_type _ _ K ltac:(discriminate) ltac:(discriminate)). destruct j; try discriminate K; try contradiction. rewrite kw_encoding in K0. injection K0 as K0.
    destruct (base64_decodes _ K0) as (vals & data & Q). eexists. eapply denotes_bytes. exact Q.
  - destruct j; discriminate K0.
  - destruct j; discriminate K0.
Qed.

Lemma read_all : forall t l, (forall j, In j l -> readable t j) -> forall old, exists vs, Forall2 (denotes e t old) l vs.
Proof.
  intros t l H old. induction l as [|j l IH]; [exists []; constructor|]. destruct (H j (or_introl eq_refl) old) as (v & Dv). destruct IH as (vs & F); [intros; apply H; now right|].
  exists (v :: vs). now constructor.
Qed.

Lemma read_parts : forall ts l, Forall2 readable ts l -> forall olds, exists vs, parts_denote (denotes e) ts olds l vs.
Proof.
  intros ts l F. induction F as [|t j ts l R F IH]; intros olds; [exists []; constructor|]. destruct (R (hd VIndet olds)) as (v & Dv). destruct (IH (tl olds)) as (vs & Dvs).
  exists (v :: vs). now constructor.
Qed.

Lemma sizes : forall n l, at_most (JNat n) (JInt (Z.of_nat (List.length l))) = true -> at_most (JInt (Z.of_nat (@List.length json l))) (JNat n) = true -> List.length l = n.
Proof. intros n l A B. apply at_most_int in A, B. lia. Qed.

Lemma described_pieces : forall ts ss js m, Forall2 (described e tn D false) ts ss -> Forall2 (fun s j => validate m root s j = Some true) (map render ss) js -> forall P : ty -> json -> Prop,
  (forall t s j, In t ts -> In j js -> described e tn D false t s -> validate m root (render s) j = Some true -> P t j) -> Forall2 P ts js.
Proof.
  intros ts ss js m F. revert js. induction F as [|t s ts ss A F IH]; intros js G P H; cbn in G; inversion G; subst; constructor.
  - eapply H; eauto; now left.
  - apply IH; [assumption|]. intros; eapply H; eauto; now right.
Qed.

Lemma member_type : forall n, is_type n JNull = true -> n <> "array" /\ n <> "object".
Proof. intros n H. cbn in H. apply String.eqb_eq in H. subst. split; discriminate. Qed.

Lemma is_array : forall j, is_type "array" j = true -> exists l, j = JArr l.
Proof. intros j H. assert (X := number_type _ _ H ltac:(discriminate) ltac:(discriminate)). destruct j; try discriminate H; try contradiction. eauto. Qed.

Lemma is_object : forall j, is_type "object" j = true -> exists l, j = JObj l.
Proof. intros j H. assert (X := number_type _ _ H ltac:(discriminate) ltac:(discriminate)). destruct j; try discriminate H; try contradiction. eauto. Qed.

Lemma whole_item : forall l, whole_as_integers (JArr l) = true -> forall j, In j l -> whole_as_integers j = true.
Proof. intros l H j I. cbn in H. rewrite forallb_forall in H. auto. Qed.

Lemma whole_member : forall l, whole_as_integers (JObj l) = true -> forall k j, In (k, j) l -> whole_as_integers j = true.
Proof. intros l H k j I. cbn in H. rewrite forallb_forall in H. exact (H _ I). Qed.

Lemma find_named : forall l k j, find_member l k = Some j -> In (k, j) l.
Proof. induction l as [|[n x] l IH]; intros k j H; cbn in H; [discriminate|]. destruct (String.eqb_spec n k) as [->|]; [injection H as ->; now left|right; auto]. Qed.

Lemma find_prop : forall ms props m, Forall2 (fun m p => m_kind m <> MDefault /\ fst p = m_name m /\ described e tn D false (m_ty m) (snd p)) ms props -> NoDup (map m_name ms) -> In m ms ->
  exists s, def_find props (m_name m) = Some s /\ described e tn D false (m_ty m) s.
Proof.
  intros ms props m F. induction F as [|m0 [k s] ms props (K & E & Ds) F IH]; intros Nd I; [destruct I|]. cbn in E, Ds. subst k. cbn [def_find]. cbn in Nd. inversion Nd as [|? ? N1 N2]; subst.
  destruct I as [<-|I]; [rewrite String.eqb_refl; eauto|]. destruct (String.eqb_spec (m_name m0) (m_name m)) as [Q|]; [|auto]. exfalso. apply N1. rewrite Q. now apply in_map.
Qed.

Hypothesis Hnames : named e.

Lemma accepted_read : forall m t i s j, described e tn D i t s -> plain t = true -> timeless t = true -> validate m root (render s) j = Some true -> whole_as_integers j = true -> readable t j.
Proof.
  induction m as [|m IH]; [discriminate|].
  assert (List1 : forall t s l, described e tn D false t s -> plain t = true -> timeless t = true -> whole_as_integers (JArr l) = true ->
    all_of (map (validate m root (render s)) l) = Some true -> forall old, exists vs, Forall2 (denotes e t old) l vs).
  { intros t s l Ds P Ti W V. apply read_all. intros j I. eapply IH; eauto; [exact (all_map _ _ _ V j I)|now apply (whole_item l)]. }
  assert (Parts : forall ts ss l, Forall2 (described e tn D false) ts ss -> forallb plain ts = true -> forallb timeless ts = true -> whole_as_integers (JArr l) = true -> List.length l = List.length ts ->
    all_of (pairwise (validate m root) (map render ss) l) = Some true -> Forall2 readable ts l).
  { intros ts ss l F P Ti W L V. apply pairwise_parts in V; [|rewrite map_length, L; clear -F; induction F; cbn; auto].
    apply (described_pieces ts ss l m F V). intros t s j I J Ds Vj. rewrite forallb_forall in P, Ti. eapply IH; eauto. now apply (whole_item l). }
  induction t using ty_ind'; intros i s j Ds P Ti V W; try discriminate P; inversion Ds; subst; try (eapply scalar_read; eassumption); try discriminate; try (match goal with H : scalar_schema _ = Some _ |- _ => discriminate H end); intros old.
  - cbn [render opt app] in V. keywords V. rewrite kw_type in K. injection K as K. destruct (is_array j K) as (l & ->). rewrite kw_items in K0. cbn in K0.
    match goal with H : described _ _ _ false t _ |- _ => destruct (List1 _ _ _ H P Ti W K0 (dinit e t)) as (vs & F) end. eexists. apply denotes_vector. exact F.
  - cbn [render opt app] in V. keywords V. rewrite kw_type in K. injection K as K. destruct (is_array j K) as (l & ->). rewrite kw_items in K0. cbn in K0.
    rewrite kw_min in K1. rewrite kw_max in K2. injection K1 as K1. injection K2 as K2. assert (L := sizes n l K1 K2). subst n.
    match goal with H : described _ _ _ false t _ |- _ => destruct (List1 _ _ _ H P Ti W K0 (dinit e t)) as (vs & F) end. eexists. apply denotes_array. exact F.
  - cbn [render opt app] in V. keywords V. rewrite kw_type in K. injection K as K. destruct (is_array j K) as (l & ->). rewrite kw_items in K0. cbn in K0.
    match goal with H : described _ _ _ false t _ |- _ => destruct (List1 _ _ _ H P Ti W K0 (dinit e t)) as (vs & F) end. eexists. apply denotes_set. exact F.
  - cbn [render opt app] in V. keywords V. rewrite kw_type in K. injection K as K. destruct (is_object j K) as (l & ->). rewrite kw_additional in K0. cbn in K0.
    assert (Q : exists vs, Forall2 (fun p v => denotes e t (dinit e t) (snd p) v) l vs).
    { clear K. assert (R : forall p, In p l -> readable t (snd p)).
      { intros [k x] I. eapply IH; eauto; [exact (all_map _ _ _ K0 (k, x) I)|apply (whole_member l W k x I)]. }
      clear K0 W. induction l as [|p l IHl]; [exists []; constructor|]. destruct (R p (or_introl eq_refl) (dinit e t)) as (v & Dv). destruct IHl as (vs & F); [intros; apply R; now right|].
      exists (v :: vs). now constructor. }
    destruct Q as (vs & F). eexists. apply denotes_map. exact F.
  - cbn [render opt app] in V. keywords V. rewrite kw_type in K. injection K as K. destruct (is_array j K) as (l & ->). rewrite kw_prefix in K0.
    rewrite kw_min in K1. rewrite kw_max in K2. injection K1 as K1. injection K2 as K2. assert (L := sizes 2 l K1 K2).
    cbn in P, Ti. apply andb_true_iff in P, Ti. destruct P as [P1 P2], Ti as [Ti1 Ti2].
    match goal with H : Forall2 _ [t1; t2] _ |- _ => assert (Q := Parts _ _ l H) end. cbn [forallb] in Q. rewrite P1, P2, Ti1, Ti2 in Q. specialize (Q eq_refl eq_refl W L K0).
    destruct (read_parts _ _ Q (components old)) as (vs & F). eexists. apply denotes_pair. exact F.
  - cbn [render opt app] in V. keywords V. rewrite kw_type in K. injection K as K. destruct (is_array j K) as (l & ->). rewrite kw_prefix in K0.
    rewrite kw_min in K1. rewrite kw_max in K2. injection K1 as K1. injection K2 as K2. assert (L := sizes (List.length ts) l K1 K2).
    match goal with G : Forall2 _ ts _ |- _ => assert (Q := Parts _ _ l G P Ti W L K0) end.
    destruct (read_parts _ _ Q (components old)) as (vs & F). eexists. apply denotes_tuple. exact F.
  - cbn [render opt app] in V. keywords V. rewrite kw_type in K. injection K as K. destruct (is_object j K) as (l & ->).
    rewrite kw_properties in K0. rewrite kw_required in K1. injection K1 as K1.
    match goal with F : Forall2 _ _ props, R : forall n, In n req <-> _ |- _ => rename F into Fm; rename R into Rq end.
    assert (Q : forall ms olds, (forall x, In x ms -> In x (c_members (class_of e c))) -> exists vs, members_denote (denotes e) e l ms olds vs).
    { induction ms as [|x ms IHm]; intros olds Sub; [exists []; constructor|]. destruct (IHm (tl olds)) as (vs & Dvs); [intros; apply Sub; now right|].
      assert (I := Sub x (or_introl eq_refl)). destruct (find_prop _ _ x Fm (Hnames c) I) as (sx & Fx & Dx).
      assert (Rx : forall y, find_member l (m_name x) = Some y -> readable (m_ty x) y).
      { intros y Fy. apply find_named in Fy. assert (V := all_map _ _ _ K0 _ Fy). cbn [fst snd] in V. rewrite find_rendered, Fx in V. cbn [option_map] in V.
        eapply IH; [exact Dx| |now apply (Htime c)|exact V|exact (whole_member l W _ _ Fy)]. assert (X := Hplain c). rewrite forallb_forall in X. now apply X. }
      assert (Kx : m_kind x <> MDefault).
      { clear -Fm I. induction Fm as [|a b la lb (A & _) F IHF]; [destruct I|]. destruct I as [<-|I]; auto. }
      assert (E : exists v, member_denotes (denotes e) e l x (hd VIndet olds) v).
      { destruct (find_member l (m_name x)) as [y|] eqn:Fy.
        - destruct (m_kind x) eqn:Kk; [| |].
          + destruct (Rx y eq_refl (hd VIndet olds)) as (v & Dv). exists v. eapply member_plain; [congruence|exact Fy|exact Dv].
          + congruence.
          + destruct (Rx y eq_refl (dinit e (m_ty x))) as (v & Dv). exists (VSome v). eapply member_some; [exact Kk|exact Fy|exact Dv].
        - destruct (m_kind x) eqn:Kk; [|congruence|exists VNone; now apply member_none].
          exfalso. rewrite forallb_forall in K1. assert (J : In (m_name x) req) by (apply Rq; eauto). specialize (K1 (JStr (m_name x)) (in_map JStr _ _ J)). cbn in K1.
          apply existsb_exists in K1. destruct K1 as ([k y] & Iy & Ek). apply String.eqb_eq in Ek. cbn in Ek. subst k. clear -Fy Iy. induction l as [|[k z] l IHl]; [destruct Iy|]. cbn in Fy.
          destruct (String.eqb_spec k (m_name x)) as [->|N]; [discriminate|]. destruct Iy as [Iy|Iy]; [congruence|auto]. }
      destruct E as (v & Dv). exists (v :: vs). now constructor. }
    destruct (Q (c_members (class_of e c)) (components old) (fun x I => I)) as (vs & F). eexists. apply denotes_class. exact F.
  - cbn [render] in V. keywords V. rewrite kw_ref in K. match goal with H : def_find D (tn c) = Some ?x |- _ => rewrite (Hroot _ _ H) in K; destruct (IH (TClass c) true x j (Hdef _ _ H) P Ti K W old) as (v & Q) end. eauto.
  - match goal with H : described _ _ _ true t _ |- _ => destruct (IHt true s j H P Ti V W (vinit e t)) as (v & Q) end. eexists. apply denotes_unique. exact Q.
Qed.
End Read.

Theorem schema_read : forall e tn, (forall c c', tn c = tn c' -> c = c') -> (forall c, forallb ordinary_char (list_ascii_of_string (tn c)) = true) ->
  named e -> plain_classes e -> timeless_classes e -> forall t n schema d j, plain t = true -> timeless t = true ->
  schema_document e tn n t = GOk schema d -> accepts schema j -> whole_as_integers j = true -> forall old, exists v, denotes e t old j v.
Proof.
  intros e tn Inj Ord Hn Hp Ht t n schema d j P Ti G (k & A) W. unfold schema_document in G.
  destruct (gen e tn n true t []) as [s d0| |] eqn:E; cbn [gbind] in G; try discriminate. injection G as <- <-.
  assert (S0 : def_sorted []) by constructor.
  destruct (gen_describes e tn d0 Inj n true t [] s d0 S0) as [Sd Ds]; [intros c s' F; discriminate F|exact E|intros ? ?; auto|].
  destruct (render_members s) as (kws & Rk & Nk). rewrite Rk in A. cbn [members_of] in A.
  set (head := match d0 with [] => [] | _ => [("definitions", JObj (map (fun p => (fst p, render (snd p))) d0))] end) in A.
  set (root := JObj (("$schema", JStr schema_version) :: head ++ kws)%list) in A.
  specialize (A (S k) (le_S _ _ (le_n _))). unfold root at 2 in A. rewrite validate_members in A.
  assert (Fk : forall k, k <> "$schema" -> k <> "definitions" -> find_member (("$schema", JStr schema_version) :: head ++ kws) k = find_member kws k).
  { intros k0 N1 N2. cbn [find_member]. destruct (String.eqb_spec "$schema" k0); [congruence|]. unfold head. destruct d0; [reflexivity|].
    cbn [app find_member]. destruct (String.eqb_spec "definitions" k0); [congruence|reflexivity]. }
  apply (accepted_read e tn d0 root) with (m := S k) (i := true) (s := s); auto.
  - intros c s' F. apply (ordinary_resolve _ d0); auto. unfold head. destruct d0 as [|x d0]; [discriminate F|]. reflexivity.
  - rewrite Rk, validate_members. apply all_map_true. intros [q x] I. cbn [fst snd].
    rewrite (keyword_siblings _ _ kws (("$schema", JStr schema_version) :: head ++ kws)); [|symmetry; apply Fk; discriminate|symmetry; apply Fk; discriminate].
    apply (all_map _ _ _ A (q, x)). right. apply in_or_app. now right.
Qed.
