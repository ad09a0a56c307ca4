(** The path of a deserialization error leads to the first defect. *)
From Coq Require Import List Arith ZArith NArith Ascii String Bool Lia.
From Verif Require Import Base Float NumericModel NumericSpec NumericProof Base64Model Base64Spec Base64Decode DatetimeModel DatetimeSpec DatetimeProof EnumModel RefsModel HashModel Json
  PathModel PathSpec Types SerializeModel DeserializeModel DenoteSpec DenoteProof SameSpec DenoteFacts CulpritSpec.
Import ListNotations.

Definition places := list nat -> list step -> ty -> json -> derror -> Prop.

Definition none (D : places) : Prop := forall pos ss u x why, ~ D pos ss u x why.

Definition first_of (D : places) (ctx : list segment) (why : derror) (path : list segment) : Prop :=
  exists pos ss u x, D pos ss u x why /\ path = rev (map segment_of ss) ++ ctx /\
    forall pos' ss' u' x' why', D pos' ss' u' x' why' -> pos' = pos \/ before pos pos'.

Definition finds (D : places) (ctx : list segment) (r : dres) : Prop :=
  match r with
  | DRet ok _ _ => ok = true /\ none D
  | DThrow why path => first_of D ctx why path
  | _ => True
  end.

Definition finds_from (Ds : nat -> places) (k n : nat) (ctx : list segment) (r : dres) : Prop :=
  match r with
  | DRet ok _ _ => ok = true /\ forall i, k <= i < k + n -> none (Ds i)
  | DThrow why path => exists i, k <= i < k + n /\ first_of (Ds i) ctx why path /\ forall i', k <= i' < i -> none (Ds i')
  | _ => True
  end.

Lemma finds_all : forall D Ds n ctx r,
  (forall pos ss u x why, D pos ss u x why <-> exists i pos', i < n /\ pos = i :: pos' /\ Ds i pos' ss u x why) ->
  finds_from Ds 0 n ctx r -> finds D ctx r.
Proof.
  intros D Ds n ctx [ok st v|why path| |] E F; cbn in *; auto.
  - destruct F as [-> F]. split; [reflexivity|]. intros pos ss u x why H. apply E in H. destruct H as (i & pos' & L & -> & H).
    apply (F i) in H; [exact H|lia].
  - destruct F as (i & L & (pos & ss & u & x & H & -> & M) & N). exists (i :: pos), ss, u, x. split; [|split; [reflexivity|]].
    + apply E. exists i, pos. split; [lia|auto].
    + intros p' ss' u' x' why' H'. apply E in H'. destruct H' as (i' & p & L' & -> & H').
      destruct (Nat.lt_trichotomy i' i) as [X|[->|X]].
      * exfalso. apply (N i') in H'; [exact H'|lia].
      * destruct (M _ _ _ _ _ H') as [->|B]; [now left|right]. now apply before_tail.
      * right. now apply before_head.
Qed.

(** One child more. *)
Lemma from_cons : forall Ds k n ctx why path, first_of (Ds k) ctx why path -> finds_from Ds k (S n) ctx (DThrow why path).
Proof. intros Ds k n ctx why path F. exists k. split; [lia|]. split; [exact F|]. intros i' L. lia. Qed.

Lemma from_later : forall Ds k n ctx r, none (Ds k) -> finds_from Ds (S k) n ctx r -> finds_from Ds k (S n) ctx r.
Proof.
  intros Ds k n ctx [ok st v|why path| |] N F; cbn in *; auto.
  - destruct F as [-> F]. split; [reflexivity|]. intros i L. destruct (Nat.eq_dec i k) as [->|X]; [exact N|]. apply F. lia.
  - destruct F as (i & L & F & M). exists i. split; [lia|]. split; [exact F|]. intros i' L'.
    destruct (Nat.eq_dec i' k) as [->|X]; [exact N|]. apply M. lia.
Qed.

Definition child (Ds : nat -> places) (k : nat) (ctx inner : list segment) (f : reader) : Prop :=
  forall old loc st, finds (Ds k) ctx (f old inner loc st).

Fixpoint children (Ds : nat -> places) (k : nat) (ctx : list segment) (fs : list reader) : Prop :=
  match fs with
  | [] => True
  | f :: fs' => child Ds k ctx (at_index ctx (N.of_nat k)) f /\ children Ds (S k) ctx fs'
  end.

Fixpoint entries (Ds : nat -> places) (k : nat) (ctx : list segment) (fs : list (string * reader)) : Prop :=
  match fs with
  | [] => True
  | (n, f) :: fs' => child Ds k ctx (at_name ctx n) f /\ entries Ds (S k) ctx fs'
  end.

Lemma items_find : forall Ds ctx init add fs k acc loc st, children Ds k ctx fs ->
  finds_from Ds k (List.length fs) ctx (read_items init add fs k acc ctx loc st).
Proof.
  intros Ds ctx init add fs. induction fs as [|f fs IH]; intros k acc loc st C; cbn [read_items List.length].
  - split; [reflexivity|]. intros i L. lia.
  - destruct C as [C Cs]. specialize (C init (loc ++ [k]) st). destruct (f init _ _ st) as [ok s x|why p| |]; cbn in C; try exact I.
    + destruct C as [-> N]. apply from_later; [exact N|]. apply IH, Cs.
    + now apply from_cons.
Qed.

Lemma entries_find : forall Ds ctx init fs k acc loc st, entries Ds k ctx fs ->
  finds_from Ds k (List.length fs) ctx (read_entries init fs k acc ctx loc st).
Proof.
  intros Ds ctx init fs. induction fs as [|[n f] fs IH]; intros k acc loc st C; cbn [read_entries List.length].
  - split; [reflexivity|]. intros i L. lia.
  - destruct C as [C Cs]. specialize (C init (loc ++ [k]) st). destruct (f init _ _ st) as [ok s x|why p| |]; cbn in C; try exact I.
    + destruct C as [-> N]. apply from_later; [exact N|]. apply IH, Cs.
    + now apply from_cons.
Qed.

Lemma tuple_find : forall Ds ctx fs k olds loc st, children Ds k ctx fs ->
  finds_from Ds k (List.length fs) ctx (finish_tuple (read_tuple fs k olds ctx loc st)).
Proof.
  intros Ds ctx fs. induction fs as [|f fs IH]; intros k olds loc st C; cbn [read_tuple List.length].
  - split; [reflexivity|]. intros i L. lia.
  - destruct C as [C Cs]. specialize (C (hd VIndet olds) (loc ++ [k]) st). destruct (f (hd VIndet olds) _ _ st) as [ok s x|why p| |]; cbn in C; try exact I.
    + destruct C as [-> N]. specialize (IH (S k) (tl olds) loc s Cs). apply from_later; [exact N|].
      destruct (read_tuple fs (S k) (tl olds) ctx loc s) as [[[b l] [[ok' s1 v'|why' p'| |]|]] s2]; exact IH.
    + now apply from_cons.
Qed.

(** The members of a class. *)
Fixpoint member_children (e : env) (fs : list (string * (bool -> ty -> reader))) (Ds : nat -> places) (k : nat) (ctx : list segment) (ms : list member) : Prop :=
  match ms with
  | [] => True
  | m :: ms' => (forall old loc st, finds (Ds k) ctx (read_member e true fs m true old ctx loc st)) /\ member_children e fs Ds (S k) ctx ms'
  end.

Lemma members_find : forall e fs Ds ctx ms k r olds loc st, member_children e fs Ds k ctx ms ->
  finds_from Ds k (List.length ms) ctx (finish_object (read_members e true fs ms r true true olds ctx loc st)).
Proof.
  intros e fs Ds ctx ms. induction ms as [|m ms IH]; intros k r olds loc st C; cbn [read_members List.length].
  - split; [reflexivity|]. intros i L. lia.
  - destruct C as [C Cs]. specialize (C (hd VIndet olds) loc st).
    destruct (read_member e true fs m true (hd VIndet olds) ctx loc st) as [ok s x|why p| |]; cbn in C; try exact I.
    + destruct C as [-> N].
      assert (X : finds_from Ds (S k) (List.length ms) ctx (finish_object match r with
        | 0 => read_members e true fs ms 0 true true (tl olds) ctx loc s
        | S r0 => read_members e true fs ms r0 true true (tl olds) ctx loc s end)) by (destruct r; apply IH, Cs).
      apply from_later; [exact N|].
      destruct (match r with 0 => _ | S r0 => _ end) as [[[b l] [[ok' s1 v'|why' p'| |]|]] s2]; exact X.
    + now apply from_cons.
Qed.

(** A step further. *)
Lemma finds_step : forall D D' ctx s r, finds D' (segment_of s :: ctx) r ->
  (forall pos ss u x why, D pos ss u x why <-> exists ss', ss = s :: ss' /\ D' pos ss' u x why) -> finds D ctx r.
Proof.
  intros D D' ctx s [ok st v|why path| |] F E; cbn in *; auto.
  - destruct F as [-> F]. split; [reflexivity|]. intros pos ss u x why H. apply E in H. destruct H as (ss' & _ & H). exact (F _ _ _ _ _ H).
  - destruct F as (pos & ss & u & x & H & -> & M). exists pos, (s :: ss), u, x. split; [apply E; eauto|]. split.
    + cbn. now rewrite <- app_assoc.
    + intros pos' ss' u' x' why' H'. apply E in H'. destruct H' as (ss'' & _ & H'). exact (M _ _ _ _ _ H').
Qed.

Lemma finds_same : forall (D D' : places) ctx r, finds D' ctx r ->
  (forall pos ss u x why, D pos ss u x why <-> D' pos ss u x why) -> finds D ctx r.
Proof.
  intros D D' ctx [ok st v|why path| |] F E; cbn in *; auto.
  - destruct F as [-> F]. split; [reflexivity|]. intros pos ss u x why H. apply E in H. exact (F _ _ _ _ _ H).
  - destruct F as (pos & ss & u & x & H & -> & M). exists pos, ss, u, x. split; [now apply E|]. split; [reflexivity|].
    intros pos' ss' u' x' why' H'. apply E in H'. exact (M _ _ _ _ _ H').
Qed.

(** An error at the value itself. *)
Lemma finds_reject : forall e t j why old ctx st, wrong e t j why -> finds (defect e t j) ctx (reject true why old ctx st).
Proof.
  intros e t j why old ctx st W. exists [], [], t, j. split; [now constructor|]. split; [reflexivity|].
  intros [|k p] ss u x why' _; [now left|right; constructor].
Qed.

(** A value without parts and without fault. *)
Lemma finds_fine : forall e t j st v ctx, (forall pos ss u x why, ~ defect e t j pos ss u x why) -> finds (defect e t j) ctx (DRet true st v).
Proof. intros e t j st v ctx N. split; [reflexivity|exact N]. Qed.

Lemma carrier_wide : forall k, existsb (Z.eqb (width k)) [8; 16; 32; 64]%Z = true -> wide k = carrier k.
Proof. intros [w s] H. unfold wide, carrier. cbn. destruct s, (w =? 64)%Z; reflexivity. Qed.

Lemma read_int_exactly : forall k z old ctx loc st, existsb (Z.eqb (width k)) [8; 16; 32; 64]%Z = true ->
  (in_range k z -> read_int true k (JInt z) old ctx loc st = DRet true st (VInt z)) /\
  (~ in_range k z -> in_range (carrier k) z -> read_int true k (JInt z) old ctx loc st = DThrow (OutOfRange (is_signed k)) ctx) /\
  (~ in_range (carrier k) z -> read_int true k (JInt z) old ctx loc st = DThrow (WrongType (int_name k)) ctx).
Proof.
  intros k z old ctx loc st W. destruct (read_int_exact true k z old ctx loc st W) as [A B]. split; [exact A|].
  revert B. unfold read_int, is_kind. rewrite <- (carrier_wide k W), !in_range_iff.
  destruct ((tmin (wide k) <=? z) && (z <=? tmax (wide k)))%Z eqn:E; [|split; intros; [exfalso; lia|reflexivity]].
  destruct (check_range k (wide k) z) eqn:C; [|split; intros; [reflexivity|exfalso; lia]].
  intros B. split; intros; [|exfalso; lia]. destruct B as [why B]; [assumption|]. discriminate.
Qed.

Lemma in_range_dec : forall k z, in_range k z \/ ~ in_range k z.
Proof. intros k z. unfold in_range. destruct (is_signed k); lia. Qed.

Section Find.
Variable e : env.
Variable root : json.
Hypothesis real : real_classes e.
Hypothesis clock : (0 < tick e)%Z.
Hypothesis variants : simple_variant_classes e.

Definition finder (j : json) (t : ty) : Prop := forall old ctx loc st, finds (defect e t j) ctx (deser e root j true t old ctx loc st).

Ltac no_defect := let Q := fresh in intros pos ss u x why Q; inversion Q; subst; try discriminate;
  match goal with W : wrong _ _ _ _ |- _ => inversion W; subst; try (now auto) end;
  try (match goal with H : ~ right_kind _ _ |- _ => elim H; exact I end).

Ltac refuted := match goal with H : forall old v, ~ denotes _ _ _ _ _ |- _ => eapply (H VNull) end.

Lemma carrier_in : forall k z, existsb (Z.eqb (width k)) [8; 16; 32; 64]%Z = true -> in_range k z -> in_range (carrier k) z.
Proof.
  intros k z W. rewrite <- (carrier_wide k W), !in_range_iff. destruct (wide_wider k (real_valid k W)) as [_ [L U]]. lia.
Qed.

Lemma scalar_find : forall j t, real_ints t = true ->
  match t with TNull | TBool | TInt _ | TEnumInt _ | TEnumStr _ | TFloat | TDouble | TString | TBytes | TTime | TDate => True
  | _ => False end -> finder j t.
Proof.
  intros j t W K old ctx loc st.
  assert (not_thrown : forall old v, denotes e t old j v -> deser e root j true t old ctx loc st = DRet true st v).
  { intros o v D. apply (scalar_complete e root clock j t W K true o ctx loc st v D). }
  rewrite deser_unfold. destruct t; try contradiction; cbn [deser_step read_scalar].
  - destruct j; try (apply finds_reject, wrong_kind; easy). apply finds_fine. no_defect.
  - destruct j; try (apply finds_reject, wrong_kind; easy). apply finds_fine. no_defect.
  - destruct j; try (apply finds_reject, wrong_kind; easy). destruct (read_int_exactly k z old ctx loc st W) as (A & B & D).
    destruct (in_range_dec k z) as [R|R].
    + rewrite (A R). apply finds_fine. no_defect. now apply (carrier_in k z W) in R.
    + destruct (in_range_dec (carrier k) z) as [R'|R'].
      * rewrite (B R R'). now apply (finds_reject e (TInt k) (JInt z) (OutOfRange (is_signed k)) old ctx st), wrong_int.
      * rewrite (D R'). now apply (finds_reject e (TInt k) (JInt z) (WrongType (int_name k)) old ctx st), wrong_kind.
  - unfold read_float. destruct j; try (apply finds_reject, wrong_kind; easy); apply finds_fine; no_defect.
  - unfold read_float. destruct j; try (apply finds_reject, wrong_kind; easy); apply finds_fine; no_defect.
  - destruct j; try (apply finds_reject, wrong_kind; easy). apply finds_fine. no_defect.
  - destruct j; try (apply finds_reject, wrong_kind; easy). destruct (base64_decode (list_ascii_of_string s)) as [[[|] b]|] eqn:B; [| |exact I].
    + apply finds_fine. no_defect. apply decode_iff in B. destruct B as [values B]. refuted. econstructor. exact B.
    + apply finds_reject, wrong_bytes. intros o v D. apply not_thrown in D. rewrite deser_unfold in D. cbn [deser_step read_scalar] in D. rewrite ?B, ?E in D. discriminate D.
  - destruct j; try (apply finds_reject, wrong_kind; easy). destruct (parse_datetime (tick e) (list_ascii_of_string s)) as [[z|]|] eqn:B; [| |exact I].
    + apply finds_fine. no_defect. apply parse_datetime_iff in B.
      destruct B as (sep & y & m & d & hh & mi & ss & sec & S & Y & T & J & -> & B). refuted. econstructor; eassumption.
    + apply finds_reject, wrong_time. intros o v D. apply not_thrown in D. rewrite deser_unfold in D. cbn [deser_step read_scalar] in D. rewrite ?B, ?E in D. discriminate D.
  - destruct j; try (apply finds_reject, wrong_kind; easy). destruct (parse_date (tick e) (list_ascii_of_string s)) as [[z|]|] eqn:B; [| |exact I].
    + apply finds_fine. no_defect. pose proof (date_days e clock s z B) as E. rewrite E in B. apply (date_iff e clock) in B.
      destruct B as (y & m & d & Y & T & J & B). refuted. econstructor; eassumption.
    + apply finds_reject, wrong_date. intros o v D. apply not_thrown in D. rewrite deser_unfold in D. cbn [deser_step read_scalar] in D. rewrite ?B, ?E in D. discriminate D.
  - destruct j; try (apply finds_reject, wrong_kind; easy). destruct (read_int_exactly k z VIndet ctx loc st W) as (A & B & D).
    destruct (in_range_dec k z) as [R|R].
    + rewrite (A R). apply finds_fine. no_defect. now apply (carrier_in k z W) in R.
    + destruct (in_range_dec (carrier k) z) as [R'|R'].
      * rewrite (B R R'). now apply (finds_reject e (TEnumInt k) (JInt z) (OutOfRange (is_signed k)) old ctx st), wrong_enum_int.
      * rewrite (D R'). now apply (finds_reject e (TEnumInt k) (JInt z) (WrongType (int_name k)) old ctx st), wrong_kind.
  - destruct j; try (apply finds_reject, wrong_kind; easy). destruct (enum_from_string names s) eqn:E.
    + apply finds_fine. no_defect. refuted. constructor. exact E.
    + apply finds_reject, wrong_name. intros o v D. apply not_thrown in D. rewrite deser_unfold in D. cbn [deser_step read_scalar] in D. rewrite ?B, ?E in D. discriminate D.
Qed.

(** Elements, components, entries and members. *)
Definition element_defects (t : ty) (js : list json) : nat -> places := fun i pos ss u x why =>
  exists ss', ss = Element i :: ss' /\ exists j, nth_error js i = Some j /\ defect e t j pos ss' u x why.

Definition component_defects (ts : list ty) (js : list json) : nat -> places := fun i pos ss u x why =>
  exists ss', ss = Element i :: ss' /\ exists t j, nth_error ts i = Some t /\ nth_error js i = Some j /\ defect e t j pos ss' u x why.

Definition entry_defects (t : ty) (l : list (string * json)) : nat -> places := fun i pos ss u x why =>
  exists n j ss', ss = Member (until_nul n) :: ss' /\ nth_error l i = Some (n, j) /\ defect e t j pos ss' u x why.

Definition member_defects (c : nat) (l : list (string * json)) : nat -> places := fun i pos ss u x why =>
  exists m, nth_error (c_members (class_of e c)) i = Some m /\
  ((exists j ss', ss = Member (until_nul (m_name m)) :: ss' /\ find_member l (m_name m) = Some j /\ defect e (m_ty m) j pos ss' u x why) \/
   (m_kind m = MRequired /\ find_member l (m_name m) = None /\ pos = [] /\ ss = [] /\ u = TClass c /\ x = JObj l /\ why = MissingProperty (m_name m))).

Lemma element_children : forall t all ctx l k, Forall (fun j => finder j t) l -> (forall i, nth_error all (k + i) = nth_error l i) ->
  children (element_defects t all) k ctx (map (fun f => f true t) (map (deser e root) l)).
Proof.
  intros t all ctx l. induction l as [|j l IH]; intros k F E; [exact I|]. inversion F as [|? ? Fj Fs]; subst. cbn [map children]. split.
  - intros old loc st. pose proof (E 0) as E0. rewrite Nat.add_0_r in E0. cbn in E0.
    eapply (finds_step _ _ ctx (Element k)); [apply Fj|]. intros pos ss u x why. unfold element_defects. split.
    + intros (ss' & -> & j' & Ej & D). exists ss'. split; [reflexivity|]. congruence.
    + intros (ss' & -> & D). exists ss'. split; [reflexivity|]. exists j. auto.
  - apply IH; [exact Fs|]. intros i. rewrite Nat.add_succ_comm. exact (E (S i)).
Qed.

Lemma component_children : forall allt allj ctx js ts fs k, Forall2 (fun j t => finder j t) js ts ->
  apply_types (map (fun f => f true) (map (deser e root) js)) ts = Some fs ->
  (forall i, nth_error allj (k + i) = nth_error js i) -> (forall i, nth_error allt (k + i) = nth_error ts i) ->
  children (component_defects allt allj) k ctx fs.
Proof.
  intros allt allj ctx js ts fs k F. revert fs k. induction F as [|j t js ts Fj Fs IH]; intros fs k A Ej Et; cbn in A.
  - injection A as <-. exact I.
  - destruct (apply_types (map (fun f => f true) (map (deser e root) js)) ts) as [fs'|] eqn:A'; [|discriminate]. injection A as <-. cbn [children]. split.
    + intros old loc st. pose proof (Ej 0) as E0. pose proof (Et 0) as E1. rewrite Nat.add_0_r in E0, E1. cbn in E0, E1.
      eapply (finds_step _ _ ctx (Element k)); [apply Fj|]. intros pos ss u x why. unfold component_defects. split.
      * intros (ss' & -> & t' & j' & Et' & Ej' & D). exists ss'. split; [reflexivity|]. congruence.
      * intros (ss' & -> & D). exists ss'. split; [reflexivity|]. exists t, j. auto.
    + apply IH; [reflexivity| |]; intros i; rewrite Nat.add_succ_comm; [exact (Ej (S i))|exact (Et (S i))].
Qed.

Lemma entry_children : forall t all ctx l k, Forall (fun p => finder (snd p) t) l -> (forall i, nth_error all (k + i) = nth_error l i) ->
  entries (entry_defects t all) k ctx (map (fun p => (fst p, snd p true t)) (map (fun p => (fst p, deser e root (snd p))) l)).
Proof.
  intros t all ctx l. induction l as [|[n j] l IH]; intros k F E; [exact I|]. inversion F as [|? ? Fj Fs]; subst. cbn [map entries fst snd] in *. split.
  - intros old loc st. pose proof (E 0) as E0. rewrite Nat.add_0_r in E0. cbn in E0.
    eapply (finds_step _ _ ctx (Member (until_nul n))).
    + apply Fj.
    + intros pos ss u x why. unfold entry_defects. split.
      * intros (n' & j' & ss' & -> & Ej & D). rewrite E0 in Ej. injection Ej as <- <-. eauto.
      * intros (ss' & -> & D). exists n, j, ss'. auto.
  - apply IH; [exact Fs|]. intros i. rewrite Nat.add_succ_comm. exact (E (S i)).
Qed.

Lemma class_children : forall c l ctx ms k, (forall m j, In m ms -> find_member l (m_name m) = Some j -> finder j (m_ty m)) ->
  (forall i, nth_error (c_members (class_of e c)) (k + i) = nth_error ms i) ->
  member_children e (map (fun p => (fst p, deser e root (snd p))) l) (member_defects c l) k ctx ms.
Proof.
  intros c l ctx ms. induction ms as [|m ms IH]; intros k F E; [exact I|]. cbn [member_children]. split.
  - intros old loc st. pose proof (E 0) as E0. rewrite Nat.add_0_r in E0. cbn in E0. unfold read_member.
    pose proof (find_fun_member _ (deser e root) l (m_name m)) as X.
    destruct (find_fun _ 0 (m_name m)) as [[i f]|].
    + destruct X as (j & Fj & ->). specialize (F m j (or_introl eq_refl) Fj).
      assert (G : forall old, finds (member_defects c l k) ctx (deser e root j true (m_ty m) old (at_name ctx (m_name m)) (loc ++ [i]) st)).
      { intros o. eapply (finds_step _ _ ctx (Member (until_nul (m_name m)))).
        - apply F.
        - intros pos ss u x why. unfold member_defects. split.
          + intros (m' & Em & H). rewrite E0 in Em. injection Em as <-. destruct H as [(j' & ss' & -> & Fj' & D)|(_ & H & _)]; [|congruence].
            exists ss'. split; [reflexivity|]. congruence.
          + intros (ss' & -> & D). exists m. split; [exact E0|]. left. eauto. }
      destruct (m_kind m); [apply G|apply G|]. specialize (G (dinit e (m_ty m))).
      destruct (deser e root j true (m_ty m) _ _ _ st) as [ok s v|why p| |]; exact G.
    + destruct (m_kind m) eqn:K.
      * exists [], [], (TClass c), (JObj l). split; [exists m; split; [exact E0|right; auto 10]|]. split; [reflexivity|].
        intros [|p0 p] ss' u' x' why' _; [now left|right; constructor].
      * split; [reflexivity|]. intros pos ss u x why (m' & Em & H). rewrite E0 in Em. injection Em as <-.
        destruct H as [(j' & ss' & _ & Fj' & _)|(H & _)]; congruence.
      * split; [reflexivity|]. intros pos ss u x why (m' & Em & H). rewrite E0 in Em. injection Em as <-.
        destruct H as [(j' & ss' & _ & Fj' & _)|(H & _)]; congruence.
  - apply IH; [intros; eapply F; eauto; now right|]. intros i. rewrite Nat.add_succ_comm. exact (E (S i)).
Qed.

(** Defects of a value with parts, if nothing is wrong with the value itself. *)
Ltac here := match goal with W : wrong _ _ _ _ |- _ => inversion W; subst; try contradiction; try congruence;
    try (match goal with H : ~ right_kind _ _ |- _ => elim H; exact I end);
    try (match goal with H : _ = TBytes \/ _ |- _ => destruct H as [H|[H|H]]; discriminate H end) end.

Lemma element_split : forall t t' js, element_type t = Some t' -> (forall why, ~ wrong e t (JArr js) why) -> forall pos ss u x why,
  defect e t (JArr js) pos ss u x why <->
  exists i pos', i < List.length js /\ pos = i :: pos' /\ element_defects t' js i pos' ss u x why.
Proof.
  intros t t' js E N pos ss u x why. split.
  - intros D. inversion D; subst; try discriminate.
    + exfalso. eapply N. eassumption.
    + assert (t' = t'0) by congruence. subst. exists k, pos0. split; [apply nth_error_Some; congruence|]. split; [reflexivity|]. exists ss0. eauto.
    + destruct t; discriminate.
  - intros (i & pos' & _ & -> & ss' & -> & j & Ej & D). eapply defect_element; eauto.
Qed.

Lemma component_split : forall t ts js, component_types t = Some ts -> List.length js = List.length ts -> (forall why, ~ wrong e t (JArr js) why) ->
  forall pos ss u x why, defect e t (JArr js) pos ss u x why <->
  exists i pos', i < List.length ts /\ pos = i :: pos' /\ component_defects ts js i pos' ss u x why.
Proof.
  intros t ts js E L N pos ss u x why. split.
  - intros D. inversion D; subst; try discriminate.
    + exfalso. eapply N. eassumption.
    + destruct t; discriminate.
    + assert (ts = ts0) by congruence. subst. exists k, pos0. split; [apply nth_error_Some; congruence|]. split; [reflexivity|]. exists ss0. eauto 6.
  - intros (i & pos' & _ & -> & ss' & -> & t' & j & Et & Ej & D). eapply defect_component; eauto.
Qed.

Lemma entry_split : forall o t l pos ss u x why, defect e (TMap o t) (JObj l) pos ss u x why <->
  exists i pos', i < List.length l /\ pos = i :: pos' /\ entry_defects t l i pos' ss u x why.
Proof.
  intros o t l pos ss u x why. split.
  - intros D. inversion D; subst; try discriminate.
    + exfalso. here.
    + exists k, pos0. split; [apply nth_error_Some; congruence|]. split; [reflexivity|]. exists n, j, ss0. auto.
  - intros (i & pos' & _ & -> & n & j & ss' & -> & Ej & D). eapply defect_entry; eauto.
Qed.

Lemma class_split : forall c l pos ss u x why, defect e (TClass c) (JObj l) pos ss u x why <->
  exists i pos', i < List.length (c_members (class_of e c)) /\ pos = i :: pos' /\ member_defects c l i pos' ss u x why.
Proof.
  intros c l pos ss u x why. split.
  - intros D. inversion D; subst; try discriminate.
    + exfalso. here.
    + exists k, []. split; [apply nth_error_Some; congruence|]. split; [reflexivity|]. exists m. split; [assumption|]. right. auto 10.
    + exists k, pos0. split; [apply nth_error_Some; congruence|]. split; [reflexivity|]. exists m. split; [assumption|]. left. eauto.
  - intros (i & pos' & _ & -> & m & Em & [(j & ss' & -> & Fj & D)|(K & Fn & -> & -> & -> & -> & ->)]).
    + eapply defect_member; eauto.
    + now apply defect_missing.
Qed.

Lemma unique_split : forall t j pos ss u x why, defect e (TUnique t) j pos ss u x why <-> defect e t j pos ss u x why.
Proof. intros t j pos ss u x why. split; intros D; [|now constructor]. inversion D; subst; try discriminate; [here|assumption]. Qed.

Lemma shared_split : forall t j pos ss u x why, defect e (TShared t) j pos ss u x why <-> defect e t j pos ss u x why.
Proof. intros t j pos ss u x why. split; intros D; [|now constructor]. inversion D; subst; try discriminate; [here|assumption]. Qed.

(** Variants. *)
Lemma variant_find : forall ts j, forallb (fun u => plain u && classless u) ts = true -> forallb real_ints ts = true ->
  forall i ctx loc st, match read_variant (map (fun u => (dinit e u, deser e root j false u)) ts) i ctx loc st with
  | (Some _, _, _) => exists u v, In u ts /\ denotes e u (dinit e u) j v
  | (None, None, _) => forall u v, In u ts -> ~ denotes e u (dinit e u) j v
  | (None, Some r, _) => r = DUndef
  end.
Proof.
  intros ts j. induction ts as [|t ts IH]; intros P W i ctx loc st; cbn [map read_variant].
  - intros u v [].
  - cbn in P, W. apply andb_true_iff in P, W. destruct P as [Pt Pts], W as [Wt Wts]. apply andb_true_iff in Pt. destruct Pt as [Pt Ct].
    destruct (fine_always e root real clock j t Pt Wt (or_introl Ct)) as [C Sd].
    specialize (Sd false (or_intror Ct) (dinit e t) ctx loc st).
    destruct (deser e root j false t (dinit e t) ctx loc st) as [[|] s v|why p| |] eqn:E; cbn in Sd; try discriminate; try contradiction.
    + destruct Sd as [_ D]. exists t, v. split; [now left|exact D].
    + specialize (IH Pts Wts (S i) ctx loc s). destruct (read_variant _ (S i) ctx loc s) as [[[r|] [x|]] s']; auto.
      * destruct IH as (u & w & I & D). exists u, w. split; [now right|exact D].
      * destruct IH as (u & w & I & D). exists u, w. split; [now right|exact D].
      * intros u w [<-|I]; [|now apply IH]. intros D. rewrite (C false _ _ _ _ _ D) in E. discriminate.
    + reflexivity.
Qed.

Lemma variant_finder : forall ts j, forallb (fun u => plain u && classless u) ts = true -> forallb real_ints ts = true -> finder j (TVariant ts).
Proof.
  intros ts j P W old ctx loc st. rewrite deser_unfold. cbn [deser_step]. pose proof (variant_find ts j P W 0 ctx loc st) as V.
  destruct (read_variant _ 0 ctx loc st) as [[[[i v]|] [r|]] s].
  - destruct V as (u & w & I & D). apply finds_fine. intros pos ss u' x why Q. inversion Q; subst; try discriminate. here. match goal with H : forall u v, In u ts -> _ |- _ => exact (H u w I D) end.
  - destruct V as (u & w & I & D). apply finds_fine. intros pos ss u' x why Q. inversion Q; subst; try discriminate. here. match goal with H : forall u v, In u ts -> _ |- _ => exact (H u w I D) end.
  - subst. exact I.
  - now apply finds_reject, wrong_variant.
Qed.

Lemma unique_finder : forall t j, finder j t -> finder j (TUnique t).
Proof.
  intros t j F old ctx loc st. rewrite deser_unfold. cbn [deser_step]. eapply finds_same; [|apply unique_split].
  specialize (F (vinit e t) ctx loc st). destruct (deser e root j true t _ ctx loc st) as [[|] s v|why p| |]; exact F.
Qed.

Lemma shared_finder : forall t j, unreferring e (TShared t) j -> finder j t -> finder j (TShared t).
Proof.
  intros t j U F old ctx loc st. rewrite deser_unfold. cbn [deser_step]. eapply finds_same; [|apply shared_split].
  assert (N : match j with JObj l => find_member l "$ref" | _ => None end = None).
  { destruct U as [[_ U]|U]; [discriminate|]. destruct j; try reflexivity. cbn in U. apply andb_true_iff in U. destruct U as [U _].
    destruct (find_member l "$ref"); [discriminate|reflexivity]. }
  rewrite N. specialize (F (vinit e t) ctx loc (new_address st)). unfold register_shared.
  destruct (deser e root j true t _ ctx loc _) as [[|] s v|why p| |]; exact F.
Qed.

Lemma items_find_all : forall t l ctx init add loc st, Forall (fun j => finder j t) l ->
  finds_from (element_defects t l) 0 (List.length l) ctx (read_items init add (map (fun f => f true t) (map (deser e root) l)) 0 [] ctx loc st).
Proof.
  intros t l ctx init add loc st F. replace (List.length l) with (List.length (map (fun f : bool -> ty -> reader => f true t) (map (deser e root) l))) by (now rewrite !map_length).
  apply items_find. now apply element_children.
Qed.

Lemma apply_types_length : forall A (fs : list (ty -> A)) ts gs, apply_types fs ts = Some gs -> List.length gs = List.length ts.
Proof.
  intros A fs. induction fs as [|f fs IH]; intros [|t ts] gs E; try discriminate; cbn in E.
  - now injection E as <-.
  - destruct (apply_types fs ts) as [r|] eqn:E'; [|discriminate]. injection E as <-. cbn. f_equal. exact (IH _ _ E').
Qed.

Lemma unreferring_element : forall t t' l j, unreferring e t (JArr l) -> element_type t = Some t' -> In j l -> unreferring e t' j.
Proof.
  intros t t' l j [[C U]|U] E I.
  - left. split; [exact C|]. destruct t; try discriminate; injection E as <-; exact U.
  - right. cbn in U. rewrite forallb_forall in U. auto.
Qed.

Lemma unreferring_component : forall t ts l j t', unreferring e t (JArr l) -> component_types t = Some ts -> In j l -> In t' ts -> unreferring e t' j.
Proof.
  intros t ts l j t' [[C U]|U] E I It.
  - left. split; [exact C|]. destruct t; try discriminate; injection E as <-; cbn in U.
    + apply andb_true_iff in U. destruct It as [<-|[<-|[]]]; tauto.
    + rewrite forallb_forall in U. auto.
  - right. cbn in U. rewrite forallb_forall in U. auto.
Qed.

Lemma unreferring_entry : forall o t l p, unreferring e (TMap o t) (JObj l) -> In p l -> unreferring e t (snd p).
Proof.
  intros o t l p [[C U]|U] I.
  - left. split; [exact C|exact U].
  - right. cbn in U. apply andb_true_iff in U. destruct U as [_ U]. rewrite forallb_forall in U. auto.
Qed.

Lemma unreferring_member : forall c l n j m, unreferring e (TClass c) (JObj l) -> In (n, j) l -> In m (c_members (class_of e c)) -> unreferring e (m_ty m) j.
Proof.
  intros c l n j m [[C U]|U] I Im.
  - left. split; [exact C|]. specialize (C c). rewrite forallb_forall in C. auto.
  - right. cbn in U. apply andb_true_iff in U. destruct U as [_ U]. rewrite forallb_forall in U. apply (U _ I).
Qed.

Lemma all_find : forall j t, simple_variants t = true -> real_ints t = true -> unreferring e t j -> finder j t.
Proof.
  induction j as [|b|z|f|s|l IH|l IH] using json_ind'; intros t; induction t using ty_ind'; intros V W U;
    try discriminate V;
    try (apply scalar_find; [exact W|exact I]);
    try (apply variant_finder; assumption);
    try (apply unique_finder, IHt; assumption);
    try (apply shared_finder; [exact U|]; apply IHt; try assumption; destruct U as [[? U]|U]; [discriminate U|now right]);
    try (intros old ctx loc st; rewrite deser_unfold; cbn [deser_step]; apply finds_reject, wrong_kind; easy).
  - (* vector *)
    intros old ctx loc st. rewrite deser_unfold. cbn [deser_step]. eapply finds_all; [apply (element_split (TVector t) t l eq_refl)|].
    + intros why Q. here.
    + apply (items_find_all t l). rewrite Forall_forall in *. intros j Ij. apply IH; auto. eapply unreferring_element; eauto.
  - (* array *)
    intros old ctx loc st. rewrite deser_unfold. cbn [deser_step]. destruct (Nat.eqb_spec (List.length l) n) as [<-|N]; [cbn [negb]|now apply finds_reject, wrong_length].
    eapply finds_all; [apply (element_split (TArray (List.length l) t) t l eq_refl)|].
    + intros why Q. here.
    + assert (G : finds_from (element_defects t l) 0 (List.length l) ctx (read_items (dinit e t) push_back (map (fun f => f true t) (map (deser e root) l)) 0 [] ctx loc st)).
      { apply (items_find_all t l). rewrite Forall_forall in *. intros j Ij. apply IH; auto. eapply unreferring_element; eauto. }
      unfold read_array. destruct (read_items _ _ _ _ _ _ _ _) as [[|] s v|why p| |]; exact G.
  - (* set *)
    intros old ctx loc st. rewrite deser_unfold. cbn [deser_step]. eapply finds_all; [apply (element_split (TSet t) t l eq_refl)|].
    + intros why Q. here.
    + apply (items_find_all t l). rewrite Forall_forall in *. intros j Ij. apply IH; auto. eapply unreferring_element; eauto.
  - (* pair *)
    cbn in V, W. apply andb_true_iff in V, W. intros old ctx loc st. rewrite deser_unfold. cbn [deser_step].
    destruct (apply_types (map (fun f => f true) (map (deser e root) l)) [t1; t2]) as [fs|] eqn:E.
    + assert (L : List.length l = 2).
      { destruct (Nat.eq_dec (List.length l) 2) as [L|L]; [exact L|]. exfalso. assert (X : apply_types (map (fun f => f true) (map (deser e root) l)) [t1; t2] = None);
          [apply apply_types_None; rewrite !map_length; exact L|congruence]. }
      eapply finds_all; [apply (component_split (TPair t1 t2) [t1; t2] l eq_refl L)|].
      * intros why Q. here.
      * rewrite <- (apply_types_length _ _ _ _ E). apply tuple_find. apply (component_children [t1; t2] l ctx l [t1; t2] fs 0); [|exact E|reflexivity|reflexivity].
        destruct l as [|a [|b [|c l]]]; try discriminate. inversion IH as [|? ? Ia IH']; subst. inversion IH' as [|? ? Ib _]; subst.
        constructor; [|constructor; [|constructor]].
        -- apply Ia; [tauto|tauto|]. apply (unreferring_component (TPair t1 t2) [t1; t2] [a; b] a t1 U eq_refl); now left.
        -- apply Ib; [tauto|tauto|]. apply (unreferring_component (TPair t1 t2) [t1; t2] [a; b] b t2 U eq_refl); right; now left.
    + apply finds_reject, wrong_pair. apply apply_types_None in E. rewrite !map_length in E. exact E.
  - (* tuple *)
    cbn in V, W. intros old ctx loc st. rewrite deser_unfold. cbn [deser_step].
    destruct (apply_types (map (fun f => f true) (map (deser e root) l)) ts) as [fs|] eqn:E.
    + assert (L : List.length l = List.length ts).
      { destruct (Nat.eq_dec (List.length l) (List.length ts)) as [L|L]; [exact L|]. exfalso.
        assert (X : apply_types (map (fun f => f true) (map (deser e root) l)) ts = None);
          [apply apply_types_None; rewrite !map_length; exact L|congruence]. }
      eapply finds_all; [apply (component_split (TTuple ts) ts l eq_refl L)|].
      * intros why Q. here.
      * rewrite <- (apply_types_length _ _ _ _ E). apply tuple_find. apply (component_children ts l ctx l ts fs 0); [|exact E|reflexivity|reflexivity].
        assert (G : forall js us, List.length js = List.length us -> incl js l -> incl us ts -> Forall2 (fun j t => finder j t) js us).
        { induction js as [|j js IHj]; intros [|u us] L' Ij Iu; try discriminate; constructor.
          - rewrite Forall_forall in IH. rewrite forallb_forall in V, W. apply IH; [apply Ij; now left|apply V, Iu; now left|apply W, Iu; now left|].
            eapply unreferring_component; [eassumption|reflexivity|apply Ij; now left|apply Iu; now left].
          - apply IHj; [cbn in L'; lia|intros y Iy; apply Ij; now right|intros y Iy; apply Iu; now right]. }
        apply G; [exact L|apply incl_refl|apply incl_refl].
    + apply finds_reject, wrong_tuple. apply apply_types_None in E. rewrite !map_length in E. exact E.
  - (* map *)
    intros old ctx loc st. rewrite deser_unfold. cbn [deser_step]. eapply finds_all; [apply entry_split|].
    replace (List.length l) with (List.length (map (fun p : string * (bool -> ty -> reader) => (fst p, snd p true t)) (map (fun p => (fst p, deser e root (snd p))) l)))
      by (now rewrite !map_length).
    apply entries_find. apply entry_children; [|reflexivity]. rewrite Forall_forall in *. intros p Ip. apply IH; auto. eapply unreferring_entry; eauto.
  - (* class *)
    intros old ctx loc st. rewrite deser_unfold. cbn [deser_step]. eapply finds_all; [apply class_split|].
    apply members_find. apply class_children; [|reflexivity]. intros m j Im Fj. apply find_member_In in Fj. rewrite Forall_forall in IH.
    pose proof (variants c) as Vc. pose proof (real c) as Rc. rewrite forallb_forall in Vc, Rc. apply (IH _ Fj); auto.
    eapply unreferring_member; eauto.
Qed.
End Find.

(** What is wrong with a value keeps it from denoting. *)
Lemma wrong_denies : forall e t j why old v, real_ints t = true -> wrong e t j why -> ~ denotes e t old j v.
Proof.
  intros e t j why old v W Q D. destruct Q; try (inversion D; subst; try congruence; fail).
  - apply H. inversion D; subst; cbn; auto; now apply carrier_in.
  - exact (H old v D).
  - exact (H old v D).
  - exact (H old v D).
  - exact (H old v D).
  - inversion D as [| | | | | | | | | | | | | | | | |a' b' old' js' vs V E1 E2 E3 E4| | |]; subst. apply parts_length in V. contradiction.
  - inversion D as [| | | | | | | | | | | | | | | | | |ts' old' js' vs V E1 E2 E3 E4| |]; subst. apply parts_length in V. contradiction.
Qed.

Lemma members_denied : forall e l m k ms olds vs, nth_error ms k = Some m -> (forall old v, ~ member_denotes (denotes e) e l m old v) ->
  ~ members_denote (denotes e) e l ms olds vs.
Proof.
  intros e l m k ms. revert k. induction ms as [|m0 ms IH]; intros [|k] olds vs E N D; try discriminate; inversion D; subst.
  - injection E as ->. eapply N; eassumption.
  - eapply IH; eassumption.
Qed.

Lemma missing_denies : forall e c l k m old v, nth_error (c_members (class_of e c)) k = Some m -> m_kind m = MRequired ->
  find_member l (m_name m) = None -> ~ denotes e (TClass c) old (JObj l) v.
Proof.
  intros e c l k m old v E K F D. inversion D as [| | | | | | | | | | | | | | | | | | |c' old' l' vs V E1 E2 E3 E4|]; subst.
  eapply members_denied; [exact E| |exact V]. intros o w M. inversion M; congruence.
Qed.

Lemma real_parts : forall e t j pos ss u r why, real_classes e -> real_ints t = true -> defect e t j pos ss u r why -> real_ints u = true.
Proof.
  intros e t j pos ss u r why Rc W D. induction D; auto.
  - apply IHD. destruct t; try discriminate; injection H as <-; exact W.
  - apply IHD. destruct t; try discriminate; injection H as <-; cbn in W.
    + apply andb_true_iff in W. destruct k as [|[|k]]; cbn in H0; [| |destruct k; discriminate]; injection H0 as <-; tauto.
    + rewrite forallb_forall in W. apply W. eapply nth_error_In, H0.
  - apply IHD. pose proof (Rc c) as Rm. rewrite forallb_forall in Rm. apply Rm. eapply nth_error_In, H.
Qed.

(** The value at the end of the path does not denote, ... *)
Lemma defect_denies_there : forall e t j pos ss u r why old v, real_classes e -> real_ints t = true ->
  defect e t j pos ss u r why -> ~ denotes e u old r v.
Proof.
  intros e t j pos ss u r why old v Rc W D. pose proof (real_parts _ _ _ _ _ _ _ _ Rc W D) as Wu. induction D; auto.
  - eapply wrong_denies; eassumption.
  - eapply missing_denies; eassumption.
  - apply IHD; [|exact Wu]. destruct t; try discriminate; injection H as <-; exact W.
  - apply IHD; [|exact Wu]. destruct t; try discriminate; injection H as <-; cbn in W.
    + apply andb_true_iff in W. destruct k as [|[|k]]; cbn in H0; [| |destruct k; discriminate]; injection H0 as <-; tauto.
    + rewrite forallb_forall in W. apply W. eapply nth_error_In, H0.
  - apply IHD; [|exact Wu]. pose proof (Rc c) as Rm. rewrite forallb_forall in Rm. apply Rm. eapply nth_error_In, H.
Qed.

Lemma forall2_nth : forall A B (R : A -> B -> Prop) l m k a, Forall2 R l m -> nth_error l k = Some a -> exists b, R a b.
Proof.
  intros A B R l m k a F. revert k. induction F as [|x y l m Rxy F IH]; intros [|k] E; try discriminate; [|eauto].
  injection E as <-. eauto.
Qed.

Lemma parts_nth : forall e ts olds js vs k t j, parts_denote (denotes e) ts olds js vs -> nth_error ts k = Some t -> nth_error js k = Some j ->
  exists old v, denotes e t old j v.
Proof.
  intros e ts olds js vs k t j P. revert k. induction P as [|t0 ts olds j0 js v vs D P IH]; intros [|k] Et Ej; try discriminate; [|eauto].
  injection Et as <-. injection Ej as <-. eauto.
Qed.

(** ... nor does any value on the way. *)
Lemma defect_denies : forall e t j pos ss u r why, real_classes e -> real_ints t = true -> defect e t j pos ss u r why -> forall old v, ~ denotes e t old j v.
Proof.
  intros e t j pos ss u r why Rc W D. induction D; intros old v Q.
  - eapply wrong_denies; eassumption.
  - eapply missing_denies; eassumption.
  - assert (Wt : real_ints t' = true) by (destruct t; try discriminate; injection H as <-; exact W).
    destruct t; try discriminate; injection H as <-; inversion Q; subst;
      match goal with F : Forall2 _ _ _ |- _ => destruct (forall2_nth _ _ _ _ _ _ _ F H0) as [b B]; exact (IHD Wt _ _ B) end.
  - assert (Wt : real_ints t' = true).
    { destruct t; try discriminate; injection H as <-; cbn in W.
      + apply andb_true_iff in W. destruct k as [|[|k]]; cbn in H0; [| |destruct k; discriminate]; injection H0 as <-; tauto.
      + rewrite forallb_forall in W. apply W. eapply nth_error_In, H0. }
    destruct t; try discriminate; injection H as <-; inversion Q; subst;
      match goal with F : parts_denote _ _ _ _ _ |- _ => destruct (parts_nth _ _ _ _ _ _ _ _ F H0 H1) as (o & b & B); exact (IHD Wt _ _ B) end.
  - inversion Q as [| | | | | | | | | | | | | | | |o' t' old' l' vs F E1 E2 E3 E4| | | |]; subst.
    destruct (forall2_nth _ _ _ _ _ _ _ F H) as [b B]. exact (IHD W _ _ B).
  - assert (Wt : real_ints (m_ty m) = true) by (pose proof (Rc c) as Rm; rewrite forallb_forall in Rm; apply Rm; eapply nth_error_In, H).
    inversion Q as [| | | | | | | | | | | | | | | | | | |c' old' l' vs V E1 E2 E3 E4|]; subst.
    eapply members_denied; [exact H| |exact V]. intros o w M. inversion M as [j' v' K F' Dv|K F'|j' v' K F' Dv|K F']; subst; try congruence;
      rewrite F' in H0; injection H0 as ->; exact (IHD Wt _ _ Dv).
  - inversion Q; subst. eapply IHD; eassumption.
  - inversion Q.
Qed.

(** A defect is known by its position. *)
Lemma wrong_one : forall e t j why why', wrong e t j why -> wrong e t j why' -> why = why'.
Proof.
  intros e t j why why' A B. destruct A; inversion B; subst; try reflexivity; try congruence;
    repeat match goal with H : _ = TBytes \/ _ |- _ => destruct H as [H|[H|H]]; try discriminate H; subst end; try discriminate; try reflexivity;
    try (match goal with H : ~ right_kind _ _ |- _ => elim H; cbn; auto end).
Qed.

Lemma wrong_no_pointer : forall e t j why, ~ wrong e (TUnique t) j why /\ ~ wrong e (TShared t) j why.
Proof.
  intros e t j why. split; intros W; inversion W; subst;
    try (match goal with H : ~ right_kind _ _ |- _ => elim H; exact I end);
    try (match goal with H : _ = TBytes \/ _ |- _ => destruct H as [H|[H|H]]; discriminate H end).
Qed.

Ltac no_pointer := exfalso; match goal with
  | W : wrong _ (TUnique _) _ _ |- _ => exact (proj1 (wrong_no_pointer _ _ _ _) W)
  | W : wrong _ (TShared _) _ _ |- _ => exact (proj2 (wrong_no_pointer _ _ _ _) W)
  end.

Lemma defect_one : forall e t j pos ss u r why, defect e t j pos ss u r why -> forall ss' u' r' why', defect e t j pos ss' u' r' why' ->
  ss' = ss /\ u' = u /\ r' = r /\ why' = why.
Proof.
  intros e t j pos ss u r why D. induction D; intros ss' u' r' why' Q.
  - inversion Q; subst; try (no_pointer). repeat split. eapply wrong_one; eassumption.
  - inversion Q; subst; try discriminate.
    + assert (m0 = m) by congruence. subst. auto.
    + congruence.
  - inversion Q; subst; try discriminate.
    + assert (t'0 = t') by congruence. assert (j0 = j) by congruence. subst.
      match goal with X : defect _ _ _ _ _ _ _ _ |- _ => destruct (IHD _ _ _ _ X) as (-> & -> & -> & ->) end. auto.
    + destruct t; discriminate.
  - inversion Q; subst; try discriminate.
    + destruct t; discriminate.
    + assert (ts0 = ts) by congruence. assert (j0 = j) by congruence. subst. assert (t'0 = t') by congruence. subst.
      match goal with X : defect _ _ _ pos _ u' _ _ |- _ => destruct (IHD _ _ _ _ X) as (-> & -> & -> & ->) end. auto.
  - inversion Q; subst; try discriminate.
    assert (X : (n0, j0) = (n, j)) by congruence. injection X as -> ->.
    match goal with X : defect _ _ _ pos _ u' _ _ |- _ => destruct (IHD _ _ _ _ X) as (-> & -> & -> & ->) end. auto.
  - inversion Q; subst; try discriminate; assert (m0 = m) by congruence; subst; [congruence|].
    assert (j0 = j) by congruence. subst.
    match goal with X : defect _ _ _ pos _ u' _ _ |- _ => destruct (IHD _ _ _ _ X) as (-> & -> & -> & ->) end. auto.
  - inversion Q; subst; try discriminate; [no_pointer|]. apply IHD. assumption.
  - inversion Q; subst; try discriminate; [no_pointer|]. apply IHD. assumption.
Qed.

Lemma before_asym : forall p q, before p q -> ~ before q p.
Proof. intros p q B. induction B; intros Q; inversion Q; subst; auto; lia. Qed.

Lemma before_irrefl : forall p, ~ before p p.
Proof. intros p B. exact (before_asym p p B B). Qed.

Lemma culprit_one : forall e t j ss u r why ss' u' r' why', culprit e t j ss u r why -> culprit e t j ss' u' r' why' ->
  ss' = ss /\ u' = u /\ r' = r /\ why' = why.
Proof.
  intros e t j ss u r why ss' u' r' why' (p & D & M) (p' & D' & M').
  assert (p' = p) as ->.
  { destruct (M _ _ _ _ _ D') as [E|B]; [exact E|]. destruct (M' _ _ _ _ _ D) as [E|B']; [now symmetry|]. now apply before_asym in B. }
  eapply defect_one; eassumption.
Qed.

(** The steps lead to the value. *)
Lemma clean_element : forall l j, clean (JArr l) -> In j l -> clean j.
Proof. intros l j C. cbn in C. induction l as [|x l IH]; intros I; [easy|]. destruct C as [C Cs], I as [<-|I]; auto. Qed.

Lemma clean_entry : forall l n j, clean (JObj l) -> In (n, j) l -> until_nul n = n /\ clean j.
Proof.
  intros l n j [_ C]. revert C. induction l as [|[n' x] l IH]; intros C I; [easy|]. destruct C as (E & C & Cs), I as [K|I]; [|auto].
  injection K as -> ->. auto.
Qed.

Lemma find_split : forall l n j, find_member l n = Some j -> exists l1 l2, l = l1 ++ (n, j) :: l2 /\ ~ In n (map fst l1).
Proof.
  intros l. induction l as [|[n' x] l IH]; intros n j F; [discriminate|]. cbn in F. destruct (String.eqb_spec n' n) as [->|N].
  - injection F as ->. exists [], l. split; [reflexivity|easy].
  - destruct (IH _ _ F) as (l1 & l2 & -> & I). exists ((n', x) :: l1), l2. split; [reflexivity|]. intros [K|K]; [now apply N|auto].
Qed.

Lemma nodup_split : forall A B (l : list (A * B)) k n j, NoDup (map fst l) -> nth_error l k = Some (n, j) ->
  exists l1 l2, l = l1 ++ (n, j) :: l2 /\ ~ In n (map fst l1).
Proof.
  intros A B l k n j N E. destruct (nth_error_split l k E) as (l1 & l2 & -> & _). exists l1, l2. split; [reflexivity|].
  rewrite map_app in N. cbn in N. apply NoDup_remove_2 in N. intros I. apply N, in_or_app. now left.
Qed.

Lemma defect_leads : forall e t j pos ss u r why, defect e t j pos ss u r why -> clean j -> leads j ss r.
Proof.
  intros e t j pos ss u r why D. induction D; intros C; try (constructor; fail); auto.
  - pose proof (nth_error_split js k H0) as (l1 & l2 & -> & <-). apply leads_element. apply IHD. eapply clean_element; [exact C|]. apply in_or_app. right. now left.
  - pose proof (nth_error_split js k H1) as (l1 & l2 & -> & <-). apply leads_element. apply IHD. eapply clean_element; [exact C|]. apply in_or_app. right. now left.
  - destruct (clean_entry _ _ _ C (nth_error_In _ _ H)) as [E Cj]. rewrite E. destruct (nodup_split _ _ _ _ _ _ (proj1 C) H) as (l1 & l2 & -> & N).
    apply leads_member; auto.
  - destruct (find_split _ _ _ H0) as (l1 & l2 & -> & N). destruct (clean_entry _ (m_name m) j C) as [E Cj]; [apply in_or_app; right; now left|].
    rewrite E. apply leads_member; auto.
Qed.

(** C23 *)
Lemma located : forall e t j, real_classes e -> (0 < tick e)%Z -> simple_variant_classes e -> simple_variants t = true -> real_ints t = true ->
  unreferring e t j ->
  match deserialize_throw e t j with
  | Returned _ => forall ss u r why, ~ culprit e t j ss u r why
  | Threw why path => exists ss u r, culprit e t j ss u r why /\ path = path_str (rev (map segment_of ss))
  | _ => True
  end.
Proof.
  intros e t j Rc Tk Vc Vt W U. unfold deserialize_throw. pose proof (all_find e j Rc Tk Vc j t Vt W U (dinit e t) [] [] start) as F.
  destruct (deser e j j true t (dinit e t) [] [] start) as [ok st v|why path| |]; cbn in F; auto.
  - intros ss u r why (pos & D & _). destruct F as [_ F]. exact (F _ _ _ _ _ D).
  - destruct F as (pos & ss & u & x & D & -> & M). exists ss, u, x. split; [exists pos; auto|]. now rewrite app_nil_r.
Qed.

Lemma located_exactly : forall e t j why path, real_classes e -> (0 < tick e)%Z -> simple_variant_classes e -> codec_free_classes e -> unshared_classes e ->
  simple_variants t = true -> real_ints t = true -> codec_free t = true -> unshared t = true ->
  (deserialize_throw e t j = Threw why path <-> exists ss u r, culprit e t j ss u r why /\ path = path_str (rev (map segment_of ss))).
Proof.
  intros e t j why path Rc Tk Vc Cc Uc Vt W Ct Ut. pose proof (located e t j Rc Tk Vc Vt W (or_introl (conj Uc Ut))) as L. split; intros H.
  - now rewrite H in L.
  - destruct H as (ss & u & r & K & ->). unfold deserialize_throw in *.
    pose proof (always_tame true true e j (fun _ => Uc) (fun _ => Cc) j t (conj (fun _ => Ut) (fun _ => Ct)) true (dinit e t) [] [] start) as T.
    destruct (deser e j j true t (dinit e t) [] [] start) as [ok st v|why' path'| |]; cbn in T.
    + now apply L in K.
    + destruct L as (ss' & u' & r' & K' & ->). destruct (culprit_one _ _ _ _ _ _ _ _ _ _ _ K K') as (-> & -> & -> & ->). reflexivity.
    + destruct T; discriminate.
    + discriminate.
Qed.
