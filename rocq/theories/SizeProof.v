(** The size of the document of an object graph. *)
From Coq Require Import List Arith ZArith NArith Ascii String Bool Lia Permutation Relation_Operators.
From Verif Require Import Base Float DatetimeModel RefsModel Json PathModel Types SerializeModel DenoteSpec RoundSpec GraphSpec GraphProof SchemaGenSpec WriteSpec FiniteProof VisitSpec SizeSpec.
Import ListNotations.

Section Count.
Variable e : env.
Variable H : nat -> val.
Hypothesis Hfair : fair e.

Definition total (new : wtable) : nat := list_sum (map (fun p => cells (H (fst p))) new).

(** The table has grown by new objects of [A]. *)
Definition grown (tab : wtable) (A : list nat) (tab' new : wtable) : Prop := tab' = tab ++ new /\ NoDup (map fst tab') /\ incl (map fst new) A.

(** With an object all that it points to is in the table. *)
Definition closed (tab : wtable) : Prop := forall a, In a (map fst tab) -> incl (addresses (H a)) (map fst tab).

Definition outcome {B} (X : Prop) (n : B -> nat) (c : nat) (A : list nat) (tab : wtable) (r : sres B) : Prop :=
  match r with
  | SOk tab' b => exists new, grown tab A tab' new /\ n b <= c + total new /\ (X -> n b + 2 * List.length new = c + total new /\ (closed tab -> incl A (map fst tab') /\ closed tab'))
  | SFail tab' => (exists new, grown tab A tab' new) /\ ~ X
  | SUndef => True
  end.

Definition counted {B} (X : Prop) (n : B -> nat) (f : sfun B) (c : nat) (A : list nat) : Prop :=
  forall ctx tab, NoDup (map fst tab) -> outcome X n c A tab (f ctx tab).

Lemma total_app : forall l l', total (l ++ l') = total l + total l'.
Proof. intros. unfold total. now rewrite map_app, list_sum_app. Qed.

Lemma outcome_weaken : forall B (X Y : Prop) (n : B -> nat) c A tab r, (Y -> X) -> outcome X n c A tab r -> outcome Y n c A tab r.
Proof.
  intros B X Y n c A tab [tab' b|tab'|] K O; cbn in *; auto; [|tauto]. destruct O as (new & G & L & E). exists new. split; [exact G|split; [exact L|]]. intros y. apply E, K, y.
Qed.

Lemma outcome_same : forall B (X : Prop) (n : B -> nat) c A c' A' tab r, c = c' -> (forall a, In a A <-> In a A') -> outcome X n c A tab r -> outcome X n c' A' tab r.
Proof.
  intros B X n c A c' A' tab [tab' b|tab'|] <- K O; cbn in *; auto.
  - destruct O as (new & (G1 & G2 & G3) & L & E). exists new. split; [split; [exact G1|split; [exact G2|]]|split; [exact L|]].
    + intros a I. now apply K, G3.
    + intros x. destruct (E x) as [E1 E2]. split; [exact E1|]. intros Ct. destruct (E2 Ct) as [E3 E4]. split; [|exact E4]. intros a I. now apply E3, K.
  - destruct O as [(new & G1 & G2 & G3) N]. split; [|exact N]. exists new. split; [exact G1|split; [exact G2|]]. intros a I. now apply K, G3.
Qed.

Lemma outcome_bind : forall B C X (n : B -> nat) (m : C -> nat) c A c' A' tab (r : sres B) (f : wtable -> B -> sres C),
  outcome X n c A tab r -> (forall tab' b, NoDup (map fst tab') -> outcome X (fun x => m x - n b) c' A' tab' (f tab' b) /\ forall t x, f tab' b = SOk t x -> n b <= m x) ->
  outcome X m (c + c') (A ++ A') tab (sbind r f).
Proof.
  intros B C X n m c A c' A' tab [tab1 b|tab1|] f O K; cbn in *; auto.
  - destruct O as (new & (-> & G2 & G3) & L & E). destruct (K _ b G2) as [F M]. destruct (f (tab ++ new) b) as [tab2 x|tab2|] eqn:Ef; cbn in *; auto.
    + destruct F as (new2 & (-> & F2 & F3) & L2 & E2). specialize (M _ x eq_refl). exists (new ++ new2). rewrite total_app. split; [split; [now rewrite app_assoc|split; [exact F2|]]|split; [lia|]].
      * rewrite map_app. apply incl_app; [now apply incl_appl|now apply incl_appr].
      * intros x0. destruct (E x0) as [E3 E4], (E2 x0) as [E5 E6]. rewrite app_length. split; [lia|]. intros Ct. destruct (E4 Ct) as [E7 E8]. destruct (E6 E8) as [E9 E10]. split; [|exact E10]. apply incl_app; [|exact E9]. intros a I. rewrite map_app. apply in_or_app. left. now apply E7.
    + destruct F as [(new2 & -> & F2 & F3) N]. split; [|exact N]. exists (new ++ new2). split; [now rewrite app_assoc|split; [exact F2|]]. rewrite map_app. apply incl_app; [now apply incl_appl|now apply incl_appr].
  - destruct O as [(new & -> & G2 & G3) N]. split; [|exact N]. exists new. split; [reflexivity|split; [exact G2|now apply incl_appl]].
Qed.

Lemma outcome_map : forall B C X (n : B -> nat) (m : C -> nat) k c A tab (h : B -> C) r, (forall b, m (h b) = k + n b) -> outcome X n c A tab r -> outcome X m (k + c) A tab (smap h r).
Proof.
  intros B C X n m k c A tab h [tab' b|tab'|] K O; cbn in *; auto. destruct O as (new & G & L & E). exists new. rewrite K. split; [exact G|split; [lia|]]. intros x. destruct (E x). split; [lia|assumption].
Qed.

Lemma outcome_shift : forall B X (n : B -> nat) k c A tab r, outcome X n c A tab r -> outcome X (fun x => k + n x - k) c A tab r.
Proof.
  intros B X n k c A tab [tab' b|tab'|] O; cbn in *; auto. destruct O as (new & G & L & E). exists new. replace (k + n b - k) with (n b) by lia. auto.
Qed.

Definition sum_values (l : list json) : nat := list_sum (map values l).
Definition sum_fields (l : list (string * json)) : nat := list_sum (map (fun p => values (snd p)) l).

Lemma outcome_nil : forall B X (n : B -> nat) tab b, NoDup (map fst tab) -> n b = 0 -> outcome X n 0 [] tab (SOk tab b).
Proof. intros B X n tab b N E. exists []. rewrite E. cbn. split; [split; [now rewrite app_nil_r|split; [exact N|easy]]|split; [lia|]]. intros _. split; [lia|]. intros Ct. split; [easy|exact Ct]. Qed.

Lemma counted_seq : forall X vs fs, Forall2 (fun v f => counted X values f (cells v) (addresses v)) vs fs -> forall at_ k tab, NoDup (map fst tab) ->
  outcome X sum_values (list_sum (map cells vs)) (flat_map addresses vs) tab (ser_seq at_ k fs tab).
Proof.
  intros X vs fs F. induction F as [|v f vs fs C F IH]; intros at_ k tab N; [now apply outcome_nil|]. cbn [ser_seq map list_sum fold_right flat_map].
  apply outcome_bind with values; [now apply C|]. intros tab' b N'. split; [|intros t x Ex].
  - apply (outcome_map _ _ X (fun l => sum_values l) (fun x => sum_values x - values b) 0 _ _ tab' (cons b)); [|now apply IH]. intros l. unfold sum_values, list_sum. cbn. lia.
  - destruct (ser_seq at_ (k + 1) fs tab') as [t' l|t'|]; try discriminate. injection Ex as <- <-. unfold sum_values, sum_fields, list_sum. cbn. lia.
Qed.

Lemma counted_entries : forall X vs fs, Forall2 (fun v f => counted X values (snd f) (cells v) (addresses v)) vs fs -> forall ctx tab, NoDup (map fst tab) ->
  outcome X sum_fields (list_sum (map cells vs)) (flat_map addresses vs) tab (ser_entries ctx fs tab).
Proof.
  intros X vs fs F. induction F as [|v [key f] vs fs C F IH]; intros ctx tab N; [now apply outcome_nil|]. cbn [ser_entries map list_sum fold_right flat_map].
  apply outcome_bind with values; [now apply C|]. intros tab' b N'. split; [|intros t x Ex].
  - apply (outcome_map _ _ X (fun l => sum_fields l) (fun x => sum_fields x - values b) 0 _ _ tab' (cons (key, b))); [|now apply IH]. intros l. unfold sum_fields, list_sum. cbn. lia.
  - destruct (ser_entries ctx fs tab') as [t' l|t'|]; try discriminate. injection Ex as <- <-. unfold sum_values, sum_fields, list_sum. cbn. lia.
Qed.

(** When the size is exact. *)
Definition exact (t : ty) (v : val) : Prop := finite v = true /\ no_dictionary e t.

Definition measured (v : val) (f : ty -> sfun json) : Prop := forall t, counted (exact t v) values (f t) (cells v) (addresses v).

Definition mmeasured (v : val) (f : mfun json) : Prop :=
  match f with MPlain g | MPresent g => measured v g | MAbsent => cells v = 0 /\ addresses v = [] end.

Lemma counted_members : forall (X : Prop) vs fs, Forall2 mmeasured vs fs -> forall ms ctx tab, (X -> forallb finite vs = true /\ forall m, In m ms -> no_dictionary e (m_ty m)) -> NoDup (map fst tab) ->
  outcome X sum_fields (list_sum (map cells vs)) (flat_map addresses vs) tab (ser_members ctx ms fs tab).
Proof.
  intros X vs fs F. induction F as [|v f vs fs C F IH]; intros [|m ms] ctx tab K N; try exact Logic.I; [now apply outcome_nil|].
  cbn [ser_members map list_sum fold_right flat_map].
  assert (K' : X -> forallb finite vs = true /\ forall m, In m ms -> no_dictionary e (m_ty m)).
  { intros x. destruct (K x) as [K1 K2]. cbn in K1. apply andb_prop in K1 as [_ K1]. split; [exact K1|]. intros m' I. apply K2. now right. }
  assert (G : forall g, measured v g -> outcome X sum_fields (cells v + list_sum (map cells vs)) (addresses v ++ flat_map addresses vs) tab
    match g (m_ty m) (name_segment (list_ascii_of_string (m_name m)) :: ctx) tab with SUndef => SUndef | SFail tab => ser_members ctx ms fs tab | SOk tab a => smap (cons (m_name m, a)) (ser_members ctx ms fs tab) end).
  { intros g Mg. specialize (Mg (m_ty m) (name_segment (list_ascii_of_string (m_name m)) :: ctx) tab N). 
    assert (Xe : X -> exact (m_ty m) v). { intros x. destruct (K x) as [K1 K2]. cbn in K1. apply andb_prop in K1 as [K1 _]. split; [exact K1|apply K2; now left]. }
    apply (outcome_weaken _ _ X) in Mg; [|exact Xe].
    destruct (g (m_ty m) (name_segment (list_ascii_of_string (m_name m)) :: ctx) tab) as [tab' b|tab'|] eqn:Eg; [|cbn in Mg|exact Logic.I].
    - change (outcome X sum_fields (cells v + list_sum (map cells vs)) (addresses v ++ flat_map addresses vs) tab (sbind (SOk tab' b) (fun t a => smap (cons (m_name m, a)) (ser_members ctx ms fs t)))).
      apply outcome_bind with values; [exact Mg|]. intros t1 b1 N1. split; [|intros t x Ex].
      + apply (outcome_map _ _ X (fun l => sum_fields l) (fun x => sum_fields x - values b1) 0 _ _ t1 (cons (m_name m, b1))); [|now apply IH]. intros l. unfold sum_fields, list_sum. cbn. lia.
      + destruct (ser_members ctx ms fs t1) as [t' l|t'|]; try discriminate. injection Ex as <- <-. unfold sum_values, sum_fields, list_sum. cbn. lia.
    - destruct Mg as [(new & -> & G2 & G3) NX]. specialize (IH ms ctx (tab ++ new) K' G2). destruct (ser_members ctx ms fs (tab ++ new)) as [tab2 x|tab2|]; cbn in *; auto.
      + destruct IH as (new2 & (-> & F2 & F3) & L & _). exists (new ++ new2). rewrite total_app. split; [split; [now rewrite app_assoc|split; [exact F2|]]|split; [lia|tauto]].
        rewrite map_app. apply incl_app; [now apply incl_appl|now apply incl_appr].
      + destruct IH as [(new2 & -> & F2 & F3) _]. split; [|exact NX]. exists (new ++ new2). split; [now rewrite app_assoc|split; [exact F2|]]. rewrite map_app. apply incl_app; [now apply incl_appl|now apply incl_appr]. }
  unfold to_write. destruct f as [g| |g]; cbn [mmeasured] in C; destruct (m_kind m); try exact Logic.I; try (now apply G).
  destruct C as [-> ->]. cbn. now apply IH.
Qed.

Lemma typed_parts : forall (X : Prop) vs fs, Forall2 measured vs fs -> forall ts gs, apply_types fs ts = Some gs -> (X -> forallb finite vs = true /\ forall u, In u ts -> no_dictionary e u) ->
  Forall2 (fun v f => counted X values f (cells v) (addresses v)) vs gs.
Proof.
  intros X vs fs F. induction F as [|v f vs fs C F IH]; intros [|t ts] gs E K; cbn in E; try discriminate; [injection E as <-; constructor|].
  destruct (apply_types fs ts) as [gs'|] eqn:A; [|discriminate]. injection E as <-. constructor.
  - intros ctx tab N. apply (outcome_weaken _ (exact t v)); [|now apply C]. intros x. destruct (K x) as [K1 K2]. cbn in K1. apply andb_prop in K1 as [K1 _]. split; [exact K1|apply K2; now left].
  - apply (IH ts); [exact A|]. intros x. destruct (K x) as [K1 K2]. cbn in K1. apply andb_prop in K1 as [_ K1]. split; [exact K1|]. intros u I. apply K2. now right.
Qed.

Lemma one_type : forall (X : Prop) u vs fs, Forall2 measured vs fs -> (X -> forallb finite vs = true /\ no_dictionary e u) ->
  Forall2 (fun v f => counted X values f (cells v) (addresses v)) vs (map (fun f => f u) fs).
Proof.
  intros X u vs fs F. induction F as [|v f vs fs C F IH]; intros K; constructor.
  - intros ctx tab N. apply (outcome_weaken _ (exact u v)); [|now apply C]. intros x. destruct (K x) as [K1 K2]. cbn in K1. apply andb_prop in K1 as [K1 _]. split; assumption.
  - apply IH. intros x. destruct (K x) as [K1 K2]. cbn in K1. apply andb_prop in K1 as [_ K1]. split; assumption.
Qed.

Lemma no_dictionary_within : forall t u, no_dictionary e t -> within e u t -> no_dictionary e u.
Proof. intros t u D W w R. apply D. eapply rt_trans; [exact R|]. now apply rt_step. Qed.

Lemma outcome_scalar : forall t v tab, cells v = 1 -> addresses v = [] -> NoDup (map fst tab) -> (forall f, v = VFlt f -> finite v = is_finite f) -> outcome (exact t v) values 1 [] tab (ser_scalar e t v tab).
Proof.
  intros t v tab C A N Fv.
  assert (Ok : forall j, values j = 1 -> outcome (exact t v) values 1 [] tab (SOk tab j)).
  { intros j E. exists []. rewrite E. cbn. split; [split; [now rewrite app_nil_r|split; [exact N|easy]]|split; [lia|]]. intros _. split; [lia|]. intros Ct. split; [easy|exact Ct]. }
  destruct t, v; cbn [ser_scalar]; try exact Logic.I; try (apply Ok; reflexivity);
    try (unfold of_text; match goal with |- context [match ?x with Some _ => _ | None => _ end] => destruct x end; [apply Ok; reflexivity|exact Logic.I]).
  - destruct (is_finite f) eqn:E; [apply Ok; reflexivity|]. split; [exists []; split; [now rewrite app_nil_r|split; [exact N|easy]]|]. intros [X _]. rewrite (Fv f eq_refl) in X. congruence.
  - destruct (is_finite f) eqn:E; [apply Ok; reflexivity|]. split; [exists []; split; [now rewrite app_nil_r|split; [exact N|easy]]|]. intros [X _]. rewrite (Fv f eq_refl) in X. congruence.
  - destruct (in_int64 _); [|exact Logic.I]. unfold of_text. destruct (to_iso_date _ _); [apply Ok; reflexivity|exact Logic.I].
Qed.

Lemma value_size : forall a v, in_heap H v -> In a (addresses v) -> size (H a) < size v.
Proof.
  intros a. induction v as [| |b|z|f|s|b|z|z|l IH|l IH|i v IH|l IH| |v IH| |v IH|b v IH] using val_ind'; cbn [in_heap addresses size]; intros Hv I; try contradiction; try (specialize (IH Hv I); lia).
  - apply in_heap_list in Hv. apply in_flat_map in I as (x & Ix & Ia). rewrite Forall_forall in IH, Hv. specialize (IH x Ix (Hv x Ix) Ia). apply in_size in Ix. lia.
  - apply in_heap_map in Hv. apply in_flat_map in I as (x & Ix & Ia). rewrite Forall_forall in IH, Hv. specialize (IH x Ix (Hv x Ix) Ia).
    assert (size (snd x) <= list_sum (map (fun p => size (snd p)) l)) by (clear -Ix; unfold list_sum; induction l as [|y l IHl]; [easy|]; destruct Ix as [->|Ix]; cbn; [lia|]; specialize (IHl Ix); lia). lia.
  - apply in_heap_list in Hv. apply in_flat_map in I as (x & Ix & Ia). rewrite Forall_forall in IH, Hv. specialize (IH x Ix (Hv x Ix) Ia). apply in_size in Ix. lia.
  - destruct Hv as [-> Hv]. destruct I as [->|I]; [lia|]. specialize (IH Hv I). lia.
Qed.

Lemma get_none : forall (tab : wtable) a, ref_get Nat.eqb tab a = None -> ~ In a (map fst tab).
Proof.
  induction tab as [|[b s] tab IH]; intros a E; cbn in *; [easy|]. destruct (Nat.eqb_spec b a) as [->|N]; [discriminate|]. intros [->|I]; [easy|]. now apply (IH a).
Qed.

Lemma get_absent : forall (tab : wtable) a, ~ In a (map fst tab) -> ref_get Nat.eqb tab a = None.
Proof.
  induction tab as [|[b s] tab IH]; intros a N; cbn in *; [reflexivity|]. destruct (Nat.eqb_spec b a) as [->|D]; [destruct N; now left|]. apply IH. tauto.
Qed.

Lemma get_present : forall (tab : wtable) a s, ref_get Nat.eqb tab a = Some s -> In a (map fst tab).
Proof.
  induction tab as [|[b s] tab IH]; intros a s' E; cbn in *; [discriminate|]. destruct (Nat.eqb_spec b a) as [->|N]; [now left|]. right. now apply (IH a s').
Qed.

Lemma NoDup_app_snoc : forall A (l : list A) a, NoDup l -> ~ In a l -> NoDup (l ++ [a]).
Proof. intros A l a N I. apply NoDup_Add with (a := a) (l := l); [|now split]. rewrite <- (app_nil_r l) at 1. apply Add_app. Qed.

Lemma forall2_map : forall A B (R : A -> B -> Prop) (f : A -> B) l, Forall (fun x => R x (f x)) l -> Forall2 R l (map f l).
Proof. intros A B R f l F. induction F; constructor; auto. Qed.

Lemma all_measured : forall v, in_heap H v -> measured v (ser e v) /\ match v with VList [VStr _; x] | VSome x => measured x (ser e x) | _ => True end.
Proof.
  induction v as [| |b|z|f|s|b|z|z|l IH|l IH|i v IH|l IH| |v IH| |v IH|a v IH] using val_ind'; intros Hv.
  all: split; [|try exact Logic.I].
  1-9: intros t ctx tab N; cbn [ser]; destruct t; (apply outcome_scalar; [reflexivity|reflexivity|exact N|]); intros f0 E; inversion E; subst; reflexivity.
  - cbn in Hv. apply in_heap_list in Hv. assert (F : Forall2 measured l (map (ser e) l)).
    { apply forall2_map. rewrite Forall_forall in *. intros x I. apply (IH x I (Hv x I)). }
    assert (Fin : forall t, exact t (VList l) -> forallb finite l = true) by (intros t [X _]; exact X).
    intros t ctx tab N. cbn [ser]. destruct t; try exact Logic.I; cbn [addresses cells].
    + destruct (dict_type t) as [w|] eqn:Dt.
      * destruct t as [| | | | | | | | | | | | | | |t1 t2| | | | | |]; try discriminate. destruct t1; try discriminate. injection Dt as ->.
        destruct (all_some (map (keyed (ser e)) l)) as [fs|] eqn:Ea; [|exact Logic.I].
        assert (NX : ~ exact (TVector (TPair TString w)) (VList l)). { intros [_ D]. specialize (D (TPair TString w) (rt_refl _ _ _)). discriminate. }
        assert (K : exists vs, Forall2 (fun v f => measured v (snd f)) vs fs /\ list_sum (map cells vs) <= list_sum (map cells l) /\ flat_map addresses vs = flat_map addresses l).
        { clear -IH Hv Ea. revert fs Ea. induction l as [|v l IHl]; intros fs Ea; cbn in Ea; [injection Ea as <-; exists []; cbn; auto|].
          inversion IH as [|? ? X IHF]; inversion Hv as [|? ? Hx HvF]; subst. destruct (X Hx) as [_ Y].
          destruct v as [| | | | | | | | |[|[| | | | |s| | | | | | | | | | | |] [|x [|? ?]]]| | | | | | | |]; cbn in Ea; try discriminate.
          destruct (all_some (map (keyed (ser e)) l)) as [fs'|] eqn:E'; [|discriminate]. injection Ea as <-. destruct (IHl IHF HvF fs' eq_refl) as (vs & F & L & A).
          exists (x :: vs). split; [constructor; [exact Y|exact F]|]. unfold list_sum in *. cbn. rewrite A, app_nil_r. split; [lia|reflexivity]. }
        destruct K as (vs & F' & L & A). rewrite <- A.
        pose proof (counted_entries False vs (map (fun p => (fst p, snd p w)) fs)) as C.
        assert (F'' : Forall2 (fun v f => counted False values (snd f) (cells v) (addresses v)) vs (map (fun p => (fst p, snd p w)) fs)).
        { clear -F'. induction F' as [|v f vs fs M F IH]; constructor; [|exact IH]. intros ctx tab N. cbn. apply (outcome_weaken _ (exact w v)); [easy|]. now apply M. }
        specialize (C F'' ctx tab N). apply (outcome_map _ _ False sum_fields values 1 _ _ tab JObj) in C; [|reflexivity].
        destruct (smap JObj _) as [tab' j|tab'|]; cbn [outcome] in *; auto; [|tauto]. destruct C as (new & G & L' & _). exists new. split; [exact G|split; [lia|tauto]].
      * apply (outcome_map _ _ _ sum_values values 1); [reflexivity|]. apply counted_seq; [|exact N]. apply one_type; [exact F|]. intros X. split; [now apply (Fin _ X)|].
        apply (no_dictionary_within (TVector t)); [apply X|now left].
    + destruct (Nat.eqb _ _); [|exact Logic.I]. apply (outcome_map _ _ _ sum_values values 1); [reflexivity|]. apply counted_seq; [|exact N]. apply one_type; [exact F|]. intros X. split; [now apply (Fin _ X)|].
      eapply no_dictionary_within; [apply X|now left].
    + apply (outcome_map _ _ _ sum_values values 1); [reflexivity|]. apply counted_seq; [|exact N]. apply one_type; [exact F|]. intros X. split; [now apply (Fin _ X)|].
      eapply no_dictionary_within; [apply X|now left].
    + destruct (apply_types (map (ser e) l) [t1; t2]) as [fs|] eqn:Ea; [|exact Logic.I]. apply (outcome_map _ _ _ sum_values values 1); [reflexivity|]. apply counted_seq; [|exact N].
      apply (typed_parts _ _ _ F _ _ Ea). intros X. split; [now apply (Fin _ X)|]. intros u I. eapply no_dictionary_within; [apply X|exact I].
    + destruct (apply_types (map (ser e) l) ts) as [fs|] eqn:Ea; [|exact Logic.I]. apply (outcome_map _ _ _ sum_values values 1); [reflexivity|]. apply counted_seq; [|exact N].
      apply (typed_parts _ _ _ F _ _ Ea). intros X. split; [now apply (Fin _ X)|]. intros u I. eapply no_dictionary_within; [apply X|exact I].
  - destruct l as [|[| | | | |s| | | | | | | | | | | |] [|x [|? ?]]]; try exact Logic.I. inversion IH as [|? ? _ IH2]; subst. inversion IH2 as [|? ? X _]; subst. apply X. apply Hv.
  - cbn in Hv. apply in_heap_map in Hv. intros t ctx tab N. cbn [ser]. destruct t; try exact Logic.I; cbn [addresses cells].
    rewrite (visited_map _ _ e ordered (ser e) l). destruct (visited e ordered l) as [r|] eqn:Ev; [|exact Logic.I]. cbn [option_map]. pose proof (visited_perm _ e ordered l r Hfair Ev) as P.
    apply (outcome_map _ _ _ sum_fields values 1); [reflexivity|].
    apply (outcome_same _ _ _ (list_sum (map cells (map snd r))) (flat_map addresses (map snd r))).
    + rewrite map_map. clear -P. unfold list_sum. induction P; cbn; lia.
    + intros a. rewrite !in_flat_map. split.
      * intros (x & I & Ia). apply in_map_iff in I as (p & <- & I). exists p. split; [|exact Ia]. now apply (Permutation_in _ P).
      * intros (p & I & Ia). exists (snd p). split; [|exact Ia]. apply in_map. now apply (Permutation_in _ (Permutation_sym P)).
    + apply counted_entries; [|exact N].
      assert (K : Forall (fun p => measured (snd p) (ser e (snd p)) /\ (exact (TMap ordered t) (VMap l) -> exact t (snd p))) r).
      { apply Forall_forall. intros p I. apply (Permutation_in _ P) in I. rewrite Forall_forall in IH, Hv. split; [apply (IH p I (Hv p I))|]. intros [X1 X2]. cbn in X1. rewrite forallb_forall in X1. split; [now apply X1|].
        eapply no_dictionary_within; [exact X2|now left]. }
      clear -K. induction K as [|p r [M X] K IHK]; constructor; [|exact IHK]. intros ctx tab N. cbn. apply (outcome_weaken _ (exact t (snd p))); [exact X|now apply M].
  - intros t ctx tab N. cbn [ser]. destruct t; try exact Logic.I. cbn [addresses cells]. destruct (nth_error ts i) as [u|] eqn:En; [|exact Logic.I].
    apply (outcome_weaken _ (exact u v)); [|now apply IH]. intros [X1 X2]. split; [exact X1|]. eapply no_dictionary_within; [exact X2|]. eapply nth_error_In, En.
  - cbn in Hv. apply in_heap_list in Hv. intros t ctx tab N. cbn [ser]. destruct t; try exact Logic.I. cbn [addresses cells]. apply (outcome_map _ _ _ sum_fields values 1); [reflexivity|].
    apply counted_members; [| |exact N].
    + apply forall2_map. rewrite Forall_forall in *. intros v I. destruct (IH v I (Hv v I)) as [X Y]. destruct v; cbn [mpart mmeasured]; try exact X; [now split|]. intros t. exact (Y t).
    + intros [X1 X2]. split; [exact X1|]. intros m I. eapply no_dictionary_within; [exact X2|]. cbn. now apply in_map.
  - intros t ctx tab N. cbn [ser]. destruct t; exact Logic.I.
  - intros t ctx tab N. cbn [ser]. destruct t; exact Logic.I.
  - now apply IH.
  - intros t ctx tab N. cbn [ser]. destruct t; exact Logic.I.
  - intros t ctx tab N. cbn [ser]. destruct t; try exact Logic.I; cbn [addresses cells].
    + apply (outcome_weaken _ (exact t v)); [|now apply IH]. intros [X1 X2]. split; [exact X1|]. eapply no_dictionary_within; [exact X2|now left].
    + apply (outcome_weaken _ (exact t v)); [|now apply IH]. intros [X1 X2]. split; [exact X1|]. eapply no_dictionary_within; [exact X2|now left].
  - cbn in Hv. destruct Hv as [E Hv]. intros t ctx tab N. cbn [ser]. destruct t; try exact Logic.I. cbn [addresses cells].
    destruct (ref_get Nat.eqb tab a) as [s|] eqn:Eg.
    + exists []. cbn. split; [split; [now rewrite app_nil_r|split; [exact N|easy]]|split; [lia|]]. intros _. split; [lia|].
      apply get_present in Eg. intros Ct. split; [|exact Ct]. intros b [<-|Ib]; [exact Eg|]. apply (Ct a Eg). now rewrite <- E.
    + apply get_none in Eg. assert (Nv : ~ In a (addresses v)). { intros I. apply (value_size a v Hv) in I. rewrite <- E in I. lia. }
      pose proof (proj1 (IH Hv) t ctx tab N) as O. apply (outcome_weaken _ _ (exact (TShared t) (VShared a v))) in O; [|intros [X1 X2]; split; [exact X1|eapply no_dictionary_within; [exact X2|now left]]].
      destruct (ser e v t ctx tab) as [tab' j|tab'|]; cbn [sbind outcome] in *; [| |exact Logic.I].
      * destruct O as (new & (-> & G2 & G3) & L & X). assert (Na : ~ In a (map fst (tab ++ new))). { rewrite map_app, in_app_iff. intros [I|I]; [easy|]. now apply Nv, G3. }
        unfold ref_put. rewrite (get_absent _ _ Na). exists (new ++ [(a, ctx)]). rewrite total_app, app_length. cbn [List.length]. unfold total at 2 4. cbn [map fst list_sum fold_right]. rewrite <- E.
        split; [split; [now rewrite app_assoc|split]|split; [lia|]].
        -- rewrite map_app. cbn. apply NoDup_app_snoc; assumption.
        -- rewrite map_app. cbn. intros b I. apply in_app_or in I as [I|[<-|[]]]; [right; now apply G3|now left].
        -- intros x. destruct (X x) as [X1 X2]. split; [lia|]. intros Ct. destruct (X2 Ct) as [X3 X4]. rewrite map_app. cbn. split.
           ++ intros b [<-|I]; apply in_or_app; [right; now left|left; now apply X3].
           ++ intros b I. rewrite map_app in I. apply in_app_or in I as [I|[<-|[]]]; intros c Ic; rewrite map_app; apply in_or_app; left; [now apply (X4 b I)|]. apply X3. now rewrite E.
      * destruct O as [(new & G1 & G2 & G3) NX]. split; [|exact NX]. exists new. split; [exact G1|split; [exact G2|]]. intros b I. right. now apply G3.
Qed.
End Count.

Lemma same_sum : forall (f : nat -> nat) l l', NoDup l -> NoDup l' -> (forall a, In a l <-> In a l') -> list_sum (map f l) = list_sum (map f l') /\ List.length l = List.length l'.
Proof.
  intros f l l' N N' E. pose proof (NoDup_Permutation N N' E) as P. split; [|now apply Permutation_length]. clear -P. unfold list_sum. induction P; cbn; lia.
Qed.

Lemma less_sum : forall (f : nat -> nat) l l', NoDup l -> incl l l' -> list_sum (map f l) <= list_sum (map f l').
Proof.
  intros f l. induction l as [|a l IH]; intros l' N I; [cbn; lia|]. inversion N; subst. destruct (in_split a l' (I a (or_introl eq_refl))) as (l1 & l2 & ->).
  specialize (IH (l1 ++ l2)). rewrite !map_app, !list_sum_app in *. unfold list_sum in *. cbn. apply Nat.le_trans with (f a + fold_right Nat.add 0 (map f (l1 ++ l2))); [|rewrite map_app; fold (list_sum (map f l1 ++ map f l2)); rewrite list_sum_app; unfold list_sum; lia].
  apply Nat.add_le_mono_l. rewrite map_app. fold (list_sum (map f l1 ++ map f l2)). rewrite list_sum_app. unfold list_sum. apply IH; [assumption|]. intros b Ib. specialize (I b (or_intror Ib)). rewrite in_app_iff in *. cbn in I. destruct I as [I|[<-|I]]; auto. contradiction.
Qed.

Lemma document_size : forall e H t v tab j, fair e -> in_heap H v -> serialize_to_document e t v = SOk tab j ->
  values j <= cells v + list_sum (map (fun a => cells (H a)) (objects_of v)) /\
  (finite v = true -> no_dictionary e t -> values j + 2 * List.length (objects_of v) = cells v + list_sum (map (fun a => cells (H a)) (objects_of v))).
Proof.
  intros e H t v tab j Hf Hv E. unfold serialize_to_document in E. pose proof (proj1 (all_measured e H Hf v Hv) t [] [] (NoDup_nil _)) as O. rewrite E in O. cbn in O.
  destruct O as (new & (-> & N & I) & L & X). cbn in N. unfold total in *. rewrite <- (map_map fst (fun a => cells (H a))) in *.
  split.
  - etransitivity; [exact L|]. apply Nat.add_le_mono_l, less_sum; [exact N|]. intros a Ia. unfold objects_of. apply nodup_In. now apply I.
  - intros F D. destruct (X (conj F D)) as [X1 X2]. destruct X2 as [X2 _]; [intros a []|]. cbn in X2.
    destruct (same_sum (fun a => cells (H a)) (map fst new) (objects_of v)) as [S1 S2]; [exact N|apply NoDup_nodup| |].
    + intros a. unfold objects_of. rewrite nodup_In. split; [apply I|apply X2].
    + rewrite map_length in S2. lia.
Qed.
