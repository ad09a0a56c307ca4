(** Variants, back-references and fixed-size containers. *)
From Coq Require Import List Arith ZArith NArith Ascii String Bool Lia.
From Verif Require Import Base Float NumericModel NumericSpec RefsModel Json PathModel Types SerializeModel
  DeserializeModel DenoteSpec DenoteProof SameSpec SameProof DenoteFacts MemberFacts.
Import ListNotations.

(** C25: what the loop over the alternatives gives. *)
Lemma variant_loop : forall (fs : list (val * reader)) i ctx loc st,
  match read_variant fs i ctx loc st with
  | (Some (n, v), None, st') => i <= n /\ exists p s, nth_error fs (n - i) = Some p /\ snd p (fst p) ctx loc s = DRet true st' v /\
      forall k q, k < n - i -> nth_error fs k = Some q -> exists s s' w, snd q (fst q) ctx loc s = DRet false s' w
  | (None, None, _) => forall q, In q fs -> exists s s' w, snd q (fst q) ctx loc s = DRet false s' w
  | (None, Some r, _) => exists q s, In q fs /\ snd q (fst q) ctx loc s = r /\ forall ok s v, r <> DRet ok s v
  | _ => False
  end.
Proof.
  intros fs. induction fs as [|[init f] fs IH]; intros i ctx loc st; cbn [read_variant]; [intros q []|].
  destruct (f init ctx loc st) as [[|] s v|why p| |] eqn:E.
  - split; [lia|]. rewrite Nat.sub_diag. exists (init, f), st. repeat split; [exact E|]. intros k q K. lia.
  - specialize (IH (S i) ctx loc s). destruct (read_variant fs (S i) ctx loc s) as [[[[n w]|] [r|]] s']; try contradiction.
    + destruct IH as (L & p & s1 & N & D & H). split; [lia|]. exists p, s1. replace (n - i) with (S (n - S i)) by lia. repeat split; auto.
      intros [|k] q K Q; [injection Q as <-; cbn; eauto|]. apply (H k); [lia|exact Q].
    + destruct IH as (q & s1 & I & H). exists q, s1. split; [now right|exact H].
    + intros q [<-|I]; [cbn; eauto|auto].
  - exists (init, f), st. repeat split; [now left|exact E|discriminate].
  - exists (init, f), st. repeat split; [now left|exact E|discriminate].
  - exists (init, f), st. repeat split; [now left|exact E|discriminate].
Qed.

Lemma nth_error_map' : forall A B (f : A -> B) l n, nth_error (map f l) n = option_map f (nth_error l n).
Proof. intros A B f l. induction l; intros [|n]; cbn; auto. Qed.

(** In general, with states for the shared objects. *)
Lemma variant_first_state : forall e root j ts old ctx loc st st' i v exc,
  deser e root j exc (TVariant ts) old ctx loc st = DRet true st' (VVariant i v) ->
  exists t s, nth_error ts i = Some t /\ deser e root j false t (dinit e t) ctx loc s = DRet true st' v /\
  forall k u, k < i -> nth_error ts k = Some u -> exists s s' w, deser e root j false u (dinit e u) ctx loc s = DRet false s' w.
Proof.
  intros e root j ts old ctx loc st st' i v exc E. rewrite deser_unfold in E. cbn [deser_step] in E.
  pose proof (variant_loop (map (fun u => (dinit e u, deser e root j false u)) ts) 0 ctx loc st) as X.
  destruct (read_variant _ 0 ctx loc st) as [[[[n w]|] [r|]] s']; try contradiction.
  - injection E as -> -> ->. destruct X as (_ & p & s1 & N & D & H). rewrite Nat.sub_0_r, nth_error_map' in N.
    destruct (nth_error ts i) as [t|] eqn:T; [|discriminate]. injection N as <-. exists t, s1. repeat split; auto.
    intros k u K U. apply (H k (dinit e u, deser e root j false u)); [lia|]. rewrite nth_error_map', U. reflexivity.
  - destruct X as (q & s1 & _ & _ & N). exfalso. exact (N _ _ _ E).
  - unfold reject in E. destruct exc; discriminate.
Qed.

Section Unshared.
Variable e : env.
Variable ts : list ty.
Variable j : json.
Hypothesis pure : unshared_classes e.
Hypothesis puret : forallb unshared ts = true.

Lemma alone : forall t, In t ts -> forall ctx loc s root,
  deser e root j false t (dinit e t) ctx loc s = set_state s (deserialize e t j (dinit e t)).
Proof.
  intros t I ctx loc s root. unfold deserialize. apply anywhere; [exact pure| |discriminate].
  rewrite forallb_forall in puret. auto.
Qed.

Lemma variant_first : forall obj i v,
  deserialize e (TVariant ts) j obj = DRet true start (VVariant i v) <->
  exists t, nth_error ts i = Some t /\ deserialize e t j (dinit e t) = DRet true start v /\
  forall k u, k < i -> nth_error ts k = Some u -> exists w, deserialize e u j (dinit e u) = DRet false start w.
Proof.
  intros obj i v. split.
  - intros E. apply variant_first_state in E. destruct E as (t & s & N & D & H). exists t. pose proof (nth_error_In _ _ N) as I.
    rewrite (alone t I) in D. split; [exact N|]. split.
    + destruct (deserialize e t j (dinit e t)) as [ok s' w| | |] eqn:X; try discriminate. injection D as -> -> ->.
      unfold deserialize in X. rewrite (anywhere e t pure) with (root' := j) (ctx' := []) (loc' := []) (st' := start) in X;
        [|rewrite forallb_forall in puret; auto|discriminate].
      destruct (deser e j j false t (dinit e t) [] [] start); try discriminate. cbn in X. now injection X as -> <- ->.
    + intros k u K U. destruct (H k u K U) as (s1 & s2 & w & Q). rewrite (alone u (nth_error_In _ _ U)) in Q.
      unfold deserialize in *. rewrite (anywhere e u pure) with (root' := j) (ctx' := []) (loc' := []) (st' := start);
        [|rewrite forallb_forall in puret; apply puret; eapply nth_error_In; eauto|discriminate].
      destruct (deser e j j false u (dinit e u) [] [] start); try discriminate. cbn in Q |- *. injection Q as -> -> ->. eauto.
  - intros (t & N & D & H). unfold deserialize. rewrite deser_unfold. cbn [deser_step].
    assert (X : forall (l : list ty) (i : nat) n, (forall u, In u l -> In u ts) -> nth_error l i = Some t ->
      (forall k u, k < i -> nth_error l k = Some u -> exists w, deserialize e u j (dinit e u) = DRet false start w) ->
      read_variant (map (fun u => (dinit e u, deser e j j false u)) l) n [] [] start = (Some (n + i, v), None, start)).
    { intros l. induction l as [|u l IH]; intros i' n Sub N' H'; [destruct i'; discriminate|]. cbn [map read_variant].
      rewrite (alone u (Sub u (or_introl eq_refl))). destruct i' as [|i'].
      - injection N' as ->. rewrite D. cbn. now rewrite Nat.add_0_r.
      - destruct (H' 0 u (Nat.lt_0_succ _) eq_refl) as (w & ->). cbn [set_state].
        rewrite (IH i' (S n)); [do 3 f_equal; f_equal; lia| | |].
        + intros u' I. apply Sub. now right.
        + exact N'.
        + intros k u' K U. apply (H' (S k) u'); [lia|exact U]. }
    rewrite (X ts i 0 (fun u I => I) N H). reflexivity.
Qed.

Lemma variant_none : forall obj w,
  deserialize e (TVariant ts) j obj = DRet false start w <->
  w = obj /\ forall u, In u ts -> exists x, deserialize e u j (dinit e u) = DRet false start x.
Proof.
  intros obj w. unfold deserialize at 1. rewrite deser_unfold. cbn [deser_step]. split.
  - intros E. pose proof (variant_loop (map (fun u => (dinit e u, deser e j j false u)) ts) 0 [] [] start) as X.
    destruct (read_variant _ 0 [] [] start) as [[[[n y]|] [r|]] s']; try contradiction; try discriminate.
    + destruct X as (q & s1 & _ & _ & N). exfalso. exact (N _ _ _ E).
    + injection E as _ <-. split; [reflexivity|]. intros u I.
      destruct (X (dinit e u, deser e j j false u) (in_map (fun u => (dinit e u, deser e j j false u)) ts u I)) as (s1 & s2 & x & Q).
      cbn in Q. rewrite (alone u I) in Q. unfold deserialize in *.
      rewrite (anywhere e u pure) with (root' := j) (ctx' := []) (loc' := []) (st' := start);
        [|rewrite forallb_forall in puret; auto|discriminate].
      destruct (deser e j j false u (dinit e u) [] [] start); try discriminate. cbn in Q |- *. injection Q as -> -> ->. eauto.
  - intros [-> H].
    assert (X : forall (l : list ty) n, (forall u, In u l -> In u ts) ->
      read_variant (map (fun u => (dinit e u, deser e j j false u)) l) n [] [] start = (None, None, start)).
    { intros l. induction l as [|u l IH]; intros n Sub; [reflexivity|]. cbn [map read_variant].
      rewrite (alone u (Sub u (or_introl eq_refl))). destruct (H u (Sub u (or_introl eq_refl))) as (x & ->). cbn.
      apply IH. intros u' I. apply Sub. now right. }
    rewrite (X ts 0 (fun u I => I)). reflexivity.
Qed.

Lemma variant_throws : forall why p,
  deserialize_throw e (TVariant ts) j = Threw why p <->
  (why = NoAlternative /\ p = path_str [] /\ forall u, In u ts -> exists x, deserialize e u j (dinit e u) = DRet false start x).
Proof.
  intros why p. pose proof (variant_none VIndet VIndet) as V.
  assert (E : deserialize_throw e (TVariant ts) j = Threw why p <->
    (why = NoAlternative /\ p = path_str [] /\ deserialize e (TVariant ts) j VIndet = DRet false start VIndet)).
  { unfold deserialize_throw, deserialize. rewrite !deser_unfold. cbn [deser_step].
    pose proof (variant_loop (map (fun u => (dinit e u, deser e j j false u)) ts) 0 [] [] start) as X.
    assert (Same : forall l n, (forall u, In u l -> In u ts) -> match read_variant (map (fun u => (dinit e u, deser e j j false u)) l) n [] [] start with (None, None, s) => s = start | _ => True end).
    { clear X V. intros l. induction l as [|u l IH]; intros n Sub; [reflexivity|]. cbn [map read_variant].
      rewrite (alone u (Sub u (or_introl eq_refl))). destruct (deserialize e u j (dinit e u)) as [[|] s x| | |]; cbn; auto.
      apply IH. intros u' I. apply Sub. now right. }
    specialize (Same ts 0 (fun u I => I)).
    destruct (read_variant _ 0 [] [] start) as [[[[n y]|] [r|]] s'] eqn:R; try contradiction.
    - split; [discriminate|]. intros (_ & _ & K). discriminate.
    - destruct X as (q & s1 & I & Q & N). split.
      + intros K. exfalso. destruct r; try discriminate.
        apply in_map_iff in I. destruct I as (u & <- & I). cbn in Q. exact (no_throw _ _ _ _ _ _ _ _ _ _ Q).
      + intros (_ & _ & K). exfalso. exact (N _ _ _ K).
    - subst s'. cbn. split.
      + intros K. injection K as <- <-. auto.
      + intros (-> & -> & _). reflexivity. }
  rewrite E, V. tauto.
Qed.
End Unshared.

(** C44 *)
Lemma dangling : forall e root l exc t old ctx loc st s tokens,
  find_member l "$ref" = Some (JStr s) -> parse_reference (list_ascii_of_string s) = Some tokens ->
  (forall place v, pointer_get root tokens = Some (place, v) -> ref_get place_eqb (objects st) place = None) ->
  deser e root (JObj l) exc (TShared t) old ctx loc st = DRet false st old.
Proof.
  intros e root l exc t old ctx loc st s tokens F P G. rewrite deser_unfold. cbn [deser_step]. rewrite F. unfold read_ref. rewrite P.
  destruct (pointer_get root tokens) as [[place v]|] eqn:E; [|reflexivity]. now rewrite (G place v eq_refl).
Qed.

(** A class, all of whose other members are read normally. *)
Lemma dangling_members : forall e fs ms r seen flag olds ctx loc st,
  (forall m flag old, In m ms -> exists b v, read_member e true fs m flag old ctx loc st = DRet b st v) ->
  exists b vs, read_members e true fs ms r seen flag olds ctx loc st = (b, vs, None, st) /\
  forall i m, nth_error ms i = Some m -> (forall flag old, exists b, read_member e true fs m flag old ctx loc st = DRet b st old) ->
    nth_error vs i = Some (nth i olds VIndet).
Proof.
  intros e fs ms. induction ms as [|m ms IH]; intros r seen flag olds ctx loc st H.
  - exists seen, []. split; [reflexivity|]. intros [|i]; discriminate.
  - cbn [read_members]. destruct (H m flag (hd VIndet olds) (or_introl eq_refl)) as (b & v & E). rewrite E.
    assert (X : forall r seen, exists b' vs, read_members e true fs ms r seen b (tl olds) ctx loc st = (b', vs, None, st) /\
      forall i m, nth_error ms i = Some m -> (forall flag old, exists b, read_member e true fs m flag old ctx loc st = DRet b st old) ->
        nth_error vs i = Some (nth i (tl olds) VIndet)) by (intros; apply IH; intros; apply H; now right).
    assert (Y : forall vs, (forall i m, nth_error ms i = Some m -> (forall flag old, exists b, read_member e true fs m flag old ctx loc st = DRet b st old) ->
        nth_error vs i = Some (nth i (tl olds) VIndet)) ->
      forall i m0, nth_error (m :: ms) i = Some m0 -> (forall flag old, exists b, read_member e true fs m0 flag old ctx loc st = DRet b st old) ->
        nth_error (v :: vs) i = Some (nth i olds VIndet)).
    { intros vs V [|i] m0 N K.
      - injection N as <-. destruct (K flag (hd VIndet olds)) as (b' & K'). rewrite E in K'. injection K' as _ ->. destruct olds; reflexivity.
      - cbn in N |- *. rewrite (V i m0 N K). destruct olds; [destruct i; reflexivity|reflexivity]. }
    destruct r as [|r].
    + destruct (X 0 seen) as (b' & vs & -> & V). do 2 eexists. split; [reflexivity|]. now apply Y.
    + destruct (X r b) as (b' & vs & -> & V). do 2 eexists. split; [reflexivity|]. now apply Y.
Qed.

(** A back-reference. It leads nowhere as long as no shared pointer has been read. *)
Definition back_reference (j : json) : Prop :=
  exists l s tokens, j = JObj l /\ find_member l "$ref" = Some (JStr s) /\ parse_reference (list_ascii_of_string s) = Some tokens.

Lemma silent : forall e c l,
  (forall m, In m (c_members (class_of e c)) -> m_kind m <> MOptional /\
     exists j, find_member l (m_name m) = Some j /\
     ((exists u, m_ty m = TShared u) /\ back_reference j \/
      exists v, forall old ctx loc st, deser e (JObj l) j true (m_ty m) old ctx loc st = DRet true st v)) ->
  exists vs, deserialize_throw e (TClass c) (JObj l) = Returned (VObj vs) /\
  forall i m u, nth_error (c_members (class_of e c)) i = Some m -> m_ty m = TShared u ->
    (exists j, find_member l (m_name m) = Some j /\ back_reference j) ->
    nth_error vs i = Some (nth i (c_default (class_of e c)) VIndet).
Proof.
  intros e c l H. unfold deserialize_throw. rewrite deser_unfold. cbn [deser_step dinit parts_of].
  assert (A : forall m j u flag old, m_kind m <> MOptional -> find_member l (m_name m) = Some j -> m_ty m = TShared u -> back_reference j ->
    read_member e true (map (fun p => (fst p, deser e (JObj l) (snd p))) l) m flag old [] [] start = DRet false start old).
  { intros m j u flag old K F T (l' & s & tokens & -> & R & P). unfold read_member. rewrite find_fun_map, F.
    destruct (find_index l (m_name m)) as [k|] eqn:Ik; [|apply find_both in Ik; congruence]. rewrite T.
    destruct (m_kind m); [| |congruence]; eapply dangling; eauto; intros; reflexivity. }
  destruct (dangling_members e (map (fun p => (fst p, deser e (JObj l) (snd p))) l) (c_members (class_of e c)) (c_root (class_of e c)) true true
    (c_default (class_of e c)) [] [] start) as (b & vs & E & V).
  { intros m flag old I. destruct (H m I) as (K & j & F & [[(u & T) D]|(v & D)]).
    - do 2 eexists. eapply A; eauto.
    - exists true, v. unfold read_member. rewrite find_fun_map, F.
      destruct (find_index l (m_name m)) as [k|] eqn:Ik; [|apply find_both in Ik; congruence].
      destruct (m_kind m); [| |congruence]; apply D. }
  rewrite E. cbn. exists vs. split; [reflexivity|]. intros i m u N T (j & F & D). apply (V i m N). intros flag old. exists false.
  eapply A; eauto. apply (H m). eapply nth_error_In; eauto.
Qed.

(** C43 *)
Lemma array_exact : forall e n t j v, ordinary e -> ordinary_type t ->
  (deserialize_throw e (TArray n t) j = Returned v <->
   exists js vs, j = JArr js /\ v = VList vs /\ List.length js = n /\ List.length vs = n /\
     forall i ji, nth_error js i = Some ji -> exists vi, nth_error vs i = Some vi /\ deserialize_throw e t ji = Returned vi).
Proof.
  intros e n t j v O Ot. rewrite accepts_exactly by auto.
  assert (A : forall js vs, Forall2 (denotes e t (dinit e t)) js vs <-> (List.length js = List.length vs /\
    forall i ji, nth_error js i = Some ji -> exists vi, nth_error vs i = Some vi /\ deserialize_throw e t ji = Returned vi)).
  { intros js. induction js as [|x js IH]; intros [|y vs]; cbn; split; intros F; try (destruct F; discriminate); try (inversion F; fail).
    - split; [reflexivity|]. intros [|i]; discriminate.
    - constructor.
    - inversion F as [|? ? ? ? D F']; subst. apply IH in F'. destruct F' as [L N]. split; [lia|]. intros [|i] ji E; [|exact (N i ji E)].
      injection E as <-. exists y. split; [reflexivity|]. now apply accepts_exactly.
    - destruct F as [L N]. constructor.
      + destruct (N 0 x eq_refl) as (vi & E & D). injection E as ->. now apply accepts_exactly in D.
      + apply IH. split; [lia|]. intros i ji E. exact (N (S i) ji E). }
  split.
  - intros D. inversion D as [| | | | | | | | | | | | | |t' old' js vs V E1 E2 E3 E4| | | | | |]; subst. exists js, vs.
    apply A in V. destruct V as [L V]. auto.
  - intros (js & vs & -> & -> & <- & L & N). constructor. apply A. split; [congruence|exact N].
Qed.

Lemma tuple_exact : forall e ts j v, ordinary e -> ordinary_type (TTuple ts) ->
  (deserialize_throw e (TTuple ts) j = Returned v <->
   exists js vs, j = JArr js /\ v = VList vs /\ List.length js = List.length ts /\ List.length vs = List.length ts /\
     forall i ji ti, nth_error js i = Some ji -> nth_error ts i = Some ti ->
       exists vi, nth_error vs i = Some vi /\ denotes e ti (vinit e ti) ji vi).
Proof.
  intros e ts j v O Ot. rewrite accepts_exactly by auto. cbn [dinit vinit].
  assert (A : forall ts js vs, parts_denote (denotes e) ts (map (vinit e) ts) js vs <->
    (List.length js = List.length ts /\ List.length vs = List.length ts /\
     forall i ji ti, nth_error js i = Some ji -> nth_error ts i = Some ti ->
       exists vi, nth_error vs i = Some vi /\ denotes e ti (vinit e ti) ji vi)).
  { clear. intros ts. induction ts as [|t ts IH]; intros [|x js] [|y vs]; cbn; split; intros F;
      try (destruct F as (? & ? & _); discriminate); try (inversion F; fail).
    - split; [reflexivity|split; [reflexivity|]]. intros [|i]; discriminate.
    - constructor.
    - inversion F as [|? ? ? ? ? ? ? D F']; subst. cbn in F', D. apply IH in F'. destruct F' as (L1 & L2 & N). split; [lia|split; [lia|]].
      intros [|i] ji ti E T; [|exact (N i ji ti E T)]. injection E as <-. injection T as <-. exists y. split; [reflexivity|exact D].
    - destruct F as (L1 & L2 & N). constructor; cbn.
      + destruct (N 0 x t eq_refl eq_refl) as (vi & E & D). now injection E as ->.
      + apply IH. split; [lia|split; [lia|]]. intros i ji ti E T. exact (N (S i) ji ti E T). }
  split.
  - intros D. inversion D as [| | | | | | | | | | | | | | | | | |ts' old' js vs V E1 E2 E3 E4| |]; subst. exists js, vs. apply A in V. tauto.
  - intros (js & vs & -> & -> & N). constructor. now apply A.
Qed.

Lemma pair_exact : forall e a b j v, ordinary e -> ordinary_type (TPair a b) ->
  (deserialize_throw e (TPair a b) j = Returned v <->
   exists ja jb va vb, j = JArr [ja; jb] /\ v = VList [va; vb] /\ denotes e a (vinit e a) ja va /\ denotes e b (vinit e b) jb vb).
Proof.
  intros e a b j v O Ot. rewrite accepts_exactly by auto. cbn [dinit vinit]. split.
  - intros D. inversion D as [| | | | | | | | | | | | | | | | |a' b' old' js vs V E1 E2 E3 E4| | |]; subst.
    inversion V as [|? ? ? ja js1 va vs1 Da V1]; subst. inversion V1 as [|? ? ? jb js2 vb vs2 Db V2]; subst. inversion V2; subst.
    do 4 eexists. repeat split; eassumption.
  - intros (ja & jb & va & vb & -> & -> & Da & Db). constructor. cbn [components]. repeat constructor; assumption.
Qed.

(** C12 *)
Lemma int_read : forall e k j, existsb (Z.eqb (width k)) [8; 16; 32; 64]%Z = true ->
  (forall z, j = JInt z -> in_range k z ->
     deserialize_throw e (TInt k) j = Returned (VInt z) /\ forall obj, deserialize e (TInt k) j obj = DRet true start (VInt z)) /\
  ((forall z, j = JInt z -> ~ in_range k z) ->
     (exists why, deserialize_throw e (TInt k) j = Threw why ["/"%char]) /\ forall obj, deserialize e (TInt k) j obj = DRet false start obj).
Proof.
  intros e k j W. unfold deserialize_throw, deserialize. rewrite !deser_unfold. cbn [deser_step read_scalar dinit].
  split.
  - intros z -> R. rewrite (int_complete true k (JInt z) z _ [] [] start W R eq_refl). split; [reflexivity|]. intros obj.
    rewrite deser_unfold. cbn [deser_step read_scalar]. exact (int_complete false k (JInt z) z _ [] [] start W R eq_refl).
  - intros N. destruct j as [|?|z|?|?|?|?];
      try (split; [eexists; reflexivity|intros obj; reflexivity]).
    split.
    + destruct (proj2 (read_int_exact true k z VIndet [] [] start W) (N z eq_refl)) as [why ->]. exists why. reflexivity.
    + intros obj. rewrite deser_unfold. cbn [deser_step read_scalar].
      destruct (proj2 (read_int_exact false k z obj [] [] start W) (N z eq_refl)) as [why ->]. reflexivity.
Qed.

(** C29 *)
Lemma ignores : forall e t j j', unshared_classes e -> unshared t = true -> superfluous e t j j' ->
  deserialize_throw e t j' = deserialize_throw e t j /\ forall obj, deserialize e t j' obj = deserialize e t j obj.
Proof.
  intros e t j j' P U S. pose proof (all_indifferent e P j t j' U S) as H.
  assert (X : forall exc old, deser e j' j' exc t old [] [] start = deser e j j exc t old [] [] start).
  { intros exc old. specialize (H exc j j' old [] [] [] [] start start (fun _ => eq_refl)).
    assert (Y := anywhere e t P U j' exc j' j' old [] [] [] [] start start (fun _ => eq_refl)).
    assert (Z := anywhere e t P U j exc j j old [] [] [] [] start start (fun _ => eq_refl)).
    destruct (deser e j j exc t old [] [] start), (deser e j' j' exc t old [] [] start); cbn in *; congruence. }
  unfold deserialize_throw, deserialize. split; intros; now rewrite X.
Qed.

(** C36 *)
Lemma later_ignored : forall e c l1 n j l2, unshared_classes e -> In n (map fst l1) ->
  deserialize_throw e (TClass c) (JObj (l1 ++ (n, j) :: l2)) = deserialize_throw e (TClass c) (JObj (l1 ++ l2)) /\
  forall obj, deserialize e (TClass c) (JObj (l1 ++ (n, j) :: l2)) obj = deserialize e (TClass c) (JObj (l1 ++ l2)) obj.
Proof.
  intros e c l1 n j l2 P I. apply ignores; [exact P|reflexivity|]. constructor.
  assert (A : forall l seen, more_members (superfluous e) e c seen l l).
  { intros l. induction l as [|[m x] l IH]; intros seen; [constructor|]. apply more_same; [intros; constructor|apply IH]. }
  assert (B : forall l1 seen, In n (map fst l1) \/ In n seen -> more_members (superfluous e) e c seen (l1 ++ l2) (l1 ++ (n, j) :: l2)).
  { clear l1 I. intros l1. induction l1 as [|[m x] l1 IH]; intros seen I; cbn.
    - destruct I as [[]|I]. apply more_unread; [now right|apply A].
    - apply more_same; [intros; constructor|]. apply IH. cbn in *. tauto. }
  apply B. now left.
Qed.

(** C33 *)
Lemma replaces : forall e t, ordinary e -> ordinary_type t -> forall j old v, denotes e t old j v -> settled e t j ->
  forall obj, deserialize e t j obj = DRet true start v.
Proof. intros e t O T j old v D S obj. apply all_read; auto. eapply settled_any; eauto. Qed.
