(** Proofs about the perfect hash table. *)
From Coq Require Import List Arith NArith Ascii String Bool Lia ZifyBool ZifyNat ZifyN.
From Verif Require Import Base BitsetModel BitsetProof HashModel.
Import ListNotations.

(** * Loops *)

Definition holds {A} (P : A -> Prop) (r : res A) : Prop :=
  match r with Ok a => P a | Fuel => True | Bad => False end.

Lemma holds_bind : forall A B (r : res A) (f : A -> res B) (P : A -> Prop) (Q : B -> Prop),
  holds P r -> (forall a, P a -> holds Q (f a)) -> holds Q (rbind r f).
Proof. intros A B [a| |] f P Q H HF; cbn in *; auto. Qed.

Lemma rfold_seq : forall S (f : S -> nat -> res S) (P : nat -> S -> Prop) m a s,
  P a s -> (forall i s, a <= i < a + m -> P i s -> holds (P (1 + i)) (f s i)) ->
  holds (P (a + m)) (rfold f (seq a m) s).
Proof.
  intros S f P. induction m as [|m IH]; intros a s H HF; cbn [seq rfold].
  - cbn. now rewrite Nat.add_0_r.
  - eapply holds_bind; [apply HF; [lia|exact H]|]. intros s' H'. cbn beta.
    replace (a + Datatypes.S m) with (Datatypes.S a + m) by lia. apply IH; [exact H'|].
    intros i t Hi. apply HF. lia.
Qed.

Lemma rfold_rev_seq : forall S (f : S -> nat -> res S) (P : nat -> S -> Prop) m a s,
  P m s -> (forall j s, j < m -> P (1 + j) s -> holds (P j) (f s (a + j))) ->
  holds (P 0) (rfold f (rev (seq a m)) s).
Proof.
  intros S f P. induction m as [|m IH]; intros a s H HF; [exact H|].
  rewrite seq_S, rev_app_distr. cbn [rev app rfold].
  eapply holds_bind; [apply HF; [lia|exact H]|]. intros s' H'. apply IH; [exact H'|].
  intros j t Hj. apply HF. lia.
Qed.

Lemma rfold_list : forall S A (f : S -> A -> res S) (P : list A -> S -> Prop) l s,
  P [] s -> (forall pre x post s, l = pre ++ x :: post -> P pre s -> holds (P (pre ++ [x])) (f s x)) ->
  holds (P l) (rfold f l s).
Proof.
  intros S A f P l. 
  assert (forall l2 l1 s, l = l1 ++ l2 -> P l1 s ->
    (forall pre x post s, l = pre ++ x :: post -> P pre s -> holds (P (pre ++ [x])) (f s x)) ->
    holds (P l) (rfold f l2 s)) as G.
  { induction l2 as [|x l2 IH]; intros l1 s E H HF; cbn [rfold].
    - cbn. rewrite app_nil_r in E. now subst.
    - eapply holds_bind; [eapply HF; [exact E|exact H]|]. intros s' H'. cbn beta.
      apply (IH (l1 ++ [x])); auto. rewrite <- app_assoc. exact E. }
  intros s H HF. apply (G l []); auto.
Qed.

(** * Arrays *)

Lemma upd_spec : forall A (l : list A) i v, i < List.length l ->
  exists l', upd l i v = Some l' /\ List.length l' = List.length l /\
    forall j d, nth j l' d = if Nat.eqb j i then v else nth j l d.
Proof.
  induction l as [|x l IH]; intros i v H; cbn in H; [lia|].
  destruct i as [|i].
  - exists (v :: l). repeat split. intros [|j] d; reflexivity.
  - destruct (IH i v) as (l' & E & L & N); [lia|].
    exists (x :: l'). cbn [upd]. rewrite E. repeat split; [cbn; lia|].
    intros [|j] d; [reflexivity|]. cbn. apply N.
Qed.

(** * Counting *)

Lemma filter_or_length : forall A (f g : A -> bool) l,
  (forall x, In x l -> f x = true -> g x = false) ->
  List.length (filter (fun x => f x || g x) l) = List.length (filter f l) + List.length (filter g l).
Proof.
  intros A f g. induction l as [|x l IH]; intros H; [reflexivity|]. cbn [filter].
  specialize (IH (fun y Hy => H y (or_intror Hy))). pose proof (H x (or_introl eq_refl)) as HX.
  destruct (f x), (g x); cbn [orb List.length]; try lia; discriminate (HX eq_refl).
Qed.

Lemma filter_one : forall s n a, a <= s < a + n -> filter (fun j => j =? s) (seq a n) = [s].
Proof.
  intros s. induction n as [|n IH]; intros a H; [lia|]. cbn [seq filter].
  destruct (Nat.eqb_spec a s) as [->|N].
  - f_equal. assert (forall m b, s < b -> filter (fun j => j =? s) (seq b m) = []) as Z.
    { induction m as [|m IHm]; intros b L; [reflexivity|]. cbn [seq filter].
      destruct (Nat.eqb_spec b s); [lia|]. apply IHm. lia. }
    apply Z. lia.
  - apply IH. lia.
Qed.

Lemma filter_le : forall A (f g : A -> bool) l, (forall x, In x l -> f x = true -> g x = true) ->
  List.length (filter f l) <= List.length (filter g l).
Proof.
  intros A f g. induction l as [|x l IH]; intros H; [cbn; lia|]. cbn [filter].
  specialize (IH (fun y Hy => H y (or_intror Hy))). pose proof (H x (or_introl eq_refl)) as HX.
  destruct (f x), (g x); cbn [List.length]; try lia; discriminate (HX eq_refl).
Qed.

Lemma filter_length_full : forall A (f : A -> bool) l, List.length (filter f l) <= List.length l.
Proof.
  intros A f. induction l as [|x l IH]; cbn; [lia|]. destruct (f x); cbn; lia.
Qed.

Lemma filter_negb_length : forall A (f : A -> bool) l,
  List.length (filter f l) + List.length (filter (fun x => negb (f x)) l) = List.length l.
Proof.
  intros A f. induction l as [|x l IH]; [reflexivity|]. cbn [filter]. destruct (f x); cbn [negb List.length]; lia.
Qed.

Lemma repeat_map : forall A (b : A) m a, repeat b m = map (fun _ => b) (seq a m).
Proof. intros A b. induction m as [|m IH]; intros a; cbn; [reflexivity|]. now rewrite (IH (S a)). Qed.

Section Table.
Variable items : list (list ascii).
Variable n : nat.
Hypothesis n_len : List.length items = n.
Hypothesis n_pos : 0 < n.


Definition h (d : N) (k : nat) : nat := N.to_nat (hash d (nth k items []) mod N.of_nat n).

Lemma slot_ok : forall d s, slot n d s = Ok (N.to_nat (hash d s mod N.of_nat n)).
Proof. intros d s. unfold slot. clear n_len. destruct n as [|m]; [inversion n_pos|]. reflexivity. Qed.

Lemma slot_lt : forall x : N, N.to_nat (x mod N.of_nat n) < n.
Proof.
  intros x. pose proof (N.mod_lt x (N.of_nat n)). lia.
Qed.

Lemma h_lt : forall d k, h d k < n.
Proof. intros. apply slot_lt. Qed.

Lemma item_ok : forall k, k < n -> item items k = Ok (nth k items []).
Proof.
  intros k H. unfold item. rewrite (nth_error_nth' items []) by lia. reflexivity.
Qed.

Definition inb (i k : nat) : bool := h 0 k =? i.
Definition members (i : nat) : list nat := filter (inb i) (seq 0 n).
Definition bucket (i : nat) : bitset := of_fun n (inb i).

Lemma members_in : forall i k, In k (members i) <-> k < n /\ h 0 k = i.
Proof.
  intros i k. unfold members, inb. rewrite filter_In, in_seq, Nat.eqb_eq. split; intros; lia.
Qed.

Lemma members_nodup : forall i, NoDup (members i).
Proof. intros i. apply NoDup_filter. apply seq_NoDup. Qed.

Lemma nth_map_seq : forall A (f : nat -> A) m i, i < m -> nth_error (map f (seq 0 m)) i = Some (f i).
Proof.
  intros A f m i H. rewrite nth_error_map, (nth_error_nth' (seq 0 m) 0) by (now rewrite seq_length).
  now rewrite seq_nth.
Qed.

Lemma upd_map_seq : forall A (f : nat -> A) m a i v, i < m ->
  upd (map f (seq a m)) i v = Some (map (fun j => if Nat.eqb j (a + i) then v else f j) (seq a m)).
Proof.
  intros A f. induction m as [|m IH]; intros a i v H; [lia|]. cbn [seq map upd].
  destruct i as [|i].
  - rewrite Nat.add_0_r, Nat.eqb_refl. f_equal. f_equal. apply map_ext_in. intros j Hj.
    apply in_seq in Hj. destruct (Nat.eqb_spec j a); [lia|reflexivity].
  - rewrite IH by lia. destruct (Nat.eqb_spec a (a + S i)); [lia|]. f_equal. f_equal.
    apply map_ext. intros j. now rewrite Nat.add_succ_r.
Qed.

Lemma make_buckets_ok : holds (fun bs => bs = map bucket (seq 0 n)) (make_buckets items).
Proof.
  unfold make_buckets. rewrite n_len.
  pose (P := fun (m : nat) (bs : list bitset) =>
    bs = map (fun i => of_fun n (fun k => (k <? m) && inb i k)) (seq 0 n)).
  assert (holds (P (0 + n)) (rfold (fun bs k =>
           let* it <- item items k;
           let* key <- slot n 0 it;
           let* b <- of_opt (nth_error bs key);
           let* b' <- of_opt (set b k);
           of_opt (upd bs key b')) (seq 0 n) (repeat (empty n) n))) as H.
  { apply rfold_seq.
    - unfold P. rewrite empty_of_fun. transitivity (map (fun _ : nat => of_fun n (fun _ => false)) (seq 0 n)).
      + apply repeat_map.
      + apply map_ext. intros i. apply of_fun_ext. intros k _. reflexivity.
    - intros k bs Hk ->. rewrite item_ok by lia. cbn [rbind]. rewrite slot_ok. cbn [rbind].
      fold (h 0 k). rewrite nth_map_seq by apply h_lt. cbn [of_opt rbind].
      rewrite set_of_fun by lia. cbn [of_opt rbind].
      rewrite upd_map_seq by apply h_lt. cbn [of_opt holds]. unfold P.
      apply map_ext. intros i. cbn [Nat.add].
      destruct (Nat.eqb_spec i (h 0 k)) as [->|NE]; apply of_fun_ext; intros j Hj.
      + unfold inb. destruct (Nat.eqb_spec j k) as [->|NJ].
        * rewrite Nat.eqb_refl. cbn [orb]. symmetry. rewrite andb_true_r. apply Nat.ltb_lt. lia.
        * cbn [orb]. f_equal. destruct (Nat.ltb_spec j k), (Nat.ltb_spec j (S k)); lia || reflexivity.
      + unfold inb. destruct (Nat.eqb_spec j k) as [->|NJ].
        * destruct (Nat.eqb_spec (h 0 k) i); [congruence|]. now rewrite !andb_false_r.
        * f_equal. destruct (Nat.ltb_spec j k), (Nat.ltb_spec j (S k)); lia || reflexivity. }
  destruct (rfold _ _ _) as [bs| |]; cbn [holds] in *; auto. rewrite H. apply map_ext. intros i.
  apply of_fun_ext. intros k Hk. replace (k <? 0 + n) with true by lia. reflexivity.
Qed.

(** * Seeds *)

Definition fits (d : N) (T : nat -> bool) (ms : list nat) : Prop :=
  NoDup (map (h d) ms) /\ forall k, In k ms -> T (h d k) = false.

Lemma distributable_ok : forall d i T,
  holds (fun b => b = true -> fits d T (members i))
    (is_distributable d items (bucket i) (of_fun n T)) /\
  is_distributable d items (bucket i) (of_fun n T) <> Fuel.
Proof.
  intros d i T. unfold is_distributable. rewrite n_len.
  set (f := fun (st : option bitset) k => _).
  pose (ms := fun m => filter (inb i) (seq 0 m)).
  pose (P := fun (m : nat) (st : option bitset) =>
    match st with
    | None => True
    | Some b => fits d T (ms m) /\
        b = of_fun n (fun s => existsb (Nat.eqb s) (map (h d) (ms m)) || T s)
    end).
  assert (holds (P (0 + n)) (rfold f (seq 0 n) (Some (of_fun n T)))) as H.
  { apply rfold_seq.
    - cbn. split; [split; [constructor|intros ? []]|]. apply of_fun_ext. reflexivity.
    - intros k [b|] Hk HP; [|exact I]. destruct HP as [[ND NT] ->]. unfold f.
      unfold bucket at 1. rewrite get_of_fun. replace (k <? n) with true by lia. cbn [of_opt rbind].
      assert (ms (1 + k) = ms k ++ (if inb i k then [k] else [])) as EM.
      { unfold ms. replace (1 + k) with (k + 1) by lia. rewrite seq_app, filter_app. cbn. reflexivity. }
      destruct (inb i k) eqn:EB; cbn [negb].
      2:{ cbn [holds]. unfold P. rewrite EM, app_nil_r. split; [split; assumption|reflexivity]. }
      rewrite item_ok by lia. cbn [rbind]. rewrite slot_ok. cbn [rbind]. fold (h d k).
      rewrite get_of_fun. pose proof (h_lt d k) as HL. replace (h d k <? n) with true by lia.
      cbn [of_opt rbind].
      destruct (existsb (Nat.eqb (h d k)) (map (h d) (ms k)) || T (h d k)) eqn:ET; [exact I|].
      apply orb_false_iff in ET. destruct ET as [E1 E2].
      rewrite set_of_fun by assumption. cbn [of_opt rbind holds]. unfold P. rewrite EM, map_app. cbn [map].
      split.
      + split.
        * rewrite map_app. cbn [map]. apply (NoDup_Add (a := h d k) (l := map (h d) (ms k))).
          { replace (map (h d) (ms k) ++ [h d k]) with (map (h d) (ms k) ++ h d k :: []) by reflexivity.
            pose proof (Add_app (h d k) (map (h d) (ms k)) []) as A. now rewrite app_nil_r in A. }
          split; [assumption|]. intros IN.
          assert (existsb (Nat.eqb (h d k)) (map (h d) (ms k)) = true); [|congruence].
          apply existsb_exists. exists (h d k). split; [assumption|apply Nat.eqb_refl].
        * intros m Hm. apply in_app_or in Hm. destruct Hm as [Hm|[<-|[]]]; auto.
      + apply of_fun_ext. intros s _. rewrite existsb_app. cbn [existsb].
        rewrite orb_false_r. destruct (s =? h d k), (existsb (Nat.eqb s) (map (h d) (ms k))), (T s); reflexivity. }
  destruct (rfold f (seq 0 n) (Some (of_fun n T))) as [[b|]| |] eqn:ER; cbn in *; try tauto.
  - split; [|discriminate]. intros _. apply H.
  - split; [discriminate|discriminate].
  - split; [exact I|]. exfalso. clear -ER n_pos n_len.
    assert (forall l st, rfold f l st <> Fuel) as K; [|exact (K _ _ ER)].
    assert (forall st k, f st k <> Fuel) as KF.
    { intros [b|] k; [|discriminate]. unfold f. destruct (get (bucket i) k) as [m|]; cbn [of_opt rbind]; [|discriminate].
      destruct (negb m); [discriminate|]. unfold item. destruct (nth_error items k); cbn [of_opt rbind]; [|discriminate].
      rewrite slot_ok. cbn [rbind]. destruct (get b _) as [[|]|]; cbn [of_opt rbind]; try discriminate.
      destruct (set b _); cbn; discriminate. }
    induction l as [|x l IH]; intros st; cbn [rfold]; [discriminate|].
    specialize (KF st x). destruct (f st x); cbn [rbind]; [apply IH|congruence|discriminate].
Qed.

Lemma scatter_ok : forall fuel d i T, (N.of_nat fuel + d <= 2 ^ 63)%N ->
  holds (fun d' => fits d' T (members i) /\ (d' < 2 ^ 63)%N)
    (scatter fuel d items (bucket i) (of_fun n T)).
Proof.
  induction fuel as [|fuel IH]; intros d i T H; [exact I|]. cbn [scatter].
  destruct (distributable_ok d i T) as [D _].
  destruct (is_distributable d items (bucket i) (of_fun n T)) as [b| |]; cbn [rbind holds] in *; auto.
  destruct b.
  - cbn. split; [auto|]. lia.
  - rewrite N.mod_small by (unfold two64; lia). apply IH. lia.
Qed.

(** * Invariant of the construction *)

Definition used (T : nat -> bool) : nat := List.length (filter T (seq 0 n)).
Definition placed (D : nat -> bool) : nat := List.length (filter (fun k => D (h 0 k)) (seq 0 n)).

(** Where the lookup of item [k] ends up, given its entry of G. *)
Definition target (g : N) (k : nat) : nat :=
  if (2 ^ 63 <=? g)%N then N.to_nat (hash_not g) else h g k.

Record inv (D : nat -> bool) (st : state) (T : nat -> bool) : Prop := {
  inv_taken : taken st = of_fun n T;
  inv_im : List.length (index_map (tab st)) = n;
  inv_G : List.length (G (tab st)) = n;
  inv_Gr : forall b, let g := nth b (G (tab st)) 0%N in
    (g < 2 ^ 63)%N \/ N.to_nat (hash_not g) < n;
  inv_range : forall s, nth s (index_map (tab st)) 0 < n;
  inv_items : forall k, k < n -> D (h 0 k) = true ->
    let s := target (nth (h 0 k) (G (tab st)) 0%N) k in
    s < n /\ T s = true /\ nth s (index_map (tab st)) 0 = k;
  inv_count : used T = placed D
}.

Definition Inv (D : nat -> bool) (st : state) : Prop := exists T, inv D st T.

Lemma Inv_ext : forall D D' st, (forall j, j < n -> members j <> [] -> D j = D' j) -> Inv D st -> Inv D' st.
Proof.
  intros D D' st H [T [A1 A2 A3 AG A4 A5 A6]]. exists T.
  assert (forall k, k < n -> D (h 0 k) = D' (h 0 k)) as E.
  { intros k Hk. apply H; [apply h_lt|]. intros E. assert (In k (members (h 0 k))) as M by now apply members_in.
    rewrite E in M. destruct M. }
  split; auto.
  - intros k Hk HD. rewrite <- E in HD by assumption. exact (A5 k Hk HD).
  - rewrite A6. unfold placed. f_equal. apply filter_ext_in. intros k Hk. apply in_seq in Hk. apply E. lia.
Qed.

(** The inner loop over the items of a bucket. *)
Lemma place_items_ok : forall i d T st0,
  fits d T (members i) -> taken st0 = of_fun n T ->
  List.length (index_map (tab st0)) = n -> (forall s, nth s (index_map (tab st0)) 0 < n) ->
  holds (fun st => G (tab st) = G (tab st0) /\
      taken st = of_fun n (fun s => existsb (Nat.eqb s) (map (h d) (members i)) || T s) /\
      List.length (index_map (tab st)) = n /\ (forall s, nth s (index_map (tab st)) 0 < n) /\
      (forall k, In k (members i) -> nth (h d k) (index_map (tab st)) 0 = k) /\
      (forall s, ~ In s (map (h d) (members i)) ->
        nth s (index_map (tab st)) 0 = nth s (index_map (tab st0)) 0))
    (rfold (place_item items (bucket i) d) (seq 0 (List.length (members i))) st0).
Proof.
  intros i d T st0 [ND NT] HT HL HR.
  pose (ms := fun m => firstn m (members i)).
  pose (P := fun m st => G (tab st) = G (tab st0) /\
      taken st = of_fun n (fun s => existsb (Nat.eqb s) (map (h d) (ms m)) || T s) /\
      List.length (index_map (tab st)) = n /\ (forall s, nth s (index_map (tab st)) 0 < n) /\
      (forall k, In k (ms m) -> nth (h d k) (index_map (tab st)) 0 = k) /\
      (forall s, ~ In s (map (h d) (ms m)) ->
        nth s (index_map (tab st)) 0 = nth s (index_map (tab st0)) 0)).
  assert (holds (P (0 + List.length (members i)))
    (rfold (place_item items (bucket i) d) (seq 0 (List.length (members i))) st0)) as H.
  2:{ cbn [Nat.add] in H. destruct (rfold _ _ _) as [st| |]; cbn [holds] in *; auto.
      unfold P, ms in H. now rewrite firstn_all in H. }
  apply rfold_seq.
  - unfold P. cbn [ms firstn map existsb orb]. split; [reflexivity|]. split; [exact HT|]. split; [exact HL|]. split; [exact HR|]. split; [intros k []|reflexivity].
  - intros m st Hm (I1 & I2 & I3 & I4 & I5 & I6). unfold place_item. rewrite n_len.
    unfold bucket at 1. rewrite pick_of_fun. fold (members i).
    destruct (nth_error (members i) m) as [k|] eqn:EK.
    2:{ apply nth_error_None in EK. lia. }
    assert (ms (1 + m) = ms m ++ [k]) as EM.
    { unfold ms. cbn [Nat.add]. rewrite <- (firstn_skipn (S m) (members i)) at 2.
      clear -EK. revert EK. generalize (members i). intros l. revert l.
      induction m as [|m IH]; intros [|x l] E; cbn in E; try discriminate.
      - injection E as ->. reflexivity.
      - cbn [firstn app]. f_equal. rewrite (firstn_skipn (S m) l) at 1. rewrite (IH l E) at 1.
        now rewrite (firstn_skipn (S m) l). }
    assert (In k (members i)) as IK by (eapply nth_error_In; eassumption).
    assert (k < n) as KN by (apply members_in in IK; lia).
    cbn [of_opt rbind]. rewrite item_ok by assumption. cbn [rbind]. rewrite slot_ok. cbn [rbind].
    fold (h d k). rewrite I2, set_of_fun by apply h_lt. cbn [of_opt rbind].
    destruct (upd_spec _ (index_map (tab st)) (h d k) k) as (im & EU & LU & NU).
    { rewrite I3. apply h_lt. }
    rewrite EU. cbn [of_opt rbind holds]. unfold P. cbn [tab taken G index_map].
    rewrite EM, map_app. cbn [map].
    (* k's slot differs from those of the earlier items *)
    assert (~ In (h d k) (map (h d) (ms m))) as NI.
    { rewrite <- (firstn_skipn (1 + m) (members i)) in ND. fold (ms (1 + m)) in ND.
      rewrite EM in ND. rewrite !map_app in ND. cbn [map] in ND. rewrite <- app_assoc in ND.
      apply NoDup_remove_2 in ND. intros IN. apply ND. apply in_or_app. left. assumption. }
    repeat split.
    + assumption.
    + apply of_fun_ext. intros s _. rewrite existsb_app. cbn [existsb]. rewrite orb_false_r.
      destruct (s =? h d k), (existsb (Nat.eqb s) (map (h d) (ms m))), (T s); reflexivity.
    + lia.
    + intros s. rewrite NU. destruct (s =? h d k); [assumption|apply I4].
    + intros k' IN. rewrite NU. apply in_app_or in IN. destruct IN as [IN|[<-|[]]].
      * destruct (Nat.eqb_spec (h d k') (h d k)) as [E|]; [|auto].
        elim NI. rewrite <- E. now apply in_map.
      * now rewrite Nat.eqb_refl.
    + intros s NS. rewrite NU. destruct (Nat.eqb_spec s (h d k)) as [->|].
      * elim NS. apply in_or_app. right. left. reflexivity.
      * apply I6. intros IN. apply NS. apply in_or_app. left. assumption.
Qed.

Lemma filter_members : forall (S l : list nat), NoDup S -> NoDup l -> (forall s, In s S -> In s l) ->
  List.length (filter (fun s => existsb (Nat.eqb s) S) l) = List.length S.
Proof.
  intros S l ND NL HS. apply Nat.le_antisymm.
  - apply NoDup_incl_length; [now apply NoDup_filter|]. intros s Hs. apply filter_In in Hs.
    destruct Hs as [_ Hs]. apply existsb_exists in Hs. destruct Hs as (x & Hx & E).
    apply Nat.eqb_eq in E. now subst.
  - apply NoDup_incl_length; [assumption|]. intros s Hs. apply filter_In. split; [auto|].
    apply existsb_exists. exists s. split; [assumption|apply Nat.eqb_refl].
Qed.

Lemma used_add : forall (S : list nat) T, NoDup S -> (forall s, In s S -> s < n /\ T s = false) ->
  used (fun s => existsb (Nat.eqb s) S || T s) = List.length S + used T.
Proof.
  intros S T ND H. unfold used. rewrite filter_or_length.
  - f_equal. apply filter_members; [assumption|apply seq_NoDup|].
    intros s Hs. apply in_seq. apply H in Hs. lia.
  - intros x _ E. apply existsb_exists in E. destruct E as (y & Hy & E). apply Nat.eqb_eq in E. subst.
    now apply H.
Qed.

Lemma placed_add : forall D i, D i = false ->
  placed (fun j => D j || (j =? i)) = placed D + List.length (members i).
Proof.
  intros D i H. unfold placed, members, inb.
  rewrite (filter_or_length _ (fun k => D (h 0 k)) (fun k => h 0 k =? i)); [reflexivity|].
  intros k _ E. destruct (Nat.eqb_spec (h 0 k) i); congruence.
Qed.

Lemma count_bucket : forall i, count (bucket i) = List.length (members i).
Proof. intros i. apply count_of_fun. Qed.

Lemma first_bucket : forall i, first_set (bucket i) = hd_error (members i).
Proof. intros i. apply first_set_of_fun. Qed.

Lemma place_bucket_ok : forall fuel cnt D st i, (N.of_nat fuel < 2 ^ 63)%N -> 0 < cnt -> i < n ->
  (List.length (members i) = cnt -> D i = false) -> Inv D st ->
  holds (Inv (fun j => D j || ((j =? i) && (List.length (members i) =? cnt))))
    (place_bucket fuel items (map bucket (seq 0 n)) cnt st i).
Proof.
  intros fuel cnt D st i HF HC Hi HD [T HI]. unfold place_bucket. rewrite n_len.
  rewrite nth_map_seq by assumption. cbn [of_opt rbind]. rewrite count_bucket.
  destruct (Nat.eqb_spec (List.length (members i)) cnt) as [EC|NC]; cbn [negb].
  2:{ cbn [holds]. exists T. destruct HI as [A1 A2 A3 AG A4 A5 A6]. split; auto.
      - intros k Hk. rewrite andb_false_r, orb_false_r. exact (A5 k Hk).
      - rewrite A6. unfold placed. f_equal. apply filter_ext. intros k. now rewrite andb_false_r, orb_false_r. }
  specialize (HD EC). destruct HI as [A1 A2 A3 AG A4 A5 A6]. rewrite A1.
  eapply holds_bind; [apply scatter_ok; lia|]. intros d [HFit Hd].
  rewrite first_bucket. destruct (members i) as [|f ms] eqn:EM; [cbn in EC; lia|]. cbn [hd_error of_opt rbind].
  assert (In f (members i)) as IF by (rewrite EM; left; reflexivity). apply members_in in IF.
  destruct IF as [Hf E0]. rewrite item_ok by assumption. cbn [rbind]. rewrite slot_ok. cbn [rbind].
  fold (h 0 f). rewrite E0.
  destruct (upd_spec _ (G (tab st)) i d) as (G' & EU & LU & NU); [lia|]. rewrite EU. cbn [of_opt rbind].
  rewrite <- EM in *. clear EM f ms Hf E0. rewrite <- EC.
  pose proof (place_items_ok i d T
    {| tab := {| index_map := index_map (tab st); G := G' |}; taken := of_fun n T |} HFit) as PI.
  cbn [taken tab G index_map] in PI. specialize (PI eq_refl A2 A4).
  destruct (rfold _ _ _) as [st'| |]; cbn [holds] in *; [|exact I|exact PI].
  destruct PI as (I1 & I2 & I3 & I4 & I5 & I6). destruct HFit as [ND NT].
  exists (fun s => existsb (Nat.eqb s) (map (h d) (members i)) || T s). split; auto.
  - rewrite I1. lia.
  - intros b. rewrite I1, NU. destruct (b =? i); [now left|apply AG].
  - intros k Hk. rewrite andb_true_r, I1, NU. intros E.
    destruct (Nat.eqb_spec (h 0 k) i) as [Ei|Ni].
    + assert (In k (members i)) as IK by now apply members_in.
      unfold target. destruct (N.leb_spec (2 ^ 63) d); [lia|]. repeat split.
      * apply h_lt.
      * apply orb_true_iff. left. apply existsb_exists. exists (h d k). split; [now apply in_map|apply Nat.eqb_refl].
      * now apply I5.
    + rewrite orb_false_r in E. destruct (A5 k Hk E) as (B1 & B2 & B3). repeat split.
      * assumption.
      * rewrite B2. apply orb_true_r.
      * rewrite I6; [assumption|]. intros IN. apply in_map_iff in IN. destruct IN as (m & Em & IN).
        apply NT in IN. congruence.
  - rewrite used_add.
    + rewrite map_length, A6. unfold placed at 2.
      transitivity (placed (fun j => D j || (j =? i))).
      * rewrite placed_add by assumption. unfold placed. lia.
      * unfold placed. f_equal. apply filter_ext. intros k. now rewrite andb_true_r.
    + assumption.
    + intros s Hs. apply in_map_iff in Hs. destruct Hs as (k & <- & Hk). split; [apply h_lt|auto].
Qed.

Lemma placed_lt : forall D k, k < n -> D (h 0 k) = false -> placed D < n.
Proof.
  intros D k Hk HD. unfold placed.
  assert (List.length (filter (fun x => D (h 0 x) || (x =? k)) (seq 0 n)) <= n) as L.
  { rewrite <- (seq_length n 0) at 2. apply filter_length_full. }
  rewrite filter_or_length in L.
  - rewrite filter_one in L by lia. cbn in L. lia.
  - intros x _ E. destruct (Nat.eqb_spec x k); congruence.
Qed.

Hypothesis n_small : (N.of_nat n <= 2 ^ 63)%N.

Lemma hash_not_spec : forall s, s < n -> (2 ^ 63 <= hash_not (N.of_nat s))%N /\
  N.to_nat (hash_not (hash_not (N.of_nat s))) = s.
Proof. intros s H. unfold hash_not, two64. split; lia. Qed.

Lemma place_single_ok : forall D st i, i < n ->
  (List.length (members i) = 1 -> D i = false) -> Inv D st ->
  holds (Inv (fun j => D j || ((j =? i) && (List.length (members i) =? 1))))
    (place_single items (map bucket (seq 0 n)) st i).
Proof.
  intros D st i Hi HD [T HI]. unfold place_single. rewrite n_len.
  rewrite nth_map_seq by assumption. cbn [of_opt rbind]. rewrite count_bucket.
  destruct (Nat.eqb_spec (List.length (members i)) 1) as [EC|NC]; cbn [negb].
  2:{ cbn [holds]. exists T. destruct HI as [A1 A2 A3 AG A4 A5 A6]. split; auto.
      - intros k Hk. rewrite andb_false_r, orb_false_r. exact (A5 k Hk).
      - rewrite A6. unfold placed. f_equal. apply filter_ext. intros k. now rewrite andb_false_r, orb_false_r. }
  specialize (HD EC). destruct HI as [A1 A2 A3 AG A4 A5 A6].
  rewrite first_bucket. destruct (members i) as [|f ms] eqn:EM; [cbn in EC; lia|]. cbn [hd_error of_opt rbind].
  destruct ms; [|cbn in EC; lia].
  assert (In f (members i)) as IF by (rewrite EM; left; reflexivity). apply members_in in IF.
  destruct IF as [Hf E0]. rewrite item_ok by assumption. cbn [rbind].
  rewrite A1, first_unset_of_fun.
  assert (used T < n) as UT by (rewrite A6; eapply placed_lt; [exact Hf|congruence]).
  destruct (filter (fun k => negb (T k)) (seq 0 n)) as [|s l] eqn:EF.
  { exfalso. assert (used T = n); [|lia]. unfold used.
    pose proof (filter_negb_length _ T (seq 0 n)) as L. rewrite EF, seq_length in L. cbn in L. lia. }
  assert (In s (filter (fun k => negb (T k)) (seq 0 n))) as IS by (rewrite EF; left; reflexivity).
  apply filter_In in IS. destruct IS as [IS TS]. apply in_seq in IS. apply negb_true_iff in TS.
  cbn [hd_error of_opt rbind]. rewrite slot_ok. cbn [rbind]. fold (h 0 f). rewrite E0.
  destruct (upd_spec _ (G (tab st)) i (hash_not (N.of_nat s))) as (G' & EU & LU & NU); [lia|]. rewrite EU. cbn [of_opt rbind].
  rewrite set_of_fun by lia. cbn [of_opt rbind].
  destruct (upd_spec _ (index_map (tab st)) s f) as (im & EV & LV & NV); [lia|]. rewrite EV. cbn [of_opt rbind holds].
  destruct (hash_not_spec s) as [HN1 HN2]; [lia|].
  exists (fun x => (x =? s) || T x). split; cbn [taken tab G index_map]; auto; try lia.
  - intros b. rewrite NU. destruct (b =? i); [right; rewrite HN2; lia|apply AG].
  - intros x. rewrite NV. destruct (x =? s); [assumption|apply A4].
  - intros k Hk. rewrite NU, andb_true_r. intros E.
    destruct (Nat.eqb_spec (h 0 k) i) as [Ei|Ni].
    + assert (In k (members i)) as IK by now apply members_in. rewrite EM in IK. destruct IK as [->|[]].
      unfold target. destruct (N.leb_spec (2 ^ 63) (hash_not (N.of_nat s))); [|lia].
      rewrite HN2, NV, Nat.eqb_refl. repeat split; lia.
    + rewrite orb_false_r in E. destruct (A5 k Hk E) as (B1 & B2 & B3). repeat split.
      * assumption.
      * rewrite B2. apply orb_true_r.
      * rewrite NV. destruct (Nat.eqb_spec (target (nth (h 0 k) (G (tab st)) 0%N) k) s); [congruence|assumption].
  - transitivity (1 + used T).
    + unfold used. rewrite filter_or_length.
      * rewrite filter_one by lia. reflexivity.
      * intros x _ E. destruct (Nat.eqb_spec x s); congruence.
    + transitivity (placed (fun j => D j || (j =? i))).
      * rewrite placed_add by assumption. rewrite EM. cbn [List.length]. lia.
      * unfold placed. f_equal. apply filter_ext. intros k. now rewrite andb_true_r.
Qed.

Definition c (j : nat) : nat := List.length (members j).

Lemma c_le : forall j, c j <= n.
Proof. intros j. unfold c, members. rewrite <- (seq_length n 0) at 2. apply filter_length_full. Qed.

Lemma holds_mono : forall A (P Q : A -> Prop) r, (forall a, P a -> Q a) -> holds P r -> holds Q r.
Proof. intros A P Q [a| |] H HR; cbn in *; auto. Qed.

Lemma round_ok : forall fuel cnt st (D : nat -> bool), (N.of_nat fuel < 2 ^ 63)%N -> 0 < cnt ->
  Inv (fun b => cnt <? c b) st ->
  holds (Inv (fun b => cnt <=? c b))
    (rfold (place_bucket fuel items (map bucket (seq 0 n)) cnt) (seq 0 n) st).
Proof.
  intros fuel cnt st D HF HC HI.
  pose (P := fun i st => Inv (fun b => (cnt <? c b) || ((c b =? cnt) && (b <? i))) st).
  apply holds_mono with (P := P (0 + n)).
  - intros st' HP. eapply Inv_ext; [|exact HP]. intros j Hj _. cbn beta. lia.
  - apply rfold_seq.
    + eapply Inv_ext; [|exact HI]. intros j _ _. cbn beta. lia.
    + intros i st' Hi HP. eapply holds_mono; [|eapply place_bucket_ok; [exact HF|exact HC|lia| |exact HP]].
      * intros st2 H2. eapply Inv_ext; [|exact H2]. intros j Hj _. cbn beta. fold (c i).
        destruct (Nat.eqb_spec j i) as [->|]; lia.
      * cbn beta. fold (c i). lia.
Qed.

Lemma singles_ok : forall st, Inv (fun b => 2 <=? c b) st ->
  holds (Inv (fun b => true)) (rfold (place_single items (map bucket (seq 0 n))) (seq 0 n) st).
Proof.
  intros st HI.
  pose (P := fun i st => Inv (fun b => (2 <=? c b) || ((c b =? 1) && (b <? i))) st).
  apply holds_mono with (P := P (0 + n)).
  - intros st' HP. eapply Inv_ext; [|exact HP]. intros j Hj NE. cbn beta.
    unfold c. destruct (members j) as [|a l]; [congruence|]. cbn [List.length]. lia.
  - apply rfold_seq.
    + eapply Inv_ext; [|exact HI]. intros j _ _. cbn beta. lia.
    + intros i st' Hi HP. eapply holds_mono; [|eapply place_single_ok; [| |exact HP]].
      * intros st2 H2. eapply Inv_ext; [|exact H2]. intros j Hj _. cbn beta. fold (c i).
        destruct (Nat.eqb_spec j i) as [->|]; lia.
      * lia.
      * cbn beta. fold (c i). lia.
Qed.

Lemma nth_repeat' : forall A (a : A) m i, nth i (repeat a m) a = a.
Proof. intros A a. induction m as [|m IH]; intros [|i]; cbn; auto. Qed.

Lemma build_ok : forall fuel, (N.of_nat fuel < 2 ^ 63)%N ->
  holds (fun t => exists st, tab st = t /\ Inv (fun _ => true) st) (build fuel items).
Proof.
  intros fuel HF. unfold build. rewrite n_len.
  eapply holds_bind; [apply make_buckets_ok|]. intros bs ->.
  eapply holds_bind.
  - apply (rfold_rev_seq _ _ (fun j => Inv (fun b => 2 + j <=? c b))).
    + exists (fun _ => false). split; cbn [tab taken index_map G].
      * apply empty_of_fun.
      * apply repeat_length.
      * apply repeat_length.
      * intros b. rewrite nth_repeat'. now left.
      * intros s. rewrite nth_repeat'. assumption.
      * intros k Hk E. pose proof (c_le (h 0 k)). lia.
      * unfold used, placed. f_equal. apply filter_ext. intros k. pose proof (c_le (h 0 k)). lia.
    + intros j st Hj HI. cbn beta. eapply round_ok; [exact (fun _ => true)|exact HF|lia|].
      eapply Inv_ext; [|exact HI]. intros b _ _. cbn beta. lia.
  - intros st HI. cbn beta. eapply holds_bind; [apply singles_ok; exact HI|].
    intros st' HI'. cbn [holds]. exists st'. split; [reflexivity|exact HI'].
Qed.

Theorem lookup_ok : forall fuel, (N.of_nat fuel < 2 ^ 63)%N ->
  holds (fun t =>
    (forall k s, nth_error items k = Some s -> index n t s = Ok k) /\
    (forall s, exists j, index n t s = Ok j /\ j < n)) (build fuel items).
Proof.
  intros fuel HF. eapply holds_mono; [|apply build_ok; exact HF].
  intros t (st & <- & T & [A1 A2 A3 AG A4 A5 A6]).
  assert (forall s, s < n -> nth_error (index_map (tab st)) s = Some (nth s (index_map (tab st)) 0)) as IM.
  { intros s Hs. apply nth_error_nth'. lia. }
  assert (forall s, s < n -> nth_error (G (tab st)) s = Some (nth s (G (tab st)) 0%N)) as GM.
  { intros s Hs. apply nth_error_nth'. lia. }
  split.
  - intros k s E. assert (k < n) as Hk by (rewrite <- n_len; apply nth_error_Some; congruence).
    destruct (A5 k Hk eq_refl) as (B1 & B2 & B3).
    assert (s = nth k items []) as -> by (symmetry; now apply nth_error_nth).
    unfold index. rewrite slot_ok. cbn [rbind]. fold (h 0 k). rewrite GM by apply h_lt. cbn [of_opt rbind].
    revert B1 B2 B3. unfold target. destruct (2 ^ 63 <=? nth (h 0 k) (G (tab st)) 0)%N; intros B1 B2 B3.
    + rewrite IM by assumption. cbn [of_opt]. now rewrite B3.
    + rewrite slot_ok. cbn [rbind]. fold (h (nth (h 0 k) (G (tab st)) 0%N) k). rewrite IM by assumption. cbn [of_opt]. now rewrite B3.
  - intros s. unfold index. rewrite slot_ok. cbn [rbind].
    rewrite GM by apply slot_lt. cbn [of_opt rbind].
    destruct (AG (N.to_nat (hash 0 s mod N.of_nat n))) as [L|L].
    + destruct (N.leb_spec (2 ^ 63) (nth (N.to_nat (hash 0 s mod N.of_nat n)) (G (tab st)) 0%N)); [lia|].
      rewrite slot_ok. cbn [rbind]. rewrite IM by apply slot_lt. eexists; split; [reflexivity|apply A4].
    + destruct (2 ^ 63 <=? nth (N.to_nat (hash 0 s mod N.of_nat n)) (G (tab st)) 0)%N.
      * rewrite IM by assumption. eexists; split; [reflexivity|apply A4].
      * rewrite slot_ok. cbn [rbind]. rewrite IM by apply slot_lt. eexists; split; [reflexivity|apply A4].
Qed.
End Table.
