(** Undefined behaviour of the readers comes from late dates and references that went astray. *)
From Coq Require Import List Arith ZArith NArith Ascii String Bool Lia Relations.
From Verif Require GraphProof.
From Verif Require Import Base Float NumericModel Base64Model Base64Decode DatetimeModel DatetimeSpec DatetimeProof EnumModel RefsModel
  HashModel HashProof DispatchModel Json Events PathModel Types SerializeModel DeserializeModel DenoteSpec DenoteProof DenoteFacts
  SchemaGenSpec SameProof MemberFacts ParseModel ParseRead ParseSpec ParseProof ParseFacts MergeSpec MergeProof FragmentSpec FragmentProof SafetySpec.
Import ListNotations.

(** * Leaves *)

Lemma undefined_time : forall e s, parse_datetime (tick e) (text s) = None -> late_time e s.
Proof.
  intros e s H. destruct (parse_datetime_inv (tick e) (text s) ltac:(congruence)) as (sep & y & m & d & hh & mi & ss & W).
  rewrite (parse_datetime_wf _ _ _ _ _ _ _ _ _ W) in H.
  destruct (make_datetime (tick e) y m d hh mi ss) as [t|] eqn:E; [discriminate|]. destruct W as (Hs & Hy & Hd & HT & Ht).
  exists sep, y, m, d, hh, mi, ss, (utc_to_posix y m d hh mi ss). repeat (split; [solve [auto|apply instant_iff; auto]|]).
  intros R. rewrite (proj2 (make_some _ _ _ _ _ _ _ _) (conj eq_refl R)) in E. discriminate.
Qed.

Lemma undefined_date : forall e s, parse_date (tick e) (text s) = None -> late_date e s.
Proof.
  intros e s H. destruct (parse_date_inv (tick e) (text s) ltac:(congruence)) as (y & m & d & W).
  rewrite (parse_date_wf _ _ _ _ _ W) in H.
  destruct (make_datetime (tick e) y m d 0 0 0) as [t|] eqn:E; [discriminate|]. destruct W as (Hy & Hd & Ht).
  assert (T : time_ok 0 0 0) by (unfold time_ok; lia).
  exists y, m, d, (utc_to_posix y m d 0 0 0). repeat (split; [solve [auto|apply instant_iff; auto]|]).
  intros R. rewrite (proj2 (make_some _ _ _ _ _ _ _ _) (conj eq_refl R)) in E. discriminate.
Qed.

Lemma late_time_undefined : forall e s, late_time e s -> parse_datetime (tick e) (text s) = None.
Proof.
  intros e s (sep & y & m & d & hh & mi & ss & sec & Hs & Hy & -> & I & O). apply instant_iff in I. destruct I as (Hd & HT & ->).
  rewrite (parse_datetime_wf (tick e) _ sep y m d hh mi ss) by (unfold wf_datetime; auto).
  destruct (make_datetime (tick e) y m d hh mi ss) as [t|] eqn:E; [|reflexivity]. apply make_some in E as [-> E]. contradiction.
Qed.

Lemma late_date_undefined : forall e s, late_date e s -> parse_date (tick e) (text s) = None.
Proof.
  intros e s (y & m & d & sec & Hy & -> & I & O). apply instant_iff in I. destruct I as (Hd & HT & ->).
  rewrite (parse_date_wf (tick e) _ y m d) by (unfold wf_date; auto).
  destruct (make_datetime (tick e) y m d 0 0 0) as [t|] eqn:E; [|reflexivity]. apply make_some in E as [-> E]. contradiction.
Qed.

Lemma on_clock : forall e y m d hh mi ss sec, roomy_clock e -> year_ok y -> instant y m d hh mi ss sec -> ~ off_clock e sec.
Proof.
  intros e y m d hh mi ss sec [P L] Y I O. apply O. apply (year_range _ _ _ _ _ _ _ I) in Y. unfold first_second, last_second in Y.
  split; nia.
Qed.

Lemma roomy_not_late : forall e t j, roomy_clock e -> ~ late e t j.
Proof.
  intros e t j C (s & _ & [[_ (sep & y & m & d & hh & mi & ss & sec & _ & Y & _ & I & O)]|[_ (y & m & d & sec & Y & _ & I & O)]]);
  exact (on_clock e _ _ _ _ _ _ _ C Y I O).
Qed.

Lemma inside_trans : forall a b c, inside a b -> inside b c -> inside a c.
Proof.
  intros a b c H K. induction K; auto; [eapply inside_element|eapply inside_member]; eauto.
Qed.

Lemma find_in : forall l k x, find_member l k = Some x -> In (k, x) l.
Proof. intros l k x H. now apply find_member_In. Qed.

(** * Deserialization *)
Section Deserialize.
Variable e : env.
Variable T : ty.
Variable root : json.

Definition known (st : dstate) : Prop := Forall (fun p => reachable e (TShared (o_type (snd p))) T) (objects st).

Definition uncompiled : Prop := exists u, reachable e (TPtr u) T.

Definition safe (r : dres) : Prop :=
  match r with
  | DRet _ st _ => known st
  | DThrow _ _ => True
  | DUndef => late e T root \/ astray e T root
  | DOutside => uncompiled
  end.

Definition safer (f : reader) : Prop := forall old ctx loc st, known st -> safe (f old ctx loc st).

Lemma safe_reject : forall exc why old ctx st, known st -> safe (reject exc why old ctx st).
Proof. intros [|] why old ctx st K; cbn; auto. Qed.

Lemma items_safe : forall init add fs, Forall safer fs -> forall k acc ctx loc st, known st -> safe (read_items init add fs k acc ctx loc st).
Proof.
  intros init add fs F. induction F as [|f fs A F IH]; intros k acc ctx loc st K; cbn; [exact K|].
  specialize (A init (at_index ctx (N.of_nat k)) (loc ++ [k]) st K).
  destruct (f init _ _ st) as [[|] s x|why p| |]; cbn in *; auto.
Qed.

Lemma entries_safe : forall init fs, Forall (fun p : string * reader => safer (snd p)) fs -> forall k acc ctx loc st, known st ->
  safe (read_entries init fs k acc ctx loc st).
Proof.
  intros init fs F. induction F as [|[n f] fs A F IH]; intros k acc ctx loc st K; cbn; [exact K|].
  specialize (A init (at_name ctx n) (loc ++ [k]) st K). cbn in A.
  destruct (f init _ _ st) as [[|] s x|why p| |]; cbn in *; auto.
Qed.

Definition safe_parts (x : bool * list val * option dres * dstate) : Prop :=
  match x with (_, _, Some r, _) => safe r | (_, _, None, st) => known st end.

Lemma tuple_safe : forall fs, Forall safer fs -> forall k olds ctx loc st, known st -> safe_parts (read_tuple fs k olds ctx loc st).
Proof.
  intros fs F. induction F as [|f fs A F IH]; intros k olds ctx loc st K; [exact K|]. cbn [read_tuple].
  specialize (A (hd VIndet olds) (at_index ctx (N.of_nat k)) (loc ++ [k]) st K).
  destruct (f _ _ _ st) as [[|] s x|why p| |]; cbn in *; auto.
  specialize (IH (S k) (tl olds) ctx loc s A). destruct (read_tuple fs (S k) (tl olds) ctx loc s) as [[[b l] [r|]] s']; auto.
Qed.

Lemma finish_tuple_safe : forall x, safe_parts x -> safe (finish_tuple x).
Proof. intros [[[b l] [r|]] s] H; cbn in *; auto. Qed.

Lemma finish_object_safe : forall x, safe_parts x -> safe (finish_object x).
Proof. intros [[[b l] [r|]] s] H; cbn in *; auto. Qed.

Lemma members_safe : forall exc fs ms,
  (forall m k f, In m ms -> find_fun fs 0 (m_name m) = Some (k, f) -> safer (f exc (m_ty m))) ->
  forall r seen flag olds ctx loc st, known st -> safe_parts (read_members e exc fs ms r seen flag olds ctx loc st).
Proof.
  intros exc fs ms. induction ms as [|m ms IH]; intros F r seen flag olds ctx loc st K; [exact K|]. cbn [read_members].
  assert (A : safe (read_member e exc fs m flag (hd VIndet olds) ctx loc st)).
  { unfold read_member. pose proof (F m) as Fm. destruct (find_fun fs 0 (m_name m)) as [[k f]|].
    - specialize (Fm k f (or_introl eq_refl) eq_refl).
      destruct (m_kind m); [now apply Fm|now apply Fm|]. specialize (Fm (dinit e (m_ty m)) (at_name ctx (m_name m)) (loc ++ [k]) st K).
      destruct (f exc (m_ty m) _ _ _ st); auto.
    - destruct (m_kind m); cbn; auto. destruct exc; cbn; auto. }
  destruct (read_member e exc fs m flag (hd VIndet olds) ctx loc st) as [ok s x|why p| |]; auto. cbn in A.
  assert (B : safe_parts match r with
     | 0 => read_members e exc fs ms 0 seen ok (tl olds) ctx loc s
     | S r0 => read_members e exc fs ms r0 ok ok (tl olds) ctx loc s
     end) by (destruct r; apply IH; auto; intros; eapply F; eauto; now right).
  revert B. destruct (match r with 0 => _ | S r0 => _ end) as [[[b l] [r1|]] s']; auto.
Qed.

Lemma ref_get_in : forall A (eqb : A -> A -> bool) B (l : list (A * B)) k x, ref_get eqb l k = Some x -> exists k', In (k', x) l.
Proof.
  intros A eqb B l k x. induction l as [|[k' y] l IH]; cbn; [discriminate|].
  destruct (eqb k' k); intros H; [injection H as ->; eauto|]. destruct (IH H) as [k2 I]. eauto.
Qed.

Lemma ref_safe : forall u l x old st, reachable e (TShared u) T -> inside (JObj l) root -> find_member l "$ref" = Some x -> known st ->
  safe (read_ref root u x old st).
Proof.
  intros u l x old st R I F K. unfold read_ref.
  assert (B : ~ good_target x -> safe DUndef) by (intros G; right; split; eauto 8).
  destruct x; try (apply B; intros (s' & ns & E & _); discriminate).
  destruct (parse_reference _) as [tokens|] eqn:E.
  2: { apply B. intros (s' & ns & Es & P). injection Es as <-. apply parse_reference_malformed in E. apply E. now exists ns. }
  destruct (pointer_get root tokens) as [[place y]|]; [|exact K].
  destruct (ref_get place_eqb (objects st) place) as [o|] eqn:G; [|exact K].
  destruct (ty_eqb (o_type o) u) eqn:Q; [exact K|]. right. split; [eauto|]. exists l, (JStr s). repeat (split; [assumption|]). right.
  apply ref_get_in in G. destruct G as [k' G]. unfold known in K. rewrite Forall_forall in K. specialize (K _ G). cbn in K.
  exists (o_type o), u. split; [|auto]. intros N. rewrite N in Q. rewrite GraphProof.ty_eqb_refl in Q. discriminate.
Qed.

Lemma part_reachable : forall u t, SchemaGenSpec.within e u t -> reachable e t T -> reachable e u T.
Proof. intros u t W R. eapply rt_trans; [apply rt_step, W|exact R]. Qed.

Lemma element_inside : forall x l, In x l -> inside (JArr l) root -> inside x root.
Proof. intros x l I K. eapply inside_trans; [|exact K]. eapply inside_element; [exact I|constructor]. Qed.

Lemma member_inside : forall k x l, In (k, x) l -> inside (JObj l) root -> inside x root.
Proof. intros k x l I K. eapply inside_trans; [|exact K]. eapply inside_member; [exact I|constructor]. Qed.

Lemma deser_safe : forall j, inside j root -> forall t, reachable e t T -> forall exc, safer (deser e root j exc t).
Proof.
  assert (V : forall j ts, Forall (fun t => forall exc, safer (deser e root j exc t)) ts -> forall exc, safer (deser e root j exc (TVariant ts))).
  { intros j ts F exc old ctx loc st K. rewrite deser_unfold. cbn [deser_step].
    assert (X : forall i st, known st -> match read_variant (map (fun u => (dinit e u, deser e root j false u)) ts) i ctx loc st with
      | (None, Some r, _) => safe r | (_, _, st) => known st end).
    { induction F as [|t ts A F IH]; intros i s Ks; [exact Ks|]. cbn. specialize (A false (dinit e t) ctx loc s Ks).
      destruct (deser e root j false t (dinit e t) ctx loc s) as [[|] s' x|why p| |]; try exact A. now apply IH. }
    specialize (X 0 st K). destruct (read_variant _ 0 ctx loc st) as [[[[i x]|] [r|]] s]; auto. now apply safe_reject. }
  assert (Q : forall j t, (forall exc, safer (deser e root j exc t)) -> forall exc, safer (deser e root j exc (TUnique t))).
  { intros j t F exc old ctx loc st K. rewrite deser_unfold. cbn [deser_step]. specialize (F exc (vinit e t) ctx loc st K).
    destruct (deser e root j exc t _ ctx loc st) as [[|] s' x|why p| |]; cbn in *; auto. }
  assert (Sh : forall j t, inside j root -> reachable e (TShared t) T -> (forall exc, safer (deser e root j exc t)) ->
    forall exc, safer (deser e root j exc (TShared t))).
  { intros j t J R F exc old ctx loc st K. rewrite deser_unfold. cbn [deser_step].
    assert (N : safe (register_shared t loc (next_address st) (deser e root j exc t (vinit e t) ctx loc (new_address st)))).
    { specialize (F exc (vinit e t) ctx loc (new_address st) K). unfold register_shared.
      destruct (deser e root j exc t _ ctx loc _) as [[|] s' x|why p| |]; cbn in *; auto.
      unfold known in *. cbn. unfold ref_put. destruct (ref_get place_eqb (objects s') loc); auto.
      rewrite Forall_forall in *. intros p [<-|I] || intros p I; try (apply in_app_or in I; destruct I as [I|[<-|[]]]); cbn; auto. }
    destruct j; try exact N. destruct (find_member l "$ref") as [target|] eqn:E; [|exact N]. now apply (ref_safe t l). }
  assert (W1 : forall k t, (k = TVector \/ k = TSet \/ k = TUnique \/ k = TShared \/ (exists n, k = TArray n) \/ (exists o, k = TMap o)) ->
    reachable e (k t) T -> reachable e t T).
  { intros k t H R. apply (part_reachable t (k t)); [|exact R].
    destruct H as [-> | [-> | [-> | [-> | [[n ->] | [o ->]]]]]]; now left. }
  intros j. induction j as [|b|z|f|s|l IH|l IH] using json_ind'; intros J t; induction t using ty_ind'; intros R exc;
    try (apply V; match goal with H : Forall _ _ |- Forall _ ?us => match type of H with Forall _ us =>
           rewrite Forall_forall in H |- *; intros t I exc'; apply H; [exact I|]; exact (part_reachable t (TVariant us) I R) end end);
    try (apply Q; intros exc'; apply IHt; apply (W1 TUnique); auto 6; fail);
    try (apply Sh; [exact J|exact R|]; intros exc'; apply IHt; apply (W1 TShared); auto 6; fail);
    intros old ctx loc st K; rewrite deser_unfold; cbn [deser_step]; try (now apply safe_reject);
    try (exists t; exact R);
    try (cbn [read_scalar]; unfold read_int, read_float; cbn [number]; try (now apply safe_reject); try exact K; destruct exc; cbn; auto; fail);
    try (cbn [read_scalar]; unfold read_int, reject; destruct (is_kind (wide k) z), (check_range k (wide k) z), exc; cbn; auto; fail);
    try (cbn [read_scalar]; destruct (enum_from_string n s); [exact K|now apply safe_reject]);
    try (cbn [read_scalar]; destruct (decode_total (list_ascii_of_string s)) as (ok & out & ->); destruct ok; [exact K|now apply safe_reject]);
    try (cbn [read_scalar]; destruct (parse_datetime _ _) as [[z|]|] eqn:E; [exact K|now apply safe_reject|];
         left; exists s; split; [exact J|left; split; [exact R|now apply undefined_time]]);
    try (cbn [read_scalar]; destruct (parse_date _ _) as [[z|]|] eqn:E; [exact K|now apply safe_reject|];
         left; exists s; split; [exact J|right; split; [exact R|now apply undefined_date]]).
  - apply items_safe; [|exact K]. apply Forall_forall. intros f I. rewrite map_map in I. apply in_map_iff in I. destruct I as (j & <- & I).
    rewrite Forall_forall in IH. apply (IH _ I); [exact (element_inside _ _ I J)|]. apply (W1 TVector); auto.
  - destruct (negb _); [now apply safe_reject|]. unfold read_array.
    assert (X : safe (read_items (dinit e t) push_back (map (fun f => f exc t) (map (deser e root) l)) 0 [] ctx loc st)).
    { apply items_safe; [|exact K]. apply Forall_forall. intros f I. rewrite map_map in I. apply in_map_iff in I. destruct I as (j & <- & I).
      rewrite Forall_forall in IH. apply (IH _ I); [exact (element_inside _ _ I J)|]. apply (W1 (TArray n)); eauto 8. }
    destruct (read_items _ _ _ _ _ _ _ _) as [[|] s x|why p| |]; auto.
  - apply items_safe; [|exact K]. apply Forall_forall. intros f I. rewrite map_map in I. apply in_map_iff in I. destruct I as (j & <- & I).
    rewrite Forall_forall in IH. apply (IH _ I); [exact (element_inside _ _ I J)|]. apply (W1 TSet); auto.
  - destruct (apply_types _ [t1; t2]) as [fs|] eqn:E; [|now apply safe_reject]. apply finish_tuple_safe, tuple_safe; [|exact K].
    apply (apply_types_in _ _ _ _ _ E). intros f t I I'. rewrite map_map in I. apply in_map_iff in I. destruct I as (j & <- & I).
    rewrite Forall_forall in IH. apply (IH _ I); [exact (element_inside _ _ I J)|]. exact (part_reachable t (TPair t1 t2) I' R).
  - destruct (apply_types _ ts) as [fs|] eqn:E; [|now apply safe_reject]. apply finish_tuple_safe, tuple_safe; [|exact K].
    apply (apply_types_in _ _ _ _ _ E). intros f t I I'. rewrite map_map in I. apply in_map_iff in I. destruct I as (j & <- & I).
    rewrite Forall_forall in IH. apply (IH _ I); [exact (element_inside _ _ I J)|]. exact (part_reachable t (TTuple ts) I' R).
  - apply entries_safe; [|exact K]. apply Forall_forall. intros f I. rewrite map_map in I. apply in_map_iff in I. destruct I as ([k j] & <- & I). cbn.
    rewrite Forall_forall in IH. apply (IH _ I); [exact (member_inside _ _ _ I J)|]. apply (W1 (TMap o)); eauto 8.
  - apply finish_object_safe, members_safe; [|exact K]. intros m k f I E. rewrite find_fun_map in E.
    destruct (find_member l (m_name m)) as [j|] eqn:F; [|discriminate]. destruct (find_index l (m_name m)); [|discriminate].
    injection E as <- <-. apply find_in in F. rewrite Forall_forall in IH. apply (IH _ F); [exact (member_inside _ _ _ F J)|].
    apply (part_reachable (m_ty m) (TClass c)); [|exact R]. cbn. now apply in_map.
Qed.
End Deserialize.

Lemma deserialize_safe : forall e t j obj,
  match deserialize e t j obj with
  | DUndef => late e t j \/ astray e t j
  | DOutside => uncompiled e t
  | _ => True
  end.
Proof.
  intros e t j obj. assert (K : known e t start) by constructor.
  pose proof (deser_safe e t j j (inside_here j) t (rt_refl _ _ _) false obj [] [] start K) as H. fold (deserialize e t j obj) in H.
  destruct (deserialize e t j obj); cbn in H; auto.
Qed.

Lemma throwing_safe : forall e t j,
  match deserialize_throw e t j with
  | TUndef => late e t j \/ astray e t j
  | TOutside => uncompiled e t
  | _ => True
  end.
Proof.
  intros e t j. assert (K : known e t start) by constructor. unfold deserialize_throw.
  pose proof (deser_safe e t j j (inside_here j) t (rt_refl _ _ _) true (dinit e t) [] [] start K) as H.
  destruct (deser e j j true t (dinit e t) [] [] start); cbn in H; auto.
Qed.

(** * Parsing *)
Section Parse.
Variable e : env.
Variable fuel : nat.
Variable fits : capacity.
Variable T : ty.
Variable root : json.
Hypothesis route : routed e fuel.
Hypothesis people : peopled e T.

Definition unparsed : Prop := (exists u, reachable e (TPtr u) T) \/ exists ts, reachable e (TVariant ts) T.

Definition fine (x : rres) : Prop :=
  match x with
  | RUndef => late e T root
  | ROutside => unparsed
  | _ => True
  end.

(** Handlers exist for the types behind pointers. *)
Definition finer (f : rdr) : Prop := forall below t old a, reachable e t T ->
  match t with TUnique _ | TShared _ => True | _ => fine (f below t old a) end.

Lemma rmap_fine : forall w x, fine x -> fine (rmap w x).
Proof. intros w x H. destruct x; auto. Qed.

Lemma boxed_fine : forall t old a (k : val -> nat -> rres), (forall old a, fine (k old a)) -> fine (boxed e t old a k).
Proof. intros t. induction t; intros old a g H; cbn [boxed]; auto; apply rmap_fine; auto. Qed.

Lemma core_reachable : forall t, reachable e t T -> reachable e (core t) T.
Proof.
  intros t. induction t; intros R; cbn [core]; auto; apply IHt; (eapply rt_trans; [apply rt_step|exact R]); now left.
Qed.

Lemma core_idle : forall t, match core t with TUnique _ | TShared _ => False | _ => True end.
Proof. intros t. induction t; cbn; auto. Qed.

Lemma ropen_fine : forall f below t old a, finer f -> reachable e t T -> fine (ropen e fits below t f old a).
Proof.
  intros f below t old a F R. unfold ropen, compiles. pose proof (core_reachable t R) as C. pose proof (core_idle t) as N.
  assert (X : forall old a, fine (f below (core t) old a)).
  { intros old' a'. specialize (F below (core t) old' a' C). destruct (core t); auto; destruct N. }
  assert (Y : fine (if fits below (size_of (KValue (core t))) then boxed e t old a (f below (core t)) else ROver)).
  { destruct (fits _ _); [|exact I]. apply boxed_fine. exact X. }
  destruct (core t) eqn:E; auto; [right; now exists ts|left; now exists t0].
Qed.

Lemma andthen_fine : forall x k, fine x -> (forall v a, fine (k v a)) -> fine (andthen x k).
Proof. intros x k H K. destruct x; cbn; auto. Qed.

Lemma ritems_fine : forall u below fs, reachable e u T -> Forall (fun p => finer (snd p)) fs -> forall acc a, fine (ritems e fits u below fs acc a).
Proof.
  intros u below fs R F. induction F as [|[ev f] fs A F IH]; intros acc a; cbn; [exact I|]. destruct (is_json_type u ev); [|exact I].
  apply andthen_fine; [now apply ropen_fine|auto].
Qed.

Lemma rfast_fine : forall u add evs acc a, fine (rfast e u add evs acc a).
Proof. intros u add evs. induction evs as [|ev evs IH]; intros acc a; cbn; [exact I|]. destruct (scalar e u ev); cbn; auto. Qed.

Lemma rfixed_fine : forall fs, Forall (fun p => finer (snd p)) fs -> forall i ts below vs a, Forall (fun t => reachable e t T) ts ->
  fine (rfixed e fits i ts below fs vs a).
Proof.
  intros fs F. induction F as [|[ev f] fs A F IH]; intros i ts below vs a R; destruct ts as [|t ts]; cbn; try exact I.
  destruct (fits _ _); [|exact I]. inversion_clear R. apply andthen_fine; [now apply ropen_fine|]. intros v a'. now apply IH.
Qed.

Lemma rentries_fine : forall u below fs, reachable e u T -> Forall (fun p => finer (snd p)) fs -> forall acc a, fine (rentries e fits u below fs acc a).
Proof.
  intros u below fs R F. induction F as [|[k f] fs A F IH]; intros acc a; cbn; [exact I|].
  apply andthen_fine; [now apply ropen_fine|auto].
Qed.

Lemma dispatch_defined : forall c k, reachable e (TClass c) T ->
  match dispatch fuel (map (fun m => list_ascii_of_string (m_name m)) (c_members (class_of e c))) (list_ascii_of_string k) with
  | Ok (Some i) => exists m, nth_error (c_members (class_of e c)) i = Some m
  | Ok None => True
  | _ => False
  end.
Proof.
  intros c k R. destruct route as [Hf Hc]. destruct (Hc c) as (Hd & Hl & Hb).
  assert (Hn : names_of (c_members (class_of e c)) <> []).
  { specialize (people c R). destruct (c_members (class_of e c)); [congruence|discriminate]. }
  destruct (dispatch_total fuel (names_of (c_members (class_of e c))) (list_ascii_of_string k) Hn) as [r E]; auto.
  - unfold names_of. now rewrite map_length.
  - unfold names_of. now rewrite map_length.
  - unfold names_of in E. rewrite E. destruct r as [i|]; [|exact I]. destruct (dispatch_some e fuel route c k i E) as (m & M & _). eauto.
Qed.

Lemma rmember_fine : forall f below m old a, finer f -> reachable e (m_ty m) T -> fine (rmember e fits below m f old a).
Proof. intros f below m old a F R. unfold rmember. destruct (m_kind m); [|now apply ropen_fine..|apply rmap_fine]; now apply ropen_fine. Qed.

Lemma rmembers_fine : forall c below fs, reachable e (TClass c) T -> Forall (fun p => finer (snd p)) fs -> forall vs a,
  fine (rmembers e fuel fits (c_members (class_of e c)) below fs vs a).
Proof.
  intros c below fs R F. induction F as [|[k f] fs A F IH]; intros vs a; cbn; [exact I|].
  pose proof (dispatch_defined c k R) as D. destruct (dispatch _ _ _) as [[i|]| |]; try contradiction; [|exact I].
  destruct D as [m M]. rewrite M. apply andthen_fine; [apply rmember_fine; [exact A|]|auto].
  eapply rt_trans; [apply rt_step|exact R]. cbn. apply in_map. eapply nth_error_In; eauto.
Qed.

Lemma replaced_fine : forall below k x, fine x -> fine (replaced fits below k x).
Proof. intros below k x H. unfold replaced. now destruct (fits _ _). Qed.

Lemma scalar_defined : forall t j, reachable e t T -> inside j root -> scalar e t (head j) = SUndefined -> late e T root.
Proof.
  intros t j R J H.
  assert (N : forall x, match number_event x with Some n => match assign_number t n with Some v => SAssign v | None => SReject end | None => SReject end <> SUndefined).
  { intros x. destruct (number_event x) as [n|]; [destruct (assign_number t n)|]; discriminate. }
  destruct t; cbn [scalar] in H; try discriminate H; try (now apply N in H); destruct j; cbn [head] in H; try discriminate H.
  - destruct (decode_total (list_ascii_of_string s)) as (ok & out & E). rewrite E in H. destruct ok; discriminate.
  - destruct (parse_datetime _ _) as [[z|]|] eqn:E; try discriminate. exists s. split; [exact J|]. left. split; [exact R|now apply undefined_time].
  - destruct (parse_date _ _) as [[z|]|] eqn:E; try discriminate. exists s. split; [exact J|]. right. split; [exact R|now apply undefined_date].
  - destruct (number_event (EInt z)) as [[V y|f]|]; try discriminate. destruct (assign_number (TInt k) (NInteger V y)); discriminate.
  - destruct (enum_from_string names s); discriminate.
Qed.

Lemma one_within : forall k t, (k = TVector \/ k = TSet \/ (exists n, k = TArray n) \/ (exists o, k = TMap o)) -> reachable e (k t) T -> reachable e t T.
Proof.
  intros k t H R. eapply rt_trans; [apply rt_step|exact R]. destruct H as [-> | [-> | [[n ->] | [o ->]]]]; now left.
Qed.

Lemma elems_fine : forall l, Forall (fun j => inside j root -> finer (pread e fuel fits j)) l -> inside (JArr l) root ->
  Forall (fun p => finer (snd p)) (map (fun x => (head x, pread e fuel fits x)) l).
Proof.
  intros l IH J. rewrite Forall_forall in *. intros p I. apply in_map_iff in I. destruct I as (x & <- & I). cbn.
  apply (IH _ I). exact (element_inside root _ _ I J).
Qed.

Lemma pread_fine : forall j, inside j root -> finer (pread e fuel fits j).
Proof.
  assert (Sc : forall j below t old a, inside j root -> reachable e t T -> ParseProof.scalar_type t = true -> fine (pread e fuel fits j below t old a)).
  { intros j below t old a J R Ht. rewrite pread_scalar by exact Ht. pose proof (scalar_defined t _ R J) as D.
    destruct (scalar e t (head j)); cbn in *; auto. }
  intros j. induction j as [|b|z|f|s|l IH|l IH] using json_ind'; intros J below t old a R;
    (destruct (ParseProof.scalar_type t) eqn:Ht;
     [pose proof (Sc _ below t old a J R Ht) as F; destruct t; auto
     |destruct t; try discriminate Ht; try exact I; try (right; now exists ts); try (left; now exists t)]).
  - cbn. apply replaced_fine. destruct (fast t); [apply rfast_fine|]. apply ritems_fine; [now apply (one_within TVector); auto|now apply elems_fine].
  - cbn -[rfixed]. apply replaced_fine, rfixed_fine; [now apply elems_fine|]. rewrite Forall_forall. intros u I. apply repeat_spec in I. subst u.
    apply (one_within (TArray n)); eauto.
  - cbn. destruct (fast t); apply replaced_fine; [apply rfast_fine|]. apply rmap_fine, ritems_fine; [now apply (one_within TSet); auto|now apply elems_fine].
  - cbn -[rfixed]. apply replaced_fine, rfixed_fine; [now apply elems_fine|]. rewrite Forall_forall. intros u I.
    eapply rt_trans; [apply rt_step|exact R]. exact I.
  - cbn -[rfixed]. apply replaced_fine, rfixed_fine; [now apply elems_fine|]. rewrite Forall_forall. intros u I.
    eapply rt_trans; [apply rt_step|exact R]. exact I.
  - cbn. apply replaced_fine, rentries_fine; [apply (one_within (TMap ordered)); eauto|]. rewrite Forall_forall in *. intros p I.
    apply in_map_iff in I. destruct I as ([k x] & <- & I). cbn. apply (IH _ I). exact (member_inside root _ _ _ I J).
  - cbn. apply replaced_fine, rmembers_fine; [exact R|]. rewrite Forall_forall in *. intros p I.
    apply in_map_iff in I. destruct I as ([k x] & <- & I). cbn. apply (IH _ I). exact (member_inside root _ _ _ I J).
Qed.
End Parse.

Lemma parse_safe : forall e fuel fits t j obj, routed e fuel -> peopled e t -> shaped_classes e -> shaped e t obj ->
  match parse_into e fuel fits t j obj with
  | ParseUndef => late e t j
  | ParseOutside => unparsed e t
  | _ => True
  end.
Proof.
  intros e fuel fits t j obj Ro Pe Sc Sh. pose proof (parse_into_spec e fuel fits t j obj Sc Sh) as H.
  pose proof (ropen_fine e fits t j (pread e fuel fits j) [] t obj 0 (pread_fine e fuel fits t j Ro Pe j (inside_here j)) (rt_refl _ _ _)) as F.
  destruct (ropen e fits [] t (pread e fuel fits j) obj 0) as [v a|v a| | | |]; try (rewrite H; exact F); try (rewrite H; exact I).
  destruct H as [w ->]. exact I.
Qed.
