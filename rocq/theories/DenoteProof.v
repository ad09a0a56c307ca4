(** The deserializer accepts exactly the documents that denote a value. *)
From Coq Require Import List Arith ZArith NArith Ascii String Bool Lia.
From Verif Require Import Base Float NumericModel NumericSpec NumericProof Base64Model Base64Spec Base64Decode DatetimeModel DatetimeSpec
  DatetimeProof EnumModel RefsModel Json PathModel Types SerializeModel DeserializeModel DenoteSpec.
Import ListNotations.

(** One unfolding of the deserializer. *)
Definition deser_step (e : env) (root : json) (j : json) (exc : bool) (t : ty) : reader := fun old ctx loc st =>
  let elems := match j with JArr l => map (deser e root) l | _ => [] end in
  let mems := match j with JObj l => map (fun p => (fst p, deser e root (snd p))) l | _ => [] end in
  match t with
  | TVector u =>
    match j with
    | JArr _ => read_items (dinit e u) push_back (map (fun f => f exc u) elems) 0 [] ctx loc st
    | _ => reject exc (WrongType "array") old ctx st
    end
  | TSet u =>
    match j with
    | JArr _ => read_items (dinit e u) (set_insert (less e u)) (map (fun f => f exc u) elems) 0 [] ctx loc st
    | _ => reject exc (WrongType "array") old ctx st
    end
  | TArray n u =>
    match j with
    | JArr l =>
      if negb (Nat.eqb (List.length l) n) then reject exc (WrongSize n (List.length l)) old ctx st
      else read_array (dinit e u) old (map (fun f => f exc u) elems) ctx loc st
    | _ => reject exc (WrongType "array") old ctx st
    end
  | TMap _ u =>
    match j with
    | JObj _ => read_entries (dinit e u) (map (fun p => (fst p, snd p exc u)) mems) 0 [] ctx loc st
    | _ => reject exc (WrongType "object") old ctx st
    end
  | TPair a b =>
    match j with
    | JArr l =>
      match apply_types (map (fun f => f exc) elems) [a; b] with
      | None => reject exc (WrongSize 2 (List.length l)) old ctx st
      | Some fs => finish_tuple (read_tuple fs 0 (parts_of old) ctx loc st)
      end
    | _ => reject exc (WrongType "array") old ctx st
    end
  | TTuple ts =>
    match j with
    | JArr l =>
      match apply_types (map (fun f => f exc) elems) ts with
      | None => reject exc (WrongSize (List.length ts) (List.length l)) old ctx st
      | Some fs => finish_tuple (read_tuple fs 0 (parts_of old) ctx loc st)
      end
    | _ => reject exc (WrongType "array") old ctx st
    end
  | TVariant ts =>
    match read_variant (map (fun u => (dinit e u, deser e root j false u)) ts) 0 ctx loc st with
    | (Some (i, x), _, st) => DRet true st (VVariant i x)
    | (None, Some r, _) => r
    | (None, None, st) => reject exc NoAlternative old ctx st
    end
  | TClass c =>
    match j with
    | JObj _ =>
      finish_object (read_members e exc mems (c_members (class_of e c)) (c_root (class_of e c)) true true
                       (parts_of old) ctx loc st)
    | _ => reject exc (WrongType "object") old ctx st
    end
  | TUnique u =>
    match deser e root j exc u (vinit e u) ctx loc st with
    | DRet true st x => DRet true st (VPtr x)
    | DRet false st _ => DRet false st old
    | r => r
    end
  | TShared u =>
    match (match j with JObj l => find_member l "$ref" | _ => None end) with
    | Some target => read_ref root u target old st
    | None => register_shared u loc (next_address st) (deser e root j exc u (vinit e u) ctx loc (new_address st))
    end
  | TPtr _ => DOutside
  | _ => read_scalar e exc t j old ctx loc st
  end.

Lemma deser_unfold : forall e root j exc t old ctx loc st,
  deser e root j exc t old ctx loc st = deser_step e root j exc t old ctx loc st.
Proof. intros e root j exc t old ctx loc st. destruct j, t; reflexivity. Qed.

(** Integers. *)
Lemma real_valid : forall k, existsb (Z.eqb (width k)) [8; 16; 32; 64]%Z = true -> valid_ity k.
Proof.
  intros k H. unfold valid_ity. apply existsb_exists in H. destruct H as (w & I & E). apply Z.eqb_eq in E. now subst.
Qed.

Lemma wide_valid : forall k, valid_ity (wide k).
Proof. intros k. unfold wide. destruct (is_signed k), (width k =? 64)%Z; vm_compute; tauto. Qed.

Lemma in_range_iff : forall k z, in_range k z <-> (tmin k <= z <= tmax k)%Z.
Proof. intros k z. unfold in_range, tmin, tmax. destruct (is_signed k); lia. Qed.

Lemma wide_wider : forall k, valid_ity k -> is_signed (wide k) = is_signed k /\
  (tmin (wide k) <= tmin k /\ tmax k <= tmax (wide k))%Z.
Proof.
  intros [w s] V. unfold valid_ity, int_widths in V. cbn in V.
  destruct V as [<-|[<-|[<-|[<-|[]]]]]; destruct s; vm_compute; repeat split; discriminate.
Qed.

Lemma read_int_exact : forall exc k z old ctx loc st, existsb (Z.eqb (width k)) [8; 16; 32; 64]%Z = true ->
  (in_range k z -> read_int exc k (JInt z) old ctx loc st = DRet true st (VInt z)) /\
  (~ in_range k z -> exists why, read_int exc k (JInt z) old ctx loc st = reject exc why old ctx st).
Proof.
  intros exc k z old ctx loc st W. apply real_valid in W. unfold read_int, is_kind.
  destruct (wide_wider k W) as [S [L U]].
  destruct (Z.leb (tmin (wide k)) z && Z.leb z (tmax (wide k)))%Z eqn:E.
  - assert (RW : in_range (wide k) z) by (apply in_range_iff; lia).
    destruct (tmax_range k W) as [RM [Rm _]].
    unfold check_range. rewrite (clt_safe (wide k) k) by (auto using wide_valid).
    rewrite (clt_safe k (wide k)) by (auto using wide_valid).
    assert (C : (if is_signed k then negb ((z <? tmin k) || (tmax k <? z)) else negb (tmax k <? z))%Z = ((tmin k <=? z) && (z <=? tmax k))%Z).
    { destruct (is_signed k) eqn:Sk; [lia|]. replace (tmin (wide k)) with (tmin k) in E; [lia|].
      unfold tmin. rewrite Sk, S. reflexivity. }
    rewrite C. rewrite in_range_iff. split; intros R.
    + replace ((tmin k <=? z) && (z <=? tmax k))%Z with true by lia. rewrite wrap_id; auto using width_pos.
      now apply in_range_iff.
    + replace ((tmin k <=? z) && (z <=? tmax k))%Z with false by lia. eauto.
  - rewrite in_range_iff. split; intros R; [exfalso; lia|eauto].
Qed.

(** Readers and the relation they compute: [R old v]. *)
Definition rcomplete (R : val -> val -> Prop) (f : reader) : Prop :=
  forall old ctx loc st v, R old v -> f old ctx loc st = DRet true st v.

Definition rgood (exc : bool) (st : dstate) (R : val -> Prop) (r : dres) : Prop :=
  match r with
  | DRet true st' v => st' = st /\ R v
  | DRet false st' _ => st' = st /\ exc = false
  | DThrow _ _ => exc = true
  | DUndef => True
  | DOutside => False
  end.

Definition rsound (exc : bool) (R : val -> val -> Prop) (f : reader) : Prop :=
  forall old ctx loc st, rgood exc st (R old) (f old ctx loc st).

Lemma rgood_reject : forall exc why old ctx st R, rgood exc st R (reject exc why old ctx st).
Proof. intros [|] why old ctx st R; cbn; auto. Qed.

Lemma rgood_weaken : forall exc st (P Q : val -> Prop) r, (forall v, P v -> Q v) -> rgood exc st P r -> rgood exc st Q r.
Proof. intros exc st P Q [[|] st' v|why p| |] H G; cbn in *; auto. destruct G; auto. Qed.

(** Elements. *)
Lemma items_complete : forall init add Rs fs vs, Forall2 (fun R f => rcomplete R f) Rs fs ->
  Forall2 (fun (R : val -> val -> Prop) v => R init v) Rs vs -> forall k acc ctx loc st,
  read_items init add fs k acc ctx loc st = DRet true st (VList (fold_left add vs acc)).
Proof.
  intros init add Rs fs vs F. revert vs. induction F as [|R f Rs fs Hf Hs IH]; intros vs V k acc ctx loc st; inversion V; subst; cbn.
  - reflexivity.
  - rewrite (Hf _ _ _ _ _ H1). apply IH. assumption.
Qed.

Lemma items_sound : forall exc init add Rs fs, Forall2 (fun R f => rsound exc R f) Rs fs ->
  forall k acc ctx loc st, rgood exc st (fun v => exists vs, Forall2 (fun (R : val -> val -> Prop) v => R init v) Rs vs /\
    v = VList (fold_left add vs acc)) (read_items init add fs k acc ctx loc st).
Proof.
  intros exc init add Rs fs F. induction F as [|R f Rs fs Hf Hs IH]; intros k acc ctx loc st; cbn.
  - split; [reflexivity|]. exists []. split; [constructor|reflexivity].
  - specialize (Hf init (at_index ctx (N.of_nat k)) (loc ++ [k]) st).
    destruct (f init _ _ st) as [[|] st' x|why p| |]; cbn in Hf |- *; auto.
    destruct Hf as [-> Hx]. eapply rgood_weaken; [|apply IH]. intros v (vs & V & ->).
    exists (x :: vs). split; [constructor; assumption|reflexivity].
Qed.

Lemma fold_push_back : forall vs acc, fold_left push_back vs acc = acc ++ vs.
Proof.
  intros vs. induction vs as [|v vs IH]; intros acc; cbn; [now rewrite app_nil_r|]. rewrite IH. unfold push_back.
  now rewrite <- app_assoc.
Qed.

(** Entries. *)
Lemma entries_complete : forall init Rs fs vs, Forall2 (fun R (p : string * reader) => rcomplete R (snd p)) Rs fs ->
  Forall2 (fun (R : val -> val -> Prop) v => R init v) Rs vs -> forall k acc ctx loc st,
  read_entries init fs k acc ctx loc st =
    DRet true st (VMap (fold_left (fun m p => map_assign m (fst p) (snd p)) (combine (map (fun p => c_string (fst p)) fs) vs) acc)).
Proof.
  intros init Rs fs vs F. revert vs. induction F as [|R [n f] Rs fs Hf Hs IH]; intros vs V k acc ctx loc st; inversion V; subst; cbn.
  - reflexivity.
  - cbn in Hf. rewrite (Hf _ _ _ _ _ H1). apply IH. assumption.
Qed.

Lemma entries_sound : forall exc init Rs fs, Forall2 (fun R (p : string * reader) => rsound exc R (snd p)) Rs fs ->
  forall k acc ctx loc st, rgood exc st (fun v => exists vs, Forall2 (fun (R : val -> val -> Prop) v => R init v) Rs vs /\
    v = VMap (fold_left (fun m p => map_assign m (fst p) (snd p)) (combine (map (fun p => c_string (fst p)) fs) vs) acc))
    (read_entries init fs k acc ctx loc st).
Proof.
  intros exc init Rs fs F. induction F as [|R [n f] Rs fs Hf Hs IH]; intros k acc ctx loc st; cbn.
  - split; [reflexivity|]. exists []. split; [constructor|reflexivity].
  - cbn in Hf. specialize (Hf init (at_name ctx n) (loc ++ [k]) st).
    destruct (f init _ _ st) as [[|] st' x|why p| |]; cbn in Hf |- *; auto.
    destruct Hf as [-> Hx]. eapply rgood_weaken; [|apply IH]. intros v (vs & V & ->).
    exists (x :: vs). split; [constructor; assumption|reflexivity].
Qed.

(** Tuples: readers of components. *)
Inductive tuple_rel : list (val -> val -> Prop) -> list val -> list val -> Prop :=
| tuple_nil olds : tuple_rel [] olds []
| tuple_cons (R : val -> val -> Prop) Rs olds v vs : R (hd VIndet olds) v -> tuple_rel Rs (tl olds) vs -> tuple_rel (R :: Rs) olds (v :: vs).

Lemma tuple_complete : forall Rs fs, Forall2 (fun R f => rcomplete R f) Rs fs -> forall olds vs, tuple_rel Rs olds vs ->
  forall k ctx loc st, read_tuple fs k olds ctx loc st = (true, vs, None, st).
Proof.
  intros Rs fs F. induction F as [|R f Rs fs Hf Hs IH]; intros olds vs V k ctx loc st; inversion V as [|R' Rs' olds' v vs' Rv Rvs]; subst; cbn.
  - reflexivity.
  - rewrite (Hf _ _ _ _ _ Rv). now rewrite (IH _ _ Rvs).
Qed.

(** Why reading stops for good. *)
Definition stopped (exc : bool) (r : dres) : Prop :=
  match r with
  | DThrow _ _ => exc = true
  | DUndef => True
  | _ => False
  end.

Lemma tuple_sound_parts : forall exc Rs fs, Forall2 (fun R f => rsound exc R f) Rs fs -> forall olds k ctx loc st,
  match read_tuple fs k olds ctx loc st with
  | (true, l, None, st') => st' = st /\ tuple_rel Rs olds l
  | (false, l, None, st') => st' = st /\ exc = false
  | (_, _, Some r, _) => stopped exc r
  end.
Proof.
  intros exc Rs fs F. induction F as [|R f Rs fs Hf Hs IH]; intros olds k ctx loc st; cbn.
  - split; [reflexivity|constructor].
  - specialize (Hf (hd VIndet olds) (at_index ctx (N.of_nat k)) (loc ++ [k]) st).
    destruct (f (hd VIndet olds) _ _ st) as [[|] st' x|why p| |]; cbn in Hf |- *; auto.
    destruct Hf as [-> Hx]. specialize (IH (tl olds) (S k) ctx loc st).
    destruct (read_tuple fs (S k) (tl olds) ctx loc st) as [[[[|] l] [r|]] st']; auto.
    destruct IH. split; [assumption|constructor; assumption].
Qed.

Lemma tuple_sound : forall exc Rs fs, Forall2 (fun R f => rsound exc R f) Rs fs -> forall olds k ctx loc st,
  rgood exc st (fun v => exists vs, tuple_rel Rs olds vs /\ v = VList vs) (finish_tuple (read_tuple fs k olds ctx loc st)).
Proof.
  intros exc Rs fs F olds k ctx loc st. pose proof (tuple_sound_parts exc Rs fs F olds k ctx loc st) as H.
  destruct (read_tuple fs k olds ctx loc st) as [[[[|] l] [r|]] st']; cbn; auto.
  - destruct r as [[|] ? ?| | |]; cbn in *; tauto.
  - destruct H. split; [assumption|eauto].
  - destruct r as [[|] ? ?| | |]; cbn in *; tauto.
Qed.

(** Members of a class. [Q name] is the relation of the document's member of that name. *)
Lemma find_fun_spec : forall A (g : json -> A) l k name,
  find_fun (map (fun p => (fst p, g (snd p))) l) k name =
    match find_index l name with
    | Some i => option_map (fun j => (k + i, g j)) (find_member l name)
    | None => None
    end.
Proof.
  intros A g l. induction l as [|[n j] l IH]; intros k name; cbn; [reflexivity|].
  destruct (String.eqb n name); [cbn; now rewrite Nat.add_0_r|]. rewrite IH.
  destruct (find_index l name); cbn; [|reflexivity]. destruct (find_member l name); cbn; [|reflexivity].
  do 2 f_equal. lia.
Qed.

Lemma find_index_member : forall l name, find_index l name = None <-> find_member l name = None.
Proof.
  intros l name. induction l as [|[n j] l IH]; cbn; [tauto|]. destruct (String.eqb n name); [split; discriminate|].
  rewrite <- IH. destruct (find_index l name); cbn; split; intros; congruence.
Qed.

Lemma find_fun_member : forall A (g : json -> A) l name,
  match find_fun (map (fun p => (fst p, g (snd p))) l) 0 name with
  | Some (_, f) => exists j, find_member l name = Some j /\ f = g j
  | None => find_member l name = None
  end.
Proof.
  intros A g l name. rewrite find_fun_spec. destruct (find_index l name) eqn:E.
  - destruct (find_member l name) eqn:F; cbn; [eauto|reflexivity].
  - now apply find_index_member.
Qed.

Lemma find_member_In : forall l name j, find_member l name = Some j -> In (name, j) l.
Proof.
  intros l. induction l as [|[n x] l IH]; intros name j H; cbn in H; [discriminate|].
  destruct (String.eqb_spec n name); [left; congruence|right; auto].
Qed.

Section Core.
Variable e : env.
Variable root : json.
Hypothesis real : real_classes e.
Hypothesis clock : (0 < tick e)%Z.

Definition complete_at (j : json) (t : ty) : Prop :=
  forall exc, rcomplete (fun old v => denotes e t old j v) (deser e root j exc t).

Definition sound_at (j : json) (t : ty) : Prop :=
  forall exc, exc = true \/ classless t = true -> rsound exc (fun old v => denotes e t old j v) (deser e root j exc t).

(** Results without the parts. *)
Lemma int_complete : forall exc k j z old ctx loc st, real_ints (TInt k) = true -> in_range k z -> j = JInt z ->
  read_int exc k j old ctx loc st = DRet true st (VInt z).
Proof. intros exc k j z old ctx loc st W R ->. apply read_int_exact; assumption. Qed.

Lemma int_sound : forall exc k j old ctx loc st, real_ints (TInt k) = true ->
  rgood exc st (fun v => exists z, j = JInt z /\ v = VInt z /\ in_range k z) (read_int exc k j old ctx loc st).
Proof.
  intros exc k j old ctx loc st W. destruct j; try apply rgood_reject. cbn in W.
  assert (D : in_range k z \/ ~ in_range k z).
  { unfold in_range. destruct (is_signed k); lia. }
  destruct D as [R|R].
  - rewrite (proj1 (read_int_exact exc k z old ctx loc st W) R). cbn. eauto 6.
  - destruct (proj2 (read_int_exact exc k z old ctx loc st W) R) as [why ->]. apply rgood_reject.
Qed.

Lemma ticks_day_exact : forall n, ticks_day e (n * 86400 * tick e) = n.
Proof. intros n. unfold ticks_day. rewrite <- Z.mul_assoc. apply Z.quot_mul. lia. Qed.

Lemma date_iff : forall s n, parse_date (tick e) (text s) = Some (Some (n * 86400 * tick e)%Z) <->
  exists y m d, year_ok y /\ text s = date_text y m d /\ cal y m d n /\ (- 2 ^ 63 <= n * 86400 * tick e < 2 ^ 63)%Z.
Proof.
  intros s n. rewrite parse_date_iff. split.
  - intros (y & m & d & sec & Y & T & I & E & B). exists y, m, d. destruct I as [_ (n' & C & ->)].
    assert (n' = n) by nia. subst. auto.
  - intros (y & m & d & Y & T & C & B). exists y, m, d, (n * 86400)%Z.
    split; [exact Y|]. split; [exact T|]. split; [|split; [reflexivity|exact B]].
    split; [unfold time_ok; lia|]. exists n. split; [exact C|lia].
Qed.

Lemma date_days : forall s z, parse_date (tick e) (text s) = Some (Some z) -> z = (ticks_day e z * 86400 * tick e)%Z.
Proof.
  intros s z H. apply parse_date_iff in H. destruct H as (y & m & d & sec & _ & _ & [_ (n & _ & ->)] & -> & _).
  replace ((n * 86400 + 0 * 3600 + 0 * 60 + 0) * tick e)%Z with (n * 86400 * tick e)%Z by ring.
  now rewrite ticks_day_exact.
Qed.

Lemma round64_of_Z : forall z, Float.round binary64 (Float.round binary64 (fl_of_Z z)) = Float.round binary64 (fl_of_Z z).
Proof.
  intros z. apply round_exact. apply round_in_format; [apply good64|].
  destruct z as [|p|p]; cbn; try exact I; destruct (strip p) eqn:S; apply strip_spec in S; tauto.
Qed.

Lemma scalar_complete : forall j t, real_ints t = true ->
  match t with TNull | TBool | TInt _ | TEnumInt _ | TEnumStr _ | TFloat | TDouble | TString | TBytes | TTime | TDate => True
  | _ => False end -> complete_at j t.
Proof.
  intros j t W K exc old ctx loc st v D. rewrite deser_unfold.
  destruct t; try contradiction; inversion D; subst; cbn [deser_step read_scalar]; try reflexivity.
  - apply int_complete; auto.
  - unfold read_float. cbn. now rewrite round64_of_Z.
  - destruct (decode_iff (list_ascii_of_string s) data) as [_ X]. unfold text in H.
    rewrite X by eauto. reflexivity.
  - replace (parse_datetime (tick e) (list_ascii_of_string s)) with (Some (Some (sec * tick e)%Z)); [reflexivity|].
    symmetry. apply parse_datetime_iff. exists sep, y, m, d, hh, mi, ss, sec. auto 8.
  - replace (parse_date (tick e) (list_ascii_of_string s)) with (Some (Some (n * 86400 * tick e)%Z)).
    + now rewrite ticks_day_exact.
    + symmetry. apply date_iff. exists y, m, d. auto.
  - now rewrite (int_complete exc k (JInt z) z).
  - match goal with H : enum_from_string _ _ = _ |- _ => now rewrite H end.
Qed.

Lemma scalar_sound : forall j t, real_ints t = true ->
  match t with TNull | TBool | TInt _ | TEnumInt _ | TEnumStr _ | TFloat | TDouble | TString | TBytes | TTime | TDate => True
  | _ => False end -> sound_at j t.
Proof.
  intros j t W K exc _ old ctx loc st. rewrite deser_unfold.
  destruct t; try contradiction; cbn [deser_step read_scalar].
  - destruct j; try apply rgood_reject. split; [reflexivity|constructor].
  - destruct j; try apply rgood_reject. split; [reflexivity|constructor].
  - eapply rgood_weaken; [|apply int_sound; exact W]. intros v (z & -> & -> & R). now constructor.
  - unfold read_float. destruct j; try apply rgood_reject; split; try reflexivity; constructor.
  - unfold read_float. destruct j; try apply rgood_reject; (split; [reflexivity|]); [|constructor].
    rewrite round64_of_Z. constructor.
  - destruct j; try apply rgood_reject. split; [reflexivity|constructor].
  - destruct j; try apply rgood_reject. destruct (base64_decode (list_ascii_of_string s)) as [[[|] b]|] eqn:B; [| |exact I].
    + split; [reflexivity|]. apply decode_iff in B. destruct B as [values B]. econstructor; exact B.
    + apply rgood_reject.
  - destruct j; try apply rgood_reject. destruct (parse_datetime (tick e) (list_ascii_of_string s)) as [[z|]|] eqn:B; [| |exact I].
    + split; [reflexivity|]. apply parse_datetime_iff in B.
      destruct B as (sep & y & m & d & hh & mi & ss & sec & S & Y & T & I & -> & B). econstructor; eassumption.
    + apply rgood_reject.
  - destruct j; try apply rgood_reject. destruct (parse_date (tick e) (list_ascii_of_string s)) as [[z|]|] eqn:B; [| |exact I].
    + split; [reflexivity|]. pose proof (date_days s z B) as E. rewrite E in B. apply date_iff in B.
      destruct B as (y & m & d & Y & T & C & B). econstructor; eassumption.
    + apply rgood_reject.
  - pose proof (int_sound exc k j VIndet ctx loc st W) as G.
    destruct (read_int exc k j VIndet ctx loc st) as [[|] st' v|why p| |]; cbn in *; auto.
    destruct G as [-> (z & -> & -> & R)]. split; [reflexivity|now constructor].
  - destruct j; try apply rgood_reject. destruct (enum_from_string names s) eqn:E; [|apply rgood_reject].
    split; [reflexivity|now constructor].
Qed.

(** Classes, if the type has any, are plain. *)
Definition pure (t : ty) : Prop := classless t = true \/ plain_classes e.
Definition pures (ts : list ty) : Prop := forallb classless ts = true \/ plain_classes e.

Definition fine (j : json) : Prop := forall t, plain t = true -> real_ints t = true -> pure t -> complete_at j t /\ sound_at j t.

Lemma member_complete : forall exc l m old v ctx loc st, Forall (fun p => fine (snd p)) l ->
  plain (m_ty m) = true -> real_ints (m_ty m) = true -> plain_classes e -> member_denotes (denotes e) e l m old v ->
  read_member e exc (map (fun p => (fst p, deser e root (snd p))) l) m true old ctx loc st = DRet true st v.
Proof.
  intros exc l m old v ctx loc st F P W Pc D. unfold read_member.
  pose proof (find_fun_member _ (deser e root) l (m_name m)) as X.
  destruct (find_fun _ 0 (m_name m)) as [[k f]|].
  - destruct X as (j & Fj & ->). assert (Q : fine j).
    { apply find_member_In in Fj. rewrite Forall_forall in F. exact (F _ Fj). }
    destruct (Q _ P W (or_intror Pc)) as [C _]. inversion D as [j' v' K F' Dv|K F'|j' v' K F' Dv|K F']; subst; try congruence;
      rewrite F' in Fj; injection Fj as ->.
    + rewrite (C exc _ _ _ _ _ Dv). destruct (m_kind m); congruence.
    + rewrite K, (C exc _ _ _ _ _ Dv). reflexivity.
  - inversion D as [j' v' K F' Dv|K F'|j' v' K F' Dv|K F']; subst; try congruence; rewrite K; reflexivity.
Qed.

Lemma member_sound : forall l m old ctx loc st, Forall (fun p => fine (snd p)) l ->
  plain (m_ty m) = true -> real_ints (m_ty m) = true -> plain_classes e ->
  rgood true st (fun v => member_denotes (denotes e) e l m old v)
    (read_member e true (map (fun p => (fst p, deser e root (snd p))) l) m true old ctx loc st).
Proof.
  intros l m old ctx loc st F P W Pc. unfold read_member.
  pose proof (find_fun_member _ (deser e root) l (m_name m)) as X.
  destruct (find_fun _ 0 (m_name m)) as [[k f]|].
  - destruct X as (j & Fj & ->). assert (Q : fine j).
    { pose proof Fj as I. apply find_member_In in I. rewrite Forall_forall in F. exact (F _ I). }
    destruct (Q _ P W (or_intror Pc)) as [_ S]. specialize (S true (or_introl eq_refl)).
    destruct (m_kind m) eqn:K.
    + eapply rgood_weaken; [|apply S]. intros v D. eapply member_plain; eauto. congruence.
    + eapply rgood_weaken; [|apply S]. intros v D. eapply member_plain; eauto. congruence.
    + specialize (S (dinit e (m_ty m)) (at_name ctx (m_name m)) (loc ++ [k]) st).
      destruct (deser e root j true (m_ty m) _ _ _ st) as [[|] st' v|why p| |]; cbn in *; auto.
      destruct S as [-> D]. split; [reflexivity|]. eapply member_some; eauto.
  - destruct (m_kind m) eqn:K; cbn; auto.
    + split; [reflexivity|]. now apply member_kept.
    + split; [reflexivity|]. now apply member_none.
Qed.

Lemma members_complete : forall exc l ms, Forall (fun p => fine (snd p)) l ->
  forallb (fun m => plain (m_ty m)) ms = true -> forallb (fun m => real_ints (m_ty m)) ms = true -> plain_classes e ->
  forall olds vs, members_denote (denotes e) e l ms olds vs -> forall r ctx loc st,
  read_members e exc (map (fun p => (fst p, deser e root (snd p))) l) ms r true true olds ctx loc st = (true, vs, None, st).
Proof.
  intros exc l ms F. induction ms as [|m ms IH]; intros P W Pc olds vs D r ctx loc st; inversion D as [|m' ms' olds' v vs' Dm Ds]; subst.
  - reflexivity.
  - cbn in P, W. apply andb_true_iff in P, W. destruct P as [Pm Ps], W as [Wm Ws]. cbn [read_members].
    rewrite (member_complete exc l m _ v ctx loc st F Pm Wm Pc Dm). destruct r; now rewrite (IH Ps Ws Pc _ _ Ds).
Qed.

Lemma members_sound : forall l ms, Forall (fun p => fine (snd p)) l ->
  forallb (fun m => plain (m_ty m)) ms = true -> forallb (fun m => real_ints (m_ty m)) ms = true -> plain_classes e ->
  forall olds r ctx loc st,
  match read_members e true (map (fun p => (fst p, deser e root (snd p))) l) ms r true true olds ctx loc st with
  | (b, vs, None, st') => b = true /\ st' = st /\ members_denote (denotes e) e l ms olds vs
  | (_, _, Some r, _) => stopped true r
  end.
Proof.
  intros l ms F. induction ms as [|m ms IH]; intros P W Pc olds r ctx loc st.
  - cbn. repeat split. constructor.
  - cbn in P, W. apply andb_true_iff in P, W. destruct P as [Pm Ps], W as [Wm Ws]. cbn [read_members].
    pose proof (member_sound l m (hd VIndet olds) ctx loc st F Pm Wm Pc) as M.
    destruct (read_member e true _ m true (hd VIndet olds) ctx loc st) as [[|] st' v|why p| |]; cbn in M; try (exact M || contradiction).
    + destruct M as [-> M]. specialize (IH Ps Ws Pc (tl olds)).
      assert (N : match match r with
         | 0 => read_members e true (map (fun p => (fst p, deser e root (snd p))) l) ms 0 true true (tl olds) ctx loc st
         | S r0 => read_members e true (map (fun p => (fst p, deser e root (snd p))) l) ms r0 true true (tl olds) ctx loc st
         end with
         | (b, vs, None, st') => b = true /\ st' = st /\ members_denote (denotes e) e l ms (tl olds) vs
         | (_, _, Some r, _) => stopped true r
         end) by (destruct r; apply IH).
      revert N. destruct (match r with 0 => _ | S r0 => _ end) as [[[b vs] [r'|]] st']; [auto|].
      intros (-> & -> & N). repeat split. constructor; assumption.
    + destruct M. discriminate.
Qed.

(** Components. *)
Lemma parts_tuple : forall exc js ts fs, Forall fine js -> forallb plain ts = true -> forallb real_ints ts = true -> pures ts ->
  apply_types (map (fun f => f exc) (map (deser e root) js)) ts = Some fs ->
  (forall olds vs, parts_denote (denotes e) ts olds js vs -> exists Rs, Forall2 (fun R f => rcomplete R f) Rs fs /\ tuple_rel Rs olds vs) /\
  (exc = true \/ forallb classless ts = true -> exists Rs, Forall2 (fun R f => rsound exc R f) Rs fs /\
     forall olds vs, tuple_rel Rs olds vs -> parts_denote (denotes e) ts olds js vs).
Proof.
  intros exc js. induction js as [|j js IH]; intros ts fs F P W Pu E; destruct ts as [|t ts]; try discriminate.
  - injection E as <-. split.
    + intros olds vs D. exists []. inversion D; subst. split; constructor.
    + intros _. exists []. split; [constructor|]. intros olds vs T. inversion T; subst. constructor.
  - cbn in E. destruct (apply_types (map (fun f => f exc) (map (deser e root) js)) ts) as [fs'|] eqn:E'; [|discriminate].
    injection E as <-. inversion F as [|? ? Fj Fs]; subst. cbn in P, W. apply andb_true_iff in P, W.
    destruct P as [Pt Pts], W as [Wt Wts]. destruct (Fj t Pt Wt) as [C S]; [unfold pures, pure in *; cbn in Pu; rewrite andb_true_iff in Pu; tauto|].
    destruct (IH ts fs' Fs Pts Wts) with (2 := E') as [IC IS]; [unfold pures in *; cbn in Pu; rewrite andb_true_iff in Pu; tauto|].
    split.
    + intros olds vs D. inversion D as [|? ? ? ? ? v vs' Dv Ds]; subst. destruct (IC _ _ Ds) as (Rs & A & B).
      exists ((fun old v => denotes e t old j v) :: Rs). split; constructor; auto.
    + intros K. cbn in K. rewrite andb_true_iff in K. destruct IS as (Rs & A & B); [tauto|].
      exists ((fun old v => denotes e t old j v) :: Rs). split; [constructor; [apply S; tauto|exact A]|].
      intros olds vs T. inversion T; subst. constructor; auto.
Qed.

Lemma apply_types_None : forall A (fs : list (ty -> A)) ts, apply_types fs ts = None <-> List.length fs <> List.length ts.
Proof.
  intros A fs. induction fs as [|f fs IH]; intros [|t ts]; cbn; split; intros H; try discriminate; try congruence; try lia.
  - destruct (apply_types fs ts) eqn:E; [discriminate|]. apply IH in E. lia.
  - destruct (apply_types fs ts) eqn:E; [|reflexivity]. exfalso. assert (X : apply_types fs ts <> None) by congruence.
    rewrite IH in X. lia.
Qed.

Lemma parts_length : forall ts olds js vs, parts_denote (denotes e) ts olds js vs -> List.length js = List.length ts.
Proof. intros ts olds js vs D. induction D; cbn; lia. Qed.

Lemma items_rel : forall exc js u, Forall fine js -> plain u = true -> real_ints u = true -> pure u ->
  Forall2 (fun R f => rcomplete R f) (map (fun j old v => denotes e u old j v) js) (map (fun f => f exc u) (map (deser e root) js)) /\
  (exc = true \/ classless u = true ->
   Forall2 (fun R f => rsound exc R f) (map (fun j old v => denotes e u old j v) js) (map (fun f => f exc u) (map (deser e root) js))).
Proof.
  intros exc js u F P W Pu. induction F as [|j js Fj Fs [IC IS]]; cbn; [split; [|intros _]; constructor|].
  destruct (Fj u P W Pu) as [C S]. split; [|intros K]; constructor; auto.
Qed.

Lemma Forall2_map_l : forall A B C (f : A -> B) (R : B -> C -> Prop) l m,
  Forall2 R (map f l) m <-> Forall2 (fun a c => R (f a) c) l m.
Proof.
  intros A B C f R l. induction l as [|a l IH]; intros m; cbn; split; intros H; inversion H; subst; constructor; auto; now apply IH.
Qed.

Lemma c_string_spec : forall s, c_string s = until_nul s.
Proof. intros s. induction s as [|c s IH]; cbn; [reflexivity|]. now rewrite IH. Qed.

Lemma unique_fine : forall j t, complete_at j t /\ sound_at j t -> complete_at j (TUnique t) /\ sound_at j (TUnique t).
Proof.
  intros j t [C S]. split.
  - intros exc old ctx loc st v D. rewrite deser_unfold. cbn [deser_step]. inversion D; subst.
    erewrite C by eassumption. reflexivity.
  - intros exc K old ctx loc st. rewrite deser_unfold. cbn [deser_step]. specialize (S exc K (vinit e t) ctx loc st).
    destruct (deser e root j exc t (vinit e t) ctx loc st) as [[|] st' v|why p| |]; cbn in *; auto.
    destruct S as [-> S]. split; [reflexivity|now constructor].
Qed.

Lemma fine_always : forall j, fine j.
Proof.
  induction j as [|b|z|f|s|l IH|l IH] using json_ind'; intros t; induction t using ty_ind'; intros P W Pu;
    try discriminate P;
    try (split; [apply scalar_complete; [exact W|exact I]|apply scalar_sound; [exact W|exact I]]; fail);
    try (apply unique_fine; apply IHt; assumption);
    (* wrong kinds *)
    try (split; [intros exc old ctx loc st v D; inversion D; fail
                |intros exc K old ctx loc st; rewrite deser_unfold; cbn [deser_step]; apply rgood_reject]; fail).
  - (* vector *)
    split.
    + intros exc old ctx loc st v D. rewrite deser_unfold. cbn [deser_step]. inversion D as [| | | | | | | | | | | | |t' old' js vs V E1 E2 E3 E4| | | | | | |]; subst.
      erewrite items_complete; [|apply (proj1 (items_rel exc l t IH P W Pu))|apply Forall2_map_l; exact V].
      now rewrite fold_push_back.
    + intros exc K old ctx loc st. rewrite deser_unfold. cbn [deser_step].
      eapply rgood_weaken; [|apply items_sound; apply (proj2 (items_rel exc l t IH P W Pu)); exact K].
      intros v (vs & V & ->). rewrite fold_push_back. cbn. constructor. now apply Forall2_map_l in V.
  - (* array *)
    split.
    + intros exc old ctx loc st v D. rewrite deser_unfold. cbn [deser_step]. inversion D as [| | | | | | | | | | | | | |t' old' js vs V E1 E2 E3 E4| | | | | |]; subst.
      rewrite Nat.eqb_refl. cbn [negb]. unfold read_array.
      erewrite items_complete; [|apply (proj1 (items_rel exc l t IH P W Pu))|apply Forall2_map_l; exact V].
      now rewrite fold_push_back.
    + intros exc K old ctx loc st. rewrite deser_unfold. cbn [deser_step].
      destruct (Nat.eqb_spec (List.length l) n) as [<-|N]; [cbn [negb]|apply rgood_reject]. unfold read_array.
      pose proof (items_sound exc (dinit e t) push_back _ _ (proj2 (items_rel exc l t IH P W Pu) K) 0 [] ctx loc st) as S.
      destruct (read_items _ _ _ _ _ _ _ _) as [[|] st' v|why p| |]; cbn in S |- *; auto.
      destruct S as [-> (vs & V & ->)]. split; [reflexivity|]. rewrite fold_push_back. cbn. constructor. now apply Forall2_map_l in V.
  - (* set *)
    split.
    + intros exc old ctx loc st v D. rewrite deser_unfold. cbn [deser_step]. inversion D as [| | | | | | | | | | | | | | |t' old' js vs V E1 E2 E3 E4| | | | |]; subst.
      erewrite items_complete; [|apply (proj1 (items_rel exc l t IH P W Pu))|apply Forall2_map_l; exact V]. reflexivity.
    + intros exc K old ctx loc st. rewrite deser_unfold. cbn [deser_step].
      eapply rgood_weaken; [|apply items_sound; apply (proj2 (items_rel exc l t IH P W Pu)); exact K].
      intros v (vs & V & ->). constructor. now apply Forall2_map_l in V.
  - (* pair *)
    assert (Pp : forallb plain [t1; t2] = true) by (cbn in P |- *; rewrite andb_true_r; exact P).
    assert (Wp : forallb real_ints [t1; t2] = true) by (cbn in W |- *; rewrite andb_true_r; exact W).
    assert (Pup : pures [t1; t2]) by (unfold pures, pure in *; cbn in Pu |- *; rewrite andb_true_r; exact Pu).
    split.
    + intros exc old ctx loc st v D. rewrite deser_unfold. cbn [deser_step].
      inversion D as [| | | | | | | | | | | | | | | | |a' b' old' js vs V E1 E2 E3 E4| | |]; subst.
      destruct (apply_types (map (fun f => f exc) (map (deser e root) l)) [t1; t2]) as [fs|] eqn:E.
      * destruct (proj1 (parts_tuple exc l _ fs IH Pp Wp Pup E) _ _ V) as (Rs & A & B).
        now rewrite (tuple_complete Rs fs A _ _ B).
      * apply apply_types_None in E. apply parts_length in V. rewrite !map_length in E. contradiction.
    + intros exc K old ctx loc st. rewrite deser_unfold. cbn [deser_step].
      destruct (apply_types (map (fun f => f exc) (map (deser e root) l)) [t1; t2]) as [fs|] eqn:E; [|apply rgood_reject].
      destruct (proj2 (parts_tuple exc l _ fs IH Pp Wp Pup E)) as (Rs & A & B).
      { cbn in K |- *. rewrite andb_true_r. exact K. }
      eapply rgood_weaken; [|apply tuple_sound; exact A]. intros v (vs & T & ->). constructor. now apply B.
  - (* tuple *)
    split.
    + intros exc old ctx loc st v D. rewrite deser_unfold. cbn [deser_step].
      inversion D as [| | | | | | | | | | | | | | | | | |ts' old' js vs V E1 E2 E3 E4| |]; subst.
      destruct (apply_types (map (fun f => f exc) (map (deser e root) l)) ts) as [fs|] eqn:E.
      * destruct (proj1 (parts_tuple exc l _ fs IH P W Pu E) _ _ V) as (Rs & A & B).
        now rewrite (tuple_complete Rs fs A _ _ B).
      * apply apply_types_None in E. apply parts_length in V. rewrite !map_length in E. contradiction.
    + intros exc K old ctx loc st. rewrite deser_unfold. cbn [deser_step].
      destruct (apply_types (map (fun f => f exc) (map (deser e root) l)) ts) as [fs|] eqn:E; [|apply rgood_reject].
      destruct (proj2 (parts_tuple exc l _ fs IH P W Pu E) K) as (Rs & A & B).
      eapply rgood_weaken; [|apply tuple_sound; exact A]. intros v (vs & T & ->). constructor. now apply B.
  - (* map *)
    assert (R : forall exc, Forall2 (fun R (p : string * reader) => rcomplete R (snd p)) (map (fun p old v => denotes e t old (snd p) v) l)
        (map (fun p => (fst p, snd p exc t)) (map (fun p => (fst p, deser e root (snd p))) l)) /\
      (exc = true \/ classless t = true ->
       Forall2 (fun R (p : string * reader) => rsound exc R (snd p)) (map (fun p old v => denotes e t old (snd p) v) l)
        (map (fun p => (fst p, snd p exc t)) (map (fun p => (fst p, deser e root (snd p))) l)))).
    { intros exc. clear IHt. induction IH as [|p l Fp Fs [IC IS]]; cbn; [split; [|intros _]; constructor|].
      destruct (Fp t P W Pu) as [C S]. split; [|intros K]; constructor; cbn; auto. }
    assert (N : forall exc, map (fun p => c_string (fst p)) (map (fun p => (fst p, snd p exc t)) (map (fun p => (fst p, deser e root (snd p))) l))
      = map (fun p => until_nul (fst p)) l).
    { intros exc. rewrite !map_map. apply map_ext. intros p. apply c_string_spec. }
    split.
    + intros exc old ctx loc st v D. rewrite deser_unfold. cbn [deser_step].
      inversion D as [| | | | | | | | | | | | | | | |o' t' old' l' vs V E1 E2 E3 E4| | | |]; subst.
      erewrite entries_complete; [|apply (proj1 (R exc))|apply Forall2_map_l; exact V]. now rewrite N.
    + intros exc K old ctx loc st. rewrite deser_unfold. cbn [deser_step].
      eapply rgood_weaken; [|apply entries_sound; apply (proj2 (R exc)); exact K].
      intros v (vs & V & ->). rewrite N. constructor. now apply Forall2_map_l in V.
  - (* class *)
    destruct Pu as [Pu|Pc]; [discriminate Pu|]. split.
    + intros exc old ctx loc st v D. rewrite deser_unfold. cbn [deser_step].
      inversion D as [| | | | | | | | | | | | | | | | | | |c' old' l' vs V E1 E2 E3 E4|]; subst.
      erewrite members_complete; [reflexivity|exact IH|apply Pc|apply real|exact Pc|exact V].
    + intros exc K old ctx loc st. rewrite deser_unfold. cbn [deser_step]. destruct K as [->|K]; [|discriminate].
      pose proof (members_sound l _ IH (Pc c) (real c) Pc (parts_of old) (c_root (class_of e c)) ctx loc st) as M.
      destruct (read_members _ _ _ _ _ _ _ _ _ _ _) as [[[b vs] [r'|]] st']; cbn.
      * destruct r' as [[|] ? ?| | |]; cbn in *; tauto.
      * destruct M as (-> & -> & M). cbn. split; [reflexivity|now constructor].
Qed.

Lemma all_fine : plain_classes e -> forall j t, plain t = true -> real_ints t = true -> complete_at j t /\ sound_at j t.
Proof. intros Pc j t P W. apply fine_always; [exact P|exact W|now right]. Qed.
End Core.
