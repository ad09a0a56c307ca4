(** Objects without bad parts can be written. *)
From Coq Require Import List Arith ZArith NArith Ascii String Bool Lia Sorted Permutation.
From Verif Require Import Base Float NumericModel NumericSpec EnumModel Base64Model Base64Spec Base64Decode DatetimeModel RefsModel Json PathModel Types SerializeModel
  WriteSpec FiniteProof RewriteSpec ValidSpec DefinedSpec.
Import ListNotations.

Lemma civil_bound : forall n y m d, (- 200000000000 <= n <= 200000000000)%Z -> civil_from_days n = (y, m, d) -> (- 1000000000 <= y <= 1000000000)%Z.
Proof.
  intros n y m d B E. unfold civil_from_days in E. cbv zeta in E.
  set (z := (n + 719468)%Z) in *. set (doe := (z mod 146097)%Z) in *. set (c := Z.min (doe / 36524) 3) in *. set (q := ((doe - c * 36524) / 1461)%Z) in *.
  set (k := Z.min ((doe - c * 36524 - q * 1461) / 365) 3) in *.
  assert (D : (0 <= doe < 146097)%Z) by (apply Z.mod_pos_bound; lia).
  assert (C : (0 <= c <= 3)%Z) by (unfold c; assert (0 <= doe / 36524)%Z by (apply Z.div_pos; lia); lia).
  assert (C' : (c * 36524 <= doe)%Z) by (unfold c; pose proof (Z.mul_div_le doe 36524 ltac:(lia)); lia).
  assert (Q : (0 <= q <= 100)%Z) by (unfold q; split; [apply Z.div_pos; lia|apply Z.div_le_upper_bound; lia]).
  assert (Q' : (q * 1461 <= doe - c * 36524)%Z) by (unfold q; pose proof (Z.mul_div_le (doe - c * 36524) 1461 ltac:(lia)); lia).
  assert (K : (0 <= k <= 3)%Z) by (unfold k; assert (0 <= (doe - c * 36524 - q * 1461) / 365)%Z by (apply Z.div_pos; lia); lia).
  assert (R : (- 2000000 <= z / 146097 <= 2000000)%Z) by (split; [apply Z.div_le_lower_bound; unfold z; lia|apply Z.div_le_upper_bound; unfold z; lia]).
  clearbody c q k. remember (z / 146097)%Z as era.
  apply (f_equal (fun p => fst (fst p))) in E. cbn [fst] in E. match type of E with (if ?b then _ else _) = _ => destruct b end; clear - E R C Q K; lia.
Qed.

Lemma calendar_some : forall tps v, (1000 <= tps)%Z -> (- 2 ^ 63 <= v < 2 ^ 63)%Z ->
  exists y mo d hh mi ss z, gmtime (to_time_t tps v) = Some (y, mo, d, hh, mi, ss) /\ full_year y = Some z.
Proof.
  intros tps v T B. change (2 ^ 63)%Z with 9223372036854775808%Z in B. unfold gmtime, to_time_t. destruct (civil_from_days (Z.quot v tps / 86400)) as [[y m] d] eqn:E.
  assert (Q : (- 10000000000000000 <= Z.quot v tps <= 10000000000000000)%Z).
  { pose proof (Z.quot_rem v tps ltac:(lia)) as A. pose proof (Z.rem_bound_abs v tps ltac:(lia)). nia. }
  assert (N : (- 200000000000 <= Z.quot v tps / 86400 <= 200000000000)%Z) by (split; [apply Z.div_le_lower_bound; lia|apply Z.div_le_upper_bound; lia]).
  pose proof (civil_bound _ _ _ _ N E) as Y.
  assert (I : in_int32 (y - 1900) = true) by (unfold in_int32; apply andb_true_iff; split; [apply Z.leb_le|apply Z.ltb_lt]; lia).
  assert (J : in_int32 (y - 1900 + 1900) = true) by (unfold in_int32; apply andb_true_iff; split; [apply Z.leb_le|apply Z.ltb_lt]; lia).
  rewrite I. do 7 eexists. split; [reflexivity|]. unfold full_year. rewrite J. reflexivity.
Qed.

Lemma Forall2_len : forall A B (R : A -> B -> Prop) l m, Forall2 R l m -> List.length l = List.length m.
Proof. intros A B R l m F. induction F; cbn; congruence. Qed.

Lemma Forall2_at : forall A B (R : A -> B -> Prop) l m, Forall2 R l m -> forall i x y, nth_error l i = Some x -> nth_error m i = Some y -> R x y.
Proof. intros A B R l m F. induction F as [|a b l m H F IH]; intros [|i] x y E1 E2; cbn in *; try discriminate; [congruence|eauto]. Qed.

Lemma smap_undefined : forall A B (f : A -> B) x, smap f x = SUndef -> x = SUndef.
Proof. intros A B f [] H; cbn in H; congruence. Qed.

Definition undefined {A} (f : sfun A) : Prop := exists ctx tab, f ctx tab = SUndef.

Lemma seq_undefined : forall A at_ (fs : list (sfun A)) k tab, ser_seq at_ k fs tab = SUndef -> Exists undefined fs.
Proof.
  intros A at_ fs. induction fs as [|f fs IH]; intros k tab E; cbn in E; [discriminate|]. destruct (f (at_ k) tab) eqn:F; cbn in E; [|discriminate|].
  - apply smap_undefined in E. right. eauto.
  - left. do 2 eexists. exact F.
Qed.

Lemma entries_undefined : forall A ctx (fs : list (string * sfun A)) tab, ser_entries ctx fs tab = SUndef -> Exists (fun p => undefined (snd p)) fs.
Proof.
  intros A ctx fs. induction fs as [|[k f] fs IH]; intros tab E; cbn in E; [discriminate|]. destruct (f _ tab) eqn:F; cbn in E; [|discriminate|].
  - apply smap_undefined in E. right. eauto.
  - left. do 2 eexists. exact F.
Qed.

(** A member cannot be written, or what is written for it is undefined. *)
Definition bad_member {A} (m : member) (f : mfun A) : Prop := to_write m f = None \/ exists g, to_write m f = Some (Some g) /\ undefined g.

Lemma members_undefined : forall A ctx ms (fs : list (mfun A)) tab, List.length ms = List.length fs -> ser_members ctx ms fs tab = SUndef ->
  exists i m f, nth_error ms i = Some m /\ nth_error fs i = Some f /\ bad_member m f.
Proof.
  intros A ctx ms. induction ms as [|m ms IH]; intros [|f fs] tab L E; try discriminate. cbn in E. injection L as L.
  assert (N : forall tab, ser_members ctx ms fs tab = SUndef -> exists i m0 f0, nth_error (m :: ms) i = Some m0 /\ nth_error (f :: fs) i = Some f0 /\ bad_member m0 f0).
  { intros tab' E'. destruct (IH fs tab' L E') as (i & m0 & f0 & H). now exists (S i), m0, f0. }
  destruct (to_write m f) as [[g|]|] eqn:W; [|exact (N _ E)|].
  - destruct (g _ tab) eqn:G; [apply smap_undefined in E; exact (N _ E)|exact (N _ E)|]. exists 0, m, f. repeat split. right. exists g. split; [exact W|]. do 2 eexists. exact G.
  - exists 0, m, f. repeat split. now left.
Qed.

Lemma types_applied : forall A (fs : list (ty -> A)) ts, List.length fs = List.length ts -> exists l, apply_types fs ts = Some l /\
  forall i x, nth_error l i = Some x -> exists f t, nth_error fs i = Some f /\ nth_error ts i = Some t /\ x = f t.
Proof.
  intros A fs. induction fs as [|f fs IH]; intros [|t ts] L; try discriminate; cbn.
  - exists []. split; [reflexivity|]. intros [|i]; discriminate.
  - injection L as L. destruct (IH ts L) as (l & -> & H). eexists. split; [reflexivity|]. intros [|i] x E; cbn in E; [injection E as <-; cbn; eauto|]. exact (H i x E).
Qed.

Lemma keyed_all : forall e u l, Forall (valid e (TPair TString u)) l -> exists fs, all_some (map (keyed (ser e)) l) = Some fs /\
  forall p, In p fs -> exists k x, In (VList [VStr k; x]) l /\ p = (k, ser e x).
Proof.
  intros e u l F. induction F as [|v l V F (fs & E & H)]; cbn; [exists []; split; [reflexivity|contradiction]|].
  inversion V; subst; try contradiction. match goal with H : valid e TString _ |- _ => inversion H; subst; try contradiction end. cbn [keyed]. rewrite E. eexists. split; [reflexivity|].
  intros p [<-|I]; [eauto|]. destruct (H p I) as (k & z & I' & ->). eauto.
Qed.

Section Defined.
Variable e : env.
Hypothesis clock : (1000 <= tick e)%Z.
Hypothesis order : fair e.

Definition dirty (t : ty) (v : val) : Prop := exists u x, part e t v u x /\ bad e u x.

Lemma dirty_child : forall t v u x, child e t v u x -> dirty u x -> dirty t v.
Proof. intros t v u x H (w & y & P & B). exists w, y. split; [eapply part_child; eauto|exact B]. Qed.

Lemma dirty_here : forall t v, bad e t v -> dirty t v.
Proof. intros t v B. exists t, v. split; [constructor|exact B]. Qed.

Definition blamed (v : val) : Prop := forall t ctx tab, valid e t v -> ser e v t ctx tab = SUndef -> dirty t v.

Lemma scalar_undefined : forall t v tab, valid e t v -> match t with TNull | TBool | TInt _ | TFloat | TDouble | TString | TBytes | TTime | TDate | TEnumInt _ | TEnumStr _ => True | _ => False end ->
  ser_scalar e t v tab = SUndef -> bad e t v.
Proof.
  intros t v tab V S U. destruct t; try contradiction; inversion V; subst; try (now constructor); cbn [ser_scalar] in U; try discriminate.
  - destruct (is_finite f); discriminate.
  - destruct (is_finite f); discriminate.
  - destruct (base64_encode (endian e) b (Types.after e b)) eqn:E; [discriminate|]. apply reads_past_end in E. now constructor.
  - unfold to_iso_datetime in U. destruct (calendar_some (tick e) z clock ltac:(assumption)) as (y & mo & d & hh & mi & ss & w & G & Y). rewrite G in U. cbn in U. rewrite Y in U. discriminate.
  - unfold day_ticks in U. destruct (in_int64 (d * 86400 * tick e)) eqn:E.
    + unfold in_int64 in E. apply andb_true_iff in E as [E1 E2]. apply Z.leb_le in E1. apply Z.ltb_lt in E2.
      unfold to_iso_date in U. destruct (calendar_some (tick e) (d * 86400 * tick e) clock ltac:(lia)) as (y & mo & dd & hh & mi & ss & w & G & Y). rewrite G in U. cbn in U. rewrite Y in U. discriminate.
    + constructor. intros [H1 H2]. unfold in_int64 in E. apply andb_false_iff in E as [E|E]; [apply Z.leb_gt in E|apply Z.ltb_ge in E]; lia.
Qed.

Lemma items_blamed : forall t u l, Forall blamed l -> Forall (valid e u) l -> (forall x, In x l -> child e t (VList l) u x) -> Exists undefined (map (fun f => f u) (map (ser e) l)) -> dirty t (VList l).
Proof.
  intros t u l W V C E. rewrite map_map in E. apply Exists_exists in E as (f & I & ctx & tab & E). apply in_map_iff in I as (x & <- & I). rewrite Forall_forall in *.
  apply (dirty_child _ _ u x); [auto|]. exact (W x I u ctx tab (V x I) E).
Qed.

Lemma parts_blamed : forall t ts l (k : list (sfun json) -> sres json), Forall blamed l -> Forall2 (valid e) ts l ->
  (forall i u x, nth_error ts i = Some u -> nth_error l i = Some x -> child e t (VList l) u x) -> (forall fs, k fs = SUndef -> Exists undefined fs) ->
  match apply_types (map (ser e) l) ts with Some fs => k fs | None => SUndef end = SUndef -> dirty t (VList l).
Proof.
  intros t ts l k W V C K E. destruct (types_applied _ (map (ser e) l) ts) as (fs & A & H); [rewrite map_length; symmetry; eapply Forall2_len; exact V|]. rewrite A in E.
  apply K, Exists_exists in E as (f & I & ctx & tab & E). apply In_nth_error in I as (i & I). destruct (H i f I) as (g & u & G & U & ->). rewrite nth_error_map' in G.
  destruct (nth_error l i) as [x|] eqn:X; [|discriminate]. injection G as <-. apply (dirty_child _ _ u x); [eapply C; eauto|]. rewrite Forall_forall in W. apply (W x (nth_error_In _ _ X) u ctx tab); [|exact E].
  exact (Forall2_at _ _ _ _ _ V i u x U X).
Qed.

Lemma all_blamed : forall v, blamed v /\ (forall y, v = VSome y -> blamed y) /\ (forall l, v = VList l -> Forall blamed l).
Proof.
  induction v as [| |b|z|f|s|b|z|z|l IH|l IH|i v IH|l IH| |v IH| |v IH|a v IH] using val_ind'; (split; [|split; intros; try discriminate]).
  all: try (intros t ctx tab V U; apply dirty_here; destruct t; inversion V; subst; try (constructor; fail); (eapply scalar_undefined; [exact V|exact I|exact U])).
  - assert (W : Forall blamed l) by (eapply Forall_impl; [|exact IH]; intros x Hx; exact (proj1 Hx)).
    assert (W2 : forall l', In (VList l') l -> Forall blamed l') by (intros l' I; rewrite Forall_forall in IH; exact (proj2 (proj2 (IH _ I)) l' eq_refl)).
    intros t ctx tab V U. inversion V as [| | | | | | | | | | | |u ? F|n u ? N F|u ? F| |c d x y Vx Vy|ts ? F| | | | | | | | |]; subst; cbn [ser] in U.
    + destruct (dict_type u) as [w|] eqn:D.
      * destruct u; try discriminate. destruct u1; try discriminate. injection D as ->. destruct (keyed_all e w l F) as (fs & A & H). rewrite A in U.
        apply smap_undefined, entries_undefined, Exists_exists in U as (p & I & ctx' & tab' & U). apply in_map_iff in I as (q & <- & I). cbn in U. destruct (H q I) as (k & x & Ix & ->). cbn in U.
        rewrite Forall_forall in F. pose proof (F _ Ix) as Vp. inversion Vp; subst.
        apply (dirty_child _ _ (TPair TString w) (VList [VStr k; x])); [now constructor|]. apply (dirty_child _ _ w x); [constructor|]. specialize (W2 _ Ix). inversion W2 as [|? ? ? Wq]; subst. inversion Wq as [|? ? Wx]; subst.
        now apply (Wx w ctx' tab').
      * apply smap_undefined, seq_undefined in U. apply (items_blamed _ u); auto. intros x I. now constructor.
    + rewrite Nat.eqb_refl in U. apply smap_undefined, seq_undefined in U. apply (items_blamed _ u); auto. intros x I. now constructor.
    + apply smap_undefined, seq_undefined in U. apply (items_blamed _ u); auto. intros x I. now constructor.
    + refine (parts_blamed _ [c; d] [x; y] (fun fs => smap JArr (ser_seq (at_index ctx) 0 fs tab)) W _ _ _ U); [repeat constructor; assumption| |intros fs E; apply smap_undefined, seq_undefined in E; exact E].
      intros [|[|[|i]]] u z E1 E2; cbn in E1, E2; try discriminate; try (destruct i; discriminate); injection E1 as <-; injection E2 as <-; constructor.
    + refine (parts_blamed _ ts l (fun fs => smap JArr (ser_seq (at_index ctx) 0 fs tab)) W F _ _ U); [|intros fs E; apply smap_undefined, seq_undefined in E; exact E].
      intros i u z E1 E2. econstructor; eauto.
  - match goal with H : VList _ = VList _ |- _ => injection H as <- end. eapply Forall_impl; [|exact IH]. intros x Hx. exact (proj1 Hx).
  - intros t ctx tab V U. inversion V as [| | | | | | | | | | | | | | |o u ? F| | | | | | | | | | |]; subst; cbn [ser] in U.
    match type of U with context [visited e ?o ?m] => destruct (visited_total _ e o m order) as [r Er]; rewrite Er in U; pose proof (visited_perm _ e o m r order Er) as Pr end.
    apply smap_undefined, entries_undefined, Exists_exists in U as (p & I & ctx' & tab' & U). apply in_map_iff in I as (q & <- & I). cbn in U. apply (Permutation_in _ Pr) in I. apply in_map_iff in I as ([k x] & <- & I). cbn in U.
    rewrite Forall_forall in *. apply (dirty_child _ _ u x); [econstructor; exact I|]. exact (proj1 (IH _ I) u ctx' tab' (F _ I) U).
  - intros t ctx tab V U. inversion V as [| | | | | | | | | | | | | | | | | |ts ? u ? Nu Vu| | | | | | | |]; subst; cbn [ser] in U. rewrite Nu in U. apply (dirty_child _ _ u v); [now constructor|]. exact (proj1 IH u ctx tab Vu U).
  - intros t ctx tab V U. inversion V as [| | | | | | | | | | | | | | | | | | | |c ? F| | | | | |]; subst; cbn [ser] in U. apply smap_undefined, members_undefined in U; [|rewrite map_length; eapply Forall2_len; exact F].
    destruct U as (i & m & f & M & G & B). rewrite nth_error_map' in G. destruct (nth_error l i) as [x|] eqn:X; [|discriminate]. injection G as <-.
    pose proof (Forall2_at _ _ _ _ _ F i m x M X) as [F1 F2]. rewrite Forall_forall in IH. destruct (IH x (nth_error_In _ _ X)) as [Wx [Ws _]].
    assert (P : m_kind m <> MOptional -> dirty (TClass c) (VObj l)).
    { intros K. specialize (F1 K). apply (dirty_child _ _ (m_ty m) x); [econstructor; eauto|].
      assert (Q : to_write m (mpart (ser e) x) = Some (Some (ser e x (m_ty m)))) by (unfold to_write; destruct (m_kind m); try contradiction; destruct x; cbn; try reflexivity; inversion F1).
      destruct B as [B|(g & B & ctx' & tab' & U)]; rewrite Q in B; [discriminate|]. injection B as <-. exact (Wx _ ctx' tab' F1 U). }
    destruct (m_kind m) eqn:K; try (apply P; discriminate). destruct (F2 eq_refl) as [->|(y & -> & Vy)]; unfold bad_member, to_write in B; rewrite K in B; cbn in B.
    + destruct B as [B|(g & B & _)]; discriminate.
    + destruct B as [B|(g & B & ctx' & tab' & U)]; [discriminate|]. injection B as <-. apply (dirty_child _ _ (m_ty m) y); [eapply child_optional; eauto|]. exact (Ws y eq_refl _ ctx' tab' Vy U).
  - match goal with H : VSome _ = VSome _ |- _ => injection H as <- end. exact (proj1 IH).
  - intros t ctx tab V U. inversion V; subst; cbn [ser] in U; (eapply dirty_child; [constructor|]; eapply (proj1 IH); [eassumption|exact U]).
  - intros t ctx tab V U. inversion V as [| | | | | | | | | | | | | | | | | | | | | | | |u ? ? Vu| |]; subst; cbn [ser] in U. destruct (ref_get Nat.eqb tab a); [discriminate|].
    apply (dirty_child _ _ u v); [constructor|]. apply (proj1 IH u ctx tab Vu). destruct (ser e v u ctx tab); cbn in U; congruence.
Qed.
End Defined.
