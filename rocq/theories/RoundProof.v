(** The documents of values: they are written, and they are read as the same values. *)
From Coq Require Import List Arith ZArith NArith Ascii String Bool Permutation Sorted Lia.
From Verif Require Import Base Float NumericModel NumericSpec Base64Model Base64Spec Base64Proof Base64Decode DatetimeModel DatetimeSpec DatetimeProof
  EnumModel EnumProof RefsModel Json PathModel Types SerializeModel DeserializeModel DenoteSpec DenoteProof MapFacts FloatFacts RoundSpec DocSpec MergeSpec MergeFacts AgreeSpec AgreeProof.
Import ListNotations.
Local Open Scope Z_scope.

Lemma text_string : forall l, text (string_of_list_ascii l) = l.
Proof. intros l. unfold text. apply list_ascii_of_string_of_list_ascii. Qed.

(** * Values without parts *)
Lemma time_written : forall e s, 0 < tick e -> - 2 ^ 63 <= s * tick e < 2 ^ 63 -> first_second <= s <= last_second ->
  exists y m d hh mi ss, instant y m d hh mi ss s /\ year_ok y /\ to_iso_datetime (tick e) (s * tick e) = Some (iso_text "T" y m d hh mi ss).
Proof.
  intros e s Ht Hv HR. destruct (instant_exists s) as (y & m & d & hh & mi & ss & I).
  pose proof (proj2 (year_range _ _ _ _ _ _ _ I) HR) as Hy. exists y, m, d, hh, mi, ss. split; auto. split; auto. unfold year_ok in Hy.
  rewrite (format_datetime _ _ y m d hh mi ss) by (rewrite ?Z.quot_mul by lia; auto; lia).
  now replace ((0 <=? y) && (y <=? 9999)) with true by lia.
Qed.

Lemma date_written : forall e n, 0 < tick e -> first_second <= n * 86400 <= last_second ->
  exists y m d, cal y m d n /\ year_ok y /\ to_iso_date (tick e) (n * 86400 * tick e) = Some (date_text y m d).
Proof.
  intros e n Ht HR. destruct (instant_exists (n * 86400)) as (y & m & d & hh & mi & ss & I).
  pose proof (proj2 (year_range _ _ _ _ _ _ _ I) HR) as Hy. exists y, m, d.
  pose proof I as ((H1 & H2 & H3) & k & C & E). assert (k = n) by lia. subst k. split; auto. split; auto. unfold year_ok in Hy.
  rewrite (format_date _ _ y m d hh mi ss) by (rewrite ?Z.quot_mul by lia; auto; lia).
  now replace ((0 <=? y) && (y <=? 9999)) with true by lia.
Qed.

(** * Loops *)
Definition gives (e : env) (t : ty) (v : val) (j : json) : Prop := forall ctx tab, ser e v t ctx tab = SOk tab j.

Lemma ser_seq_gives : forall e u l js, Forall2 (gives e u) l js -> forall at_ k tab,
  ser_seq at_ k (map (fun f => f u) (map (ser e) l)) tab = SOk tab js.
Proof. intros e u l js F. induction F as [|v j l js G F IH]; intros; cbn; auto. rewrite G. cbn. now rewrite IH. Qed.

Lemma ser_parts_gives : forall e ts l js, parts_doc (gives e) ts l js -> exists fs, apply_types (map (ser e) l) ts = Some fs /\
  forall at_ k tab, ser_seq at_ k fs tab = SOk tab js.
Proof.
  intros e ts l js F. induction F as [|t ts v vs j js G F IH]; cbn; [now exists []|].
  destruct IH as (fs & -> & S). exists (ser e v t :: fs). split; auto. intros. cbn. rewrite G. cbn. now rewrite S.
Qed.

Lemma ser_entries_gives : forall e u l ps, entries_doc (gives e) u l ps -> forall ctx tab,
  ser_entries ctx (map (fun p => (fst p, snd p u)) (map (fun p => (fst p, ser e (snd p))) l)) tab = SOk tab ps.
Proof. intros e u l ps F. induction F as [|k v j l l' G F IH]; intros; cbn; auto. rewrite G. cbn. now rewrite IH. Qed.

Lemma not_option : forall e t v, holds e t v -> forall A (f : val -> ty -> sfun A), mpart f v = MPlain (f v).
Proof. intros e t v H A f. inversion H; reflexivity. Qed.

Lemma ser_members_gives : forall e ms l ps, Forall2 (member_holds (holds e)) ms l -> members_doc (gives e) ms l ps -> forall ctx tab,
  ser_members ctx ms (map (mpart (ser e)) l) tab = SOk tab ps.
Proof.
  intros e ms l ps Hl F. induction F as [|m ms v vs j l K G F IH|m ms v vs j l K G F IH|m ms vs l K F IH]; intros; inversion Hl as [|? ? ? ? Hm Hs]; subst; auto.
  - inversion Hm as [? K' Hv|K'|? K']; subst; try congruence. cbn [map ser_members]. rewrite (not_option e (m_ty m) v Hv). unfold to_write.
    destruct (m_kind m); try congruence; rewrite G, IH; auto.
  - cbn [map ser_members mpart]. unfold to_write. rewrite K, G, IH; auto.
  - cbn [map ser_members mpart]. unfold to_write. rewrite K. now rewrite IH.
Qed.

(** * Unordered maps *)
Lemma all_some_map : forall A (l : list (option A)) l', l = map Some l' -> all_some l = Some l'.
Proof. intros A l l' ->. induction l' as [|x l' IH]; cbn; auto. now rewrite IH. Qed.

Lemma nth_error_seq : forall A (l : list A), map (nth_error l) (seq 0 (List.length l)) = map Some l.
Proof.
  intros A l. induction l as [|x l IH] using rev_ind; cbn; auto. rewrite app_length. cbn [List.length]. rewrite Nat.add_1_r, seq_S, !map_app. cbn.
  f_equal; [|now rewrite nth_error_app2, Nat.sub_diag by lia]. rewrite <- IH. apply map_ext_in. intros i I. apply in_seq in I.
  now rewrite nth_error_app1 by lia.
Qed.

Lemma perm_somes : forall A (l : list A) m, Permutation (map Some l) m -> exists l', m = map Some l' /\ Permutation l l'.
Proof.
  intros A l m P. destruct (Permutation_map_inv _ _ (Permutation_sym P)) as (l' & -> & P'). eauto.
Qed.

Lemma visited_entries : forall (e : env) A (f : val -> A) (o : bool) (l : list (string * val)), iterates e ->
  exists l', (if o then l = l' else Permutation l l') /\
    visited e o (map (fun p => (fst p, f (snd p))) l) = Some (map (fun p => (fst p, f (snd p))) l').
Proof.
  intros e A f o l I. unfold visited. destruct o; [eauto|]. rewrite !map_map. cbn.
  set (g := fun p : string * val => (fst p, f (snd p))).
  pose proof (I (map (fun p => fst p) l)) as P. rewrite map_length in P.
  apply (Permutation_map (nth_error l)) in P. rewrite nth_error_seq in P. apply Permutation_sym in P. apply perm_somes in P.
  destruct P as (l' & E & P). exists l'. split; auto. apply all_some_map.
  rewrite <- map_map with (f := g) (g := Some) || rewrite (map_map g Some).
  rewrite <- (map_map Some (option_map g)). rewrite <- E, map_map. apply map_ext. intros i. rewrite nth_error_map. reflexivity.
Qed.

(** * Writing *)
Lemma forall_exists2 : forall A B (P : A -> Prop) (R : A -> B -> Prop) l, Forall P l -> (forall x, In x l -> P x -> exists y, R x y) -> exists m, Forall2 R l m.
Proof.
  intros A B P R l F. induction F as [|x l Px F IH]; intros X; [now exists []|].
  destruct (X x) as (y & Hy); [now left|auto|]. destruct IH as (m & Hm); [intros; apply X; auto; now right|]. exists (y :: m). now constructor.
Qed.

Definition written (e : env) (v : val) : Prop := forall t, plain t = true -> holds e t v -> exists j, doc e t v j /\ gives e t v j.

Lemma written_items : forall e u l, plain u = true -> Forall (written e) l -> Forall (holds e u) l ->
  exists js, Forall2 (doc e u) l js /\ Forall2 (gives e u) l js.
Proof.
  intros e u l P W. induction W as [|v l Hv W IH]; intros F; inversion F; subst; [exists []; split; constructor|].
  destruct (Hv u) as (j & D & G); auto. destruct IH as (js & Ds & Gs); auto. exists (j :: js). split; constructor; auto.
Qed.

Lemma written_parts : forall e l, Forall (written e) l -> forall ts, forallb plain ts = true -> Forall2 (holds e) ts l ->
  exists js, parts_doc (doc e) ts l js /\ parts_doc (gives e) ts l js.
Proof.
  intros e l W. induction W as [|v l Hv W IH]; intros ts P F; inversion F; subst; [exists []; split; constructor|].
  cbn in P. apply andb_prop in P. destruct P as [P Ps]. destruct (Hv x) as (j & D & G); auto. destruct (IH l0) as (js & Ds & Gs); auto. exists (j :: js). split; constructor; auto.
Qed.

Lemma written_entries : forall e u (l : list (string * val)), plain u = true -> Forall (fun p => written e (snd p)) l -> Forall (fun p => holds e u (snd p)) l ->
  exists ps, entries_doc (doc e) u l ps /\ entries_doc (gives e) u l ps.
Proof.
  intros e u l P W. induction W as [|[k v] l Hv W IH]; intros F; inversion F; subst; [exists []; split; constructor|].
  destruct (Hv u) as (j & D & G); auto. destruct IH as (js & Ds & Gs); auto. exists ((k, j) :: js). split; constructor; auto.
Qed.

Lemma written_members : forall e l, Forall (written e) l ->
  (forall x, In (VSome x) l -> written e x) ->
  forall ms, forallb (fun m => plain (m_ty m)) ms = true -> Forall2 (member_holds (holds e)) ms l ->
  exists ps, members_doc (doc e) ms l ps /\ members_doc (gives e) ms l ps.
Proof.
  intros e l W. induction W as [|v l Hv W IH]; intros S ms P F; inversion F as [|m v' ms' l' Hm Hs]; subst; [exists []; split; constructor|].
  cbn in P. apply andb_prop in P. destruct P as [P Ps]. destruct (IH (fun x I => S x (or_intror I)) ms' Ps Hs) as (ps & Ds & Gs).
  inversion Hm as [? K Hx|K|x K Hx]; subst.
  - destruct (Hv (m_ty m) P Hx) as (j & D & G). exists ((m_name m, j) :: ps). split; now constructor.
  - exists ps. split; now constructor.
  - destruct (S x (or_introl eq_refl) (m_ty m) P Hx) as (j & D & G). exists ((m_name m, j) :: ps). split; now constructor.
Qed.

(** [written] for values inside optionals as well. *)
Definition written' (e : env) (v : val) : Prop := written e v /\ forall x, v = VSome x -> written e x.

Lemma all_written : forall e, plain_classes e -> iterates e -> 0 < tick e -> forall v, written' e v.
Proof.
  intros e PC IT TK.
  induction v as [| |b|z|f|s|b|z|z|l IH|l IH|i v IH|l IH| |v IH| |v IH|a v IH] using val_ind';
    (split; [intros t P H|intros x E; first [discriminate E|injection E as <-; exact (proj1 IH)]]); try (inversion H; fail).
  - inversion H; subst. exists JNull. split; [constructor|]. intros ctx tab. reflexivity.
  - inversion H; subst. exists (JBool b). split; [constructor|]. intros ctx tab. reflexivity.
  - inversion H; subst.
    + exists (JInt z). split; [constructor|]. intros ctx tab. reflexivity.
    + exists (JInt z). split; [constructor|]. intros ctx tab. reflexivity.
    + match goal with I : In z _ |- _ => apply in_map_iff in I; destruct I as ([z' s] & E & I); cbn in E; subst z' end.
      exists (JStr s). split; [now constructor|]. intros ctx tab. cbn. now rewrite (enum_to_string_in names z s).
  - inversion H; subst; exists (JDbl f); (split; [constructor|]); intros ctx tab; cbn; match goal with E : is_finite f = true |- _ => now rewrite E end.
  - inversion H; subst. exists (JStr s). split; [constructor|]. intros ctx tab. reflexivity.
  - inversion H; subst. eexists. split; [apply doc_bytes|]. intros ctx tab. cbn. now rewrite encode_ok.
  - inversion H; subst. destruct (time_written e s) as (y & m & d & hh & mi & ss & I & Y & E); auto.
    eexists. split; [eapply doc_time; eauto|]. intros ctx tab. cbn. now rewrite E.
  - inversion H; subst. destruct (date_written e z) as (y & m & d & C & Y & E); auto.
    eexists. split; [eapply doc_date; eauto|]. intros ctx tab. cbn. unfold day_ticks, in_int64.
    replace ((- 2 ^ 63 <=? z * 86400 * tick e) && (z * 86400 * tick e <? 2 ^ 63)) with true by lia. now rewrite E.
  - assert (W : Forall (written e) l) by (eapply Forall_impl; [|exact IH]; now intros v [? _]).
    inversion H as [| | | | | | | | | | |u l' S F|u l' F|u l' F S| |a b x y Ha Hb|ts l' F| | | |]; subst; cbn in P.
    + destruct (written_items e u l P W F) as (js & Ds & Gs). exists (JArr js). split; [now apply doc_vector|]. intros ctx tab. cbn [ser].
      replace (dict_type u) with (@None ty) by (destruct u as [| | | | | | | | | | | | | | |[]| | | | | |]; try reflexivity; discriminate S).
      now rewrite (ser_seq_gives _ _ _ _ Gs).
    + destruct (written_items e u l P W F) as (js & Ds & Gs). exists (JArr js). split; [now apply doc_array|]. intros ctx tab. cbn [ser].
      now rewrite Nat.eqb_refl, (ser_seq_gives _ _ _ _ Gs).
    + destruct (written_items e u l P W F) as (js & Ds & Gs). exists (JArr js). split; [now apply doc_set|]. intros ctx tab. cbn [ser].
      now rewrite (ser_seq_gives _ _ _ _ Gs).
    + destruct (written_parts e _ W [a; b]) as (js & Ds & Gs); [cbn; now rewrite andb_true_r|repeat constructor; auto|].
      exists (JArr js). split; [now apply doc_pair|]. intros ctx tab. cbn [ser].
      destruct (ser_parts_gives _ _ _ _ Gs) as (fs & -> & E). now rewrite E.
    + destruct (written_parts e _ W ts P F) as (js & Ds & Gs).
      exists (JArr js). split; [now apply doc_tuple|]. intros ctx tab. cbn [ser].
      destruct (ser_parts_gives _ _ _ _ Gs) as (fs & -> & E). now rewrite E.
  - assert (W : Forall (fun p => written e (snd p)) l) by (eapply Forall_impl; [|exact IH]; now intros p [? _]).
    inversion H as [| | | | | | | | | | | | | |o u l' F S| | | | | |]; subst; cbn in P.
    destruct (visited_entries e _ (ser e) o l IT) as (l' & Pm & V).
    assert (Forall (fun p => written e (snd p)) l' /\ Forall (fun p => holds e u (snd p)) l') as [W' F'].
    { assert (Permutation l l') by (destruct o; subst; auto). split; (eapply Permutation_Forall; [eassumption|]); auto. eapply Forall_impl; [|exact F]. now intros p [_ ?]. }
    destruct (written_entries e u l' P W' F') as (ps & Ds & Gs). exists (JObj ps). split; [now apply (doc_map e o u l l')|]. intros ctx tab. cbn [ser].
    rewrite V. now rewrite (ser_entries_gives _ _ _ _ Gs).
  - inversion H; subst. discriminate P.
  - inversion H as [| | | | | | | | | | | | | | | | |c l' F| | |]; subst.
    assert (W : Forall (written e) l) by (eapply Forall_impl; [|exact IH]; now intros v [? _]).
    destruct (written_members e l W) with (ms := c_members (class_of e c)) as (ps & Ds & Gs); auto.
    { intros x I. rewrite Forall_forall in IH. destruct (IH _ I) as [_ X]. auto. }
    exists (JObj ps). split; [now apply doc_class|]. intros ctx tab. cbn [ser]. now rewrite (ser_members_gives e _ _ _ F Gs).
  - inversion H; subst. cbn in P. destruct IH as [W _]. destruct (W u P) as (j & D & G); auto. exists j. split; [now apply doc_unique|].
    intros ctx tab. cbn [ser]. apply G.
  - inversion H; subst. discriminate P.
Qed.

(** * Reading *)
Lemma set_sorted : forall lt l, StronglySorted (fun x y => lt x y = true /\ lt y x = false) l ->
  fold_left (set_insert lt) l [] = l.
Proof.
  intros lt l S.
  assert (A : forall m acc, (forall x y, In x acc -> In y m -> lt x y = true /\ lt y x = false) ->
    StronglySorted (fun x y => lt x y = true /\ lt y x = false) m -> fold_left (set_insert lt) m acc = acc ++ m).
  { induction m as [|y m IH]; intros acc B Sm; cbn; [now rewrite app_nil_r|]. inversion Sm as [|? ? Sm' F]; subst. rewrite Forall_forall in F.
    assert (E : set_insert lt acc y = acc ++ [y]).
    { assert (B' : forall x, In x acc -> lt x y = true /\ lt y x = false) by (intros; apply B; auto; now left). clear - B'.
      induction acc as [|x acc IH]; cbn; auto. destruct (B' x (or_introl eq_refl)) as [-> ->]. f_equal. apply IH. intros. apply B'. now right. }
    rewrite E, IH; auto; [now rewrite <- app_assoc|].
    intros x z Ix Iz. apply in_app_iff in Ix. destruct Ix as [Ix|[<-|[]]]; [apply B; auto; now right|auto]. }
  rewrite A; auto. intros x y [].
Qed.

Definition reads_back (e : env) (v : val) : Prop := forall t j, holds e t v -> doc e t v j -> forall old, denotes e t old j v.

Lemma doc_items : forall e u l js, Forall (reads_back e) l -> Forall (holds e u) l -> Forall2 (doc e u) l js ->
  forall old, Forall2 (denotes e u old) js l.
Proof.
  intros e u l js R. revert js. induction R as [|v l Rv R IH]; intros js H D old; inversion D; subst; inversion H; subst; constructor; auto.
Qed.

Lemma doc_parts : forall e l, Forall (reads_back e) l -> forall ts js, Forall2 (holds e) ts l -> parts_doc (doc e) ts l js ->
  forall olds, parts_denote (denotes e) ts olds js l.
Proof.
  intros e l R. induction R as [|v l Rv R IH]; intros ts js H D olds; inversion D; subst; inversion H; subst; constructor; auto.
Qed.

Lemma entries_doc_keys : forall D u l ps, entries_doc D u l ps -> map fst ps = map fst l.
Proof. intros D u l ps H. induction H; cbn; congruence. Qed.

Lemma entries_doc_nth : forall D u l ps, entries_doc D u l ps -> forall i k j, nth_error ps i = Some (k, j) ->
  exists v, nth_error l i = Some (k, v) /\ D u v j.
Proof. intros D u l ps H. induction H; intros [|i] k' j' E; cbn in *; try discriminate; eauto. inversion E; subst. eauto. Qed.

Lemma members_doc_names : forall D ms l ps, members_doc D ms l ps -> incl (map fst ps) (map m_name ms).
Proof.
  intros D ms l ps H. induction H as [|m ms v vs j l K G F IH|m ms v vs j l K G F IH|m ms vs l K F IH]; cbn; [easy| | |];
    try (intros n [<-|I]; [now left|right; auto]). now apply incl_tl.
Qed.

Lemma find_member_app : forall pre n j l, ~ In n (map fst pre) -> find_member (pre ++ (n, j) :: l) n = Some j.
Proof.
  induction pre as [|[k x] pre IH]; intros n j l N; cbn in *; [now rewrite String.eqb_refl|].
  destruct (String.eqb_spec k n); [tauto|]. apply IH. tauto.
Qed.

Lemma doc_members : forall e ms l ps, members_doc (doc e) ms l ps -> Forall2 (member_holds (holds e)) ms l ->
  Forall (reads_back e) l -> (forall x, In (VSome x) l -> reads_back e x) -> NoDup (map m_name ms) ->
  forall pre, (forall n, In n (map m_name ms) -> ~ In n (map fst pre)) -> forall olds, members_denote (denotes e) e (pre ++ ps) ms olds l.
Proof.
  intros e ms l ps D. induction D as [|m ms v vs j l K G F IH|m ms v vs j l K G F IH|m ms vs l K F IH]; intros H R S N pre Np olds;
    [constructor| | |]; inversion H as [|? ? ? ? Hm Hs]; subst; inversion R as [|? ? Rv Rs]; subst; inversion N as [|? ? Nm Ns]; subst.
  - assert (Fm : find_member (pre ++ (m_name m, j) :: l) (m_name m) = Some j) by (apply find_member_app, Np; now left).
    constructor.
    + inversion Hm as [? K' Hv|K'|? K' Hx]; subst; try congruence. eapply member_plain; eauto.
    + change ((m_name m, j) :: l) with ([(m_name m, j)] ++ l). rewrite app_assoc. apply IH; auto; [intros; apply S; now right|].
      intros n I. rewrite map_app, in_app_iff. cbn. intros [X|[<-|[]]]; [|auto]. apply (Np n); auto. now right.
  - assert (Fm : find_member (pre ++ (m_name m, j) :: l) (m_name m) = Some j) by (apply find_member_app, Np; now left).
    constructor.
    + inversion Hm as [? K' Hv|K'|? K' Hx]; subst; try congruence. eapply member_some; eauto. apply (S v); auto. now left.
    + change ((m_name m, j) :: l) with ([(m_name m, j)] ++ l). rewrite app_assoc. apply IH; auto; [intros; apply S; now right|].
      intros n I. rewrite map_app, in_app_iff. cbn. intros [X|[<-|[]]]; [|auto]. apply (Np n); auto. now right.
  - constructor.
    + apply member_none; auto. apply find_member_not. rewrite map_app, in_app_iff. intros [X|X]; [apply (Np (m_name m)); auto; now left|].
      apply Nm. eapply members_doc_names; eauto.
    + apply IH; auto; [intros; apply S; now right|]. intros n I. apply Np. now right.
Qed.

Lemma ascending_nodup : forall (l : list (string * val)), StronglySorted (fun p q => str_ltb (fst p) (fst q) = true) l -> NoDup (map fst l).
Proof.
  intros l S. induction S as [|[k v] l S IH F]; cbn; constructor; auto. intros I. apply in_map_iff in I. destruct I as ([k' w] & E & I).
  rewrite Forall_forall in F. specialize (F _ I). cbn in *. subst. now rewrite str_ltb_irrefl in F.
Qed.

Definition reads_back' (e : env) (v : val) : Prop := reads_back e v /\ forall x, v = VSome x -> reads_back e x.

Lemma all_read_back : forall e, named e -> 0 < tick e -> forall v, reads_back' e v.
Proof.
  intros e NM TK.
  induction v as [| |b|z|f|s|b|z|z|l IH|l IH|i v IH|l IH| |v IH| |v IH|a v IH] using val_ind';
    (split; [intros t j H D old|intros x E; first [discriminate E|injection E as <-; exact (proj1 IH)]]); try (inversion H; fail).
  - inversion H; subst. inversion D; subst. constructor.
  - inversion H; subst. inversion D; subst. constructor.
  - inversion H; subst; inversion D; subst; try (constructor; assumption). constructor. now apply enum_from_string_in.
  - inversion H; subst; inversion D; subst.
    + rewrite <- (round_exact binary32 f) at 2 by auto. constructor.
    + rewrite <- (round_exact binary64 f) at 2 by auto. constructor.
  - inversion H; subst. inversion D; subst. constructor.
  - inversion H; subst. inversion D; subst.
    assert (X : exists values, decodes (rfc4648 b) values b) by (apply decode_iff, encode_decode).
    destruct X as (values & X). apply denotes_bytes with (values := values). now rewrite text_string.
  - inversion H; subst. inversion D as [| | | | | | |sec y m d hh mi ss I Y E| | | | | | | | | | |]; subst.
    assert (sec = s) by nia. subst sec. unfold string_of. eapply (denotes_time e old _ "T"%char); eauto. now rewrite text_string.
  - inversion H; subst. inversion D; subst. unfold string_of. eapply denotes_date; eauto. now rewrite text_string.
  - assert (W : Forall (reads_back e) l) by (eapply Forall_impl; [|exact IH]; now intros v [? _]).
    inversion H as [| | | | | | | | | | |u l' S F|u l' F|u l' F S| |a b x y Ha Hb|ts l' F| | | |]; subst; inversion D; subst.
    + apply denotes_vector. eapply doc_items; eauto.
    + match goal with F2 : Forall2 (doc e u) l ?js |- _ => rewrite (forall2_len _ _ _ _ _ F2) || idtac; rewrite <- (forall2_len _ _ _ _ _ F2) end.
      apply denotes_array. eapply doc_items; eauto.
    + rewrite <- (set_sorted (less e u) l) at 1 by auto. apply denotes_set. eapply doc_items; eauto.
    + apply denotes_pair. eapply doc_parts; eauto.
    + apply denotes_tuple. eapply doc_parts; eauto.
  - assert (W : Forall (fun p => reads_back e (snd p)) l) by (eapply Forall_impl; [|exact IH]; now intros p [? _]).
    inversion H as [| | | | | | | | | | | | | |o u l' F S| | | | | |]; subst. inversion D as [| | | | | | | | | | | | | |o' u' l0 l' ps Pm E| | | |]; subst.
    assert (P : Permutation l l') by (destruct o; subst; auto). clear Pm.
    pose proof (entries_doc_keys _ _ _ _ E) as K. pose proof (ascending_nodup l S) as N.
    assert (F' : Forall (fun p => until_nul (fst p) = fst p /\ holds e u (snd p) /\ reads_back e (snd p)) l').
    { eapply Permutation_Forall; [exact P|]. rewrite Forall_forall in *. intros p I. specialize (F p I). specialize (W p I). tauto. }
    assert (M : fold_left (fun m p => map_assign m (fst p) (snd p)) (combine (map (fun p => until_nul (fst p)) ps) (map snd l')) [] = l).
    { apply map_is; auto.
      - rewrite K. eapply Permutation_NoDup; [apply Permutation_map; exact P|exact N].
      - apply Forall_forall. intros [k j] I. apply In_nth_error in I. destruct I as (i & I). destruct (entries_doc_nth _ _ _ _ E i k j I) as (v & Iv & _).
        apply nth_error_In in Iv. rewrite Forall_forall in F'. apply (F' _ Iv).
      - rewrite map_length. rewrite <- (map_length fst ps), K. now rewrite map_length.
      - intros k Hk. rewrite K. change (find_entry l k <> None) in Hk. destruct (find_entry l k) as [v|] eqn:Ek; [|congruence].
        apply find_entry_In in Ek. apply (Permutation_in _ (Permutation_map fst P)). now apply (in_map fst) in Ek.
      - intros i k j v Hi Hv. destruct (entries_doc_nth _ _ _ _ E i k j Hi) as (w & Iw & _).
        rewrite nth_error_map, Iw in Hv. cbn in Hv. inversion Hv; subst. change (find_entry l k = Some v). apply find_entry_nodup; auto.
        apply nth_error_In in Iw. apply (Permutation_in _ (Permutation_sym P)). exact Iw. }
    rewrite <- M. apply denotes_map. clear - E F'. induction E; inversion F' as [|? ? F1 F2]; subst; cbn; constructor; auto. cbn in *. apply F1; tauto.
  - inversion H; subst. inversion D.
  - inversion H as [| | | | | | | | | | | | | | | | |c l' F| | |]; subst. inversion D; subst.
    assert (W : Forall (reads_back e) l) by (eapply Forall_impl; [|exact IH]; now intros v [? _]).
    apply denotes_class. eapply (doc_members e _ _ _) with (pre := []); eauto.
    intros x I. rewrite Forall_forall in IH. destruct (IH _ I) as [_ X]. auto.
  - inversion H; subst. inversion D; subst. apply denotes_unique. now apply (proj1 IH).
  - inversion H; subst. inversion D.
Qed.
