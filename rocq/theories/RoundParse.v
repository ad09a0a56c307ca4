(** Written documents are read by the parser too. *)
From Coq Require Import List Arith ZArith NArith Ascii String Bool Permutation Sorted Lia.
From Verif Require Import Base Float NumericModel NumericSpec Base64Spec DatetimeSpec EnumModel Json Events PathModel Types SerializeModel WriteModel DeserializeModel ParseModel
  DenoteSpec DenoteProof DenoteFacts MapFacts FloatFacts MergeSpec MergeFacts AgreeSpec AgreeProof ParseSpec ParseLimit AcceptFacts RoundSpec DocSpec RoundProof WriteSpec DerivedProof.
Import ListNotations.
Local Open Scope Z_scope.

(** * Parts of documents are documents of parts *)
Lemma entries_doc_in : forall D u l ps, entries_doc D u l ps -> forall k j, In (k, j) ps -> exists v, In (k, v) l /\ D u v j.
Proof.
  intros D u l ps H. induction H; intros k' j' I; [easy|]. destruct I as [E|I]; [inversion E; subst; exists v; split; auto; now left|].
  destruct (IHentries_doc _ _ I) as (w & ? & ?). exists w. split; auto. now right.
Qed.

Lemma parts_doc_nth : forall D ts l js, parts_doc D ts l js -> forall H i u j, Forall2 H ts l -> nth_error ts i = Some u -> nth_error js i = Some j ->
  exists v, In v l /\ H u v /\ D u v j.
Proof.
  intros D ts l js P H. induction P; intros [|i] u j' F; inversion F; subst; cbn; intros A B; try discriminate.
  - inversion A; inversion B; subst. exists v. auto.
  - destruct (IHP i u j') as (w & ? & ? & ?); auto. exists w. auto.
Qed.

Lemma forall2_in_r : forall A B (R : A -> B -> Prop) l l', Forall2 R l l' -> forall y, In y l' -> exists x, In x l /\ R x y.
Proof.
  intros A B R l l' H. induction H; intros z I; [easy|]. destruct I as [<-|I]; [exists x; split; auto; now left|].
  destruct (IHForall2 _ I) as (w & ? & ?). exists w. split; auto. now right.
Qed.

Lemma members_doc_in : forall D ms l ps, members_doc D ms l ps -> forall H, Forall2 (member_holds H) ms l -> NoDup (map m_name ms) ->
  forall m j, In m ms -> In (m_name m, j) ps -> exists v, H (m_ty m) v /\ D (m_ty m) v j.
Proof.
  intros D ms l ps P. induction P as [|m ms v vs j l K G F IH|m ms v vs j l K G F IH|m ms vs l K F IH]; intros H Hh N m' j' I Ip; [easy| | |];
    inversion Hh as [|? ? ? ? Hm Hs]; subst; inversion N as [|? ? Nm Ns]; subst.
  - destruct I as [<-|I].
    + destruct Ip as [E|Ip]; [|exfalso; apply Nm; apply (in_map fst) in Ip; eapply members_doc_names in Ip; eauto].
      inversion E; subst. exists v. split; auto. inversion Hm; subst; congruence || auto.
    + destruct Ip as [E|Ip]; [|eapply IH; eauto]. inversion E as [[E1 E2]]. exfalso. apply Nm. rewrite E1. now apply in_map.
  - destruct I as [<-|I].
    + destruct Ip as [E|Ip]; [|exfalso; apply Nm; apply (in_map fst) in Ip; eapply members_doc_names in Ip; eauto].
      inversion E; subst. exists v. split; auto. inversion Hm; subst; congruence || auto.
    + destruct Ip as [E|Ip]; [|eapply IH; eauto]. inversion E as [[E1 E2]]. exfalso. apply Nm. rewrite E1. now apply in_map.
  - destruct I as [<-|I]; [exfalso; apply Nm; apply (in_map fst) in Ip; eapply members_doc_names in Ip; eauto|]. eapply IH; eauto.
Qed.

Lemma doc_part : forall e t v j u j', named e -> holds e t v -> doc e t v j -> part e t j u j' -> exists v', holds e u v' /\ doc e u v' j'.
Proof.
  intros e t v j u j' NM H D P. destruct P.
  - inversion D; subst. inversion H; subst. match goal with F : Forall2 (doc e u) _ _ |- _ => destruct (forall2_in_r _ _ _ _ _ F _ H0) as (x & I & Dx) end.
    exists x. split; auto. rewrite Forall_forall in *. auto.
  - inversion D; subst. inversion H; subst. match goal with F : Forall2 (doc e u) _ _ |- _ => destruct (forall2_in_r _ _ _ _ _ F _ H0) as (x & I & Dx) end.
    exists x. split; auto. rewrite Forall_forall in *. auto.
  - inversion D; subst. inversion H; subst. match goal with F : Forall2 (doc e u) _ _ |- _ => destruct (forall2_in_r _ _ _ _ _ F _ H0) as (x & I & Dx) end.
    exists x. split; auto. rewrite Forall_forall in *. auto.
  - inversion D; subst. inversion H; subst.
    match goal with F : parts_doc _ _ _ _ |- _ => destruct (parts_doc_nth _ _ _ _ F (holds e) i u j) as (w & _ & ? & ?); [now repeat constructor|auto|auto|] end. exists w. auto.
  - inversion D; subst. inversion H; subst.
    match goal with F : parts_doc _ _ _ _ |- _ => destruct (parts_doc_nth _ _ _ _ F (holds e) i u j) as (x & _ & ? & ?); auto end. exists x. auto.
  - inversion D as [| | | | | | | | | | | | | |o' u' l0 l' ps Pm E| | | |]; subst. inversion H; subst.
    destruct (entries_doc_in _ _ _ _ E _ _ H0) as (x & I & Dx). exists x. split; auto.
    match goal with F : Forall _ l0 |- _ => rewrite Forall_forall in F; apply (F (k, x)) end.
    destruct o; subst; auto. now apply (Permutation_in _ (Permutation_sym Pm)).
  - inversion D; subst. inversion H; subst. match goal with F : members_doc _ _ _ _ |- _ => eapply members_doc_in; eauto end.
Qed.

Lemma doc_at : forall e t j u j', named e -> reads_at e t j u j' -> forall v, holds e t v -> doc e t v j -> exists v', holds e u v' /\ doc e u v' j'.
Proof.
  intros e t j u j' NM R. induction R as [t j|u j t' j' R IH|t j u j1 t' j' P R IH]; intros v H D; [eauto| |].
  - inversion D; subst. inversion H; subst. eauto.
  - destruct (doc_part e t v j u j1 NM H D P) as (w & Hw & Dw). eauto.
Qed.

(** * Written documents are unambiguous *)
Lemma members_doc_nodup : forall D ms l ps, members_doc D ms l ps -> NoDup (map m_name ms) -> NoDup (map fst ps).
Proof.
  intros D ms l ps P. induction P as [|m ms v vs j l K G F IH|m ms v vs j l K G F IH|m ms vs l K F IH]; intros N; [constructor| | |]; inversion N; subst; auto;
    (constructor; auto; intros I; eapply members_doc_names in I; eauto).
Qed.

Definition cleans (e : env) (v : val) : Prop := forall t j, holds e t v -> doc e t v j -> clean j.

Lemma clean_items : forall e u l js, Forall (cleans e) l -> Forall (holds e u) l -> Forall2 (doc e u) l js -> Forall clean js.
Proof. intros e u l js C. revert js. induction C as [|v l Cv C IH]; intros js H D; inversion D; subst; inversion H; subst; constructor; eauto. Qed.

Lemma clean_parts : forall e l, Forall (cleans e) l -> forall ts js, Forall2 (holds e) ts l -> parts_doc (doc e) ts l js -> Forall clean js.
Proof. intros e l C. induction C as [|v l Cv C IH]; intros ts js H D; inversion D; subst; inversion H; subst; constructor; eauto. Qed.

Lemma clean_members : forall e ms l ps, members_doc (doc e) ms l ps -> Forall2 (member_holds (holds e)) ms l -> Forall (cleans e) l ->
  (forall x, In (VSome x) l -> cleans e x) -> (forall m, In m ms -> until_nul (m_name m) = m_name m) ->
  Forall (fun p => until_nul (fst p) = fst p /\ clean (snd p)) ps.
Proof.
  intros e ms l ps D. induction D as [|m ms v vs j l K G F IH|m ms v vs j l K G F IH|m ms vs l K F IH]; intros H C S L; [constructor| | |];
    inversion H as [|? ? ? ? Hm Hs]; subst; inversion C as [|? ? Cv Cs]; subst;
    [constructor; [split; [apply L; now left|]|]|constructor; [split; [apply L; now left|]|]|];
    try (apply IH; auto; [intros x I; apply S; now right|intros x I; apply L; now right]).
  - cbn. inversion Hm; subst; try congruence. eauto.
  - cbn. inversion Hm; subst; try congruence. eapply (S v); eauto. now left.
Qed.

Lemma all_clean : forall e, named e -> legible e -> forall v, cleans e v /\ forall x, v = VSome x -> cleans e x.
Proof.
  intros e NM LG.
  induction v as [| |b|z|f|s|b|z|z|l IH|l IH|i v IH|l IH| |v IH| |v IH|a v IH] using val_ind';
    (split; [intros t j H D|intros x E; first [discriminate E|injection E as <-; exact (proj1 IH)]]); try (inversion H; fail);
    try (inversion H; subst; inversion D; subst; now constructor).
  - assert (W : Forall (cleans e) l) by (eapply Forall_impl; [|exact IH]; now intros v [? _]).
    inversion H as [| | | | | | | | | | |u l' S F|u l' F|u l' F S| |a b x y Ha Hb|ts l' F| | | |]; subst; inversion D; subst; apply clean_array;
      first [eapply clean_items; eauto; fail|eapply clean_parts; eauto; fail|idtac].
  - assert (W : Forall (fun p => cleans e (snd p)) l) by (eapply Forall_impl; [|exact IH]; now intros p [? _]).
    inversion H as [| | | | | | | | | | | | | |o u l' F S| | | | | |]; subst. inversion D as [| | | | | | | | | | | | | |o' u' l0 l' ps Pm E| | | |]; subst.
    assert (P : Permutation l l') by (destruct o; subst; auto). apply clean_object.
    + rewrite (entries_doc_keys _ _ _ _ E). eapply Permutation_NoDup; [apply Permutation_map; exact P|now apply ascending_nodup].
    + apply Forall_forall. intros [k j] I. destruct (entries_doc_in _ _ _ _ E _ _ I) as (x & Ix & Dx).
      apply (Permutation_in _ (Permutation_sym P)) in Ix. rewrite Forall_forall in F, W. destruct (F _ Ix) as (? & ?). specialize (W _ Ix). cbn in *. split; eauto.
  - inversion H as [| | | | | | | | | | | | | | | | |c l' F| | |]; subst. inversion D; subst.
    assert (W : Forall (cleans e) l) by (eapply Forall_impl; [|exact IH]; now intros v [? _]).
    apply clean_object; [eapply members_doc_nodup; eauto; apply NM|]. eapply clean_members; eauto.
    intros x I. rewrite Forall_forall in IH. destruct (IH _ I) as [_ X]. auto.
  - inversion H; subst. inversion D; subst. eapply (proj1 IH); eauto.
Qed.

(** * Nesting *)
Lemma list_max_map_eq : forall A B (f : A -> nat) (g : B -> nat) l l', Forall2 (fun x y => f x = g y) l l' -> list_max (map f l) = list_max (map g l').
Proof. intros A B f g l l' H. induction H as [|x y l l' E H IH]; cbn; [easy|]. unfold list_max in IH. now rewrite E, IH. Qed.

Lemma list_max_perm : forall l l', Permutation l l' -> list_max l = list_max l'.
Proof. intros l l' P. induction P; cbn; unfold list_max in *; lia. Qed.

Definition nests (e : env) (v : val) : Prop := forall t j, doc e t v j -> nesting j = depth v.

Lemma all_nested : forall e v, nests e v /\ forall x, v = VSome x -> nests e x.
Proof.
  intros e.
  induction v as [| |b|z|f|s|b|z|z|l IH|l IH|i v IH|l IH| |v IH| |v IH|a v IH] using val_ind';
    (split; [intros t j D|intros x E; first [discriminate E|injection E as <-; exact (proj1 IH)]]); try (inversion D; fail);
    try (inversion D; subst; reflexivity).
  - assert (W : Forall (nests e) l) by (eapply Forall_impl; [|exact IH]; now intros v [? _]).
    assert (X : exists js, j = JArr js /\ list_max (map nesting js) = list_max (map depth l)).
    { inversion D; subst; eexists; split; try reflexivity; apply list_max_map_eq; clear D IH.
      1-3: match goal with F : Forall2 _ _ _ |- _ => revert W; induction F; intros W; inversion W; subst; constructor; eauto end.
      all: match goal with F : parts_doc _ _ _ _ |- _ => revert W; induction F; intros W; inversion W; subst; constructor; eauto end. }
    destruct X as (js & -> & X). cbn. now f_equal.
  - assert (W : Forall (fun p => nests e (snd p)) l) by (eapply Forall_impl; [|exact IH]; now intros p [? _]).
    inversion D as [| | | | | | | | | | | | | |o' u' l0 l' ps Pm E| | | |]; subst.
    assert (P : Permutation l l') by (destruct o'; subst; auto). cbn. f_equal.
    transitivity (list_max (map (fun p => depth (snd p)) l')); [|symmetry; apply list_max_perm, Permutation_map, P].
    apply list_max_map_eq. pose proof (Permutation_Forall P W) as W'. clear - E W'. induction E; inversion W'; subst; constructor; eauto.
  - inversion D; subst. cbn. f_equal. match goal with X : members_doc _ _ _ _ |- _ => rename X into F end. clear D.
    assert (S : forall x, In (VSome x) l -> nests e x) by (intros x I; rewrite Forall_forall in IH; destruct (IH _ I); auto).
    assert (W : Forall (nests e) l) by (eapply Forall_impl; [|exact IH]; now intros v [? _]). clear IH.
    induction F as [|m ms v vs j l K G F IH|m ms v vs j l K G F IH|m ms vs l K F IH]; inversion W; subst; [reflexivity| | |]; cbn.
    + unfold list_max in IH. rewrite IH; auto; [f_equal; eauto|intros x I; apply S; now right].
    + unfold list_max in IH. rewrite IH; auto; [f_equal; eapply S; eauto; now left|intros x I; apply S; now right].
    + apply IH; auto. intros x I. apply S. now right.
  - inversion D; subst. cbn. eapply (proj1 IH); eauto.
Qed.

(** * Types that the parser can read *)
Lemma part_type : forall e t j u j', parser_classes e -> parser_type t = true -> part e t j u j' -> unfinished u = false /\ parser_type u = true.
Proof.
  intros e t j u j' PC PT P.
  assert (B : forall b c, negb b && c = true -> b = false /\ c = true) by (intros [] []; cbn; auto; discriminate).
  destruct P; cbn [parser_type] in PT; unfold element in *.
  1,2: apply andb_prop in PT; destruct PT as [PT ?]; apply andb_prop in PT; destruct PT as [PT _]; split; auto; now apply negb_true_iff in PT.
  - auto.
  - apply andb_prop in PT. destruct PT as [Pa Pb]. destruct i as [|[|[|i]]]; cbn in H; inversion H; subst; auto.
  - rewrite forallb_forall in PT. apply nth_error_In in H. auto.
  - auto.
  - specialize (PC c). rewrite forallb_forall in PC. auto.
Qed.

Lemma at_type : forall e t j u j', parser_classes e -> reads_at e t j u j' -> parser_type t = true -> parser_type u = true.
Proof.
  intros e t j u j' PC R. induction R as [t j|u j t' j' R IH|t j u j1 t' j' P R IH]; intros T; auto.
  apply IH. eapply part_type; eauto.
Qed.

Lemma type_parseable : forall e t j, parser_classes e -> parser_type t = true -> parseable e t j.
Proof.
  intros e t j PC PT. split.
  - intros t1 j1 u j2 R P. eapply (part_type e t1 j1); eauto. eapply at_type; eauto.
  - intros u js [R|R]; right; apply at_type in R; auto; cbn in R; unfold element in R; apply andb_prop in R; destruct R as [R _]; apply andb_prop in R;
      destruct R as [_ R]; now apply negb_true_iff in R.
Qed.

(** * The parser gives the value back *)
Lemma float_range_of : forall f, in_format binary32 f = true -> is_finite f = true -> float_range f.
Proof.
  intros f I F. split; auto.
  assert (Z0 : forall k, 0 <= (2 ^ prec binary32 - 1) * 2 ^ (emax binary32 - prec binary32 - k)).
  { intros k. apply Z.mul_nonneg_nonneg; [cbn; lia|apply Z.pow_nonneg; lia]. }
  destruct f; try discriminate F; unfold NumericSpec.within, scaled; cbn [expo]; [apply Z0|]. clear Z0.
  unfold in_format in I. apply andb_prop in I. destruct I as [I I4]. apply andb_prop in I. destruct I as [I I3]. apply andb_prop in I. destruct I as [_ I2].
    cbn [prec emin emax binary32] in I2, I3, I4. apply Z.leb_le in I2, I3, I4. pose proof (bits_spec m) as B. pose proof (bits_pos m) as B1.
    replace (Z.abs _) with (Zpos m * 2 ^ (e - Z.min e 104)).
    2: { assert (0 <= Zpos m * 2 ^ (e - Z.min e 104)) by (apply Z.mul_nonneg_nonneg; try lia; apply Z.pow_nonneg; lia). destruct s; lia. }
    cbn [prec emax binary32]. destruct (Z.le_gt_cases e 104).
    + rewrite Z.min_l by lia. replace (e - e) with 0 by lia. replace (128 - 24 - e) with (104 - e) by lia.
      assert (2 ^ bits m <= 2 ^ 24) by (apply Z.pow_le_mono_r; lia). assert (0 < 2 ^ (104 - e)) by (apply Z.pow_pos_nonneg; lia). nia.
    + rewrite Z.min_r by lia. replace (128 - 24 - 104) with 0 by lia.
      assert (2 ^ bits m <= 2 ^ (128 - e)) by (apply Z.pow_le_mono_r; lia).
      assert (0 < 2 ^ (e - 104)) by (apply Z.pow_pos_nonneg; lia).
      assert (2 ^ (128 - e) * 2 ^ (e - 104) = 2 ^ 24) by (rewrite <- Z.pow_add_r by lia; f_equal; lia). nia.
Qed.

Lemma write_then_parse : forall e fuel t v, supported e fuel -> fresh_classes e -> parser_classes e -> legible e -> iterates e ->
  ordinary_type t -> parser_type t = true -> holds e t v -> (depth v <= 84)%nat ->
  exists j, serialize_to_document e t v = SOk [] j /\ parse e fuel real_capacity t j = PReturned v.
Proof.
  intros e fuel t v S F PC LG IT T PT H N.
  assert (NM : named e) by (intros c; eapply supported_distinct; eauto).
  pose proof S as ((P & RC & TK) & _).
  destruct (proj1 (all_written e P IT TK v) t (proj1 T) H) as (j & D & G).
  exists j. split; [apply G|].
  eapply agree_backward; eauto.
  - eapply all_clean; eauto.
  - intros c l R k I. destruct (doc_at e t j _ _ NM R v H D) as (w & Hw & Dw). inversion Dw; subst. eapply members_doc_names; eauto.
  - intros u j' R Su. destruct (doc_at e t j _ _ NM R v H D) as (w & Hw & Dw). inversion Dw; subst; cbn; auto. inversion Hw; subst. now apply float_range_of.
  - now apply type_parseable.
  - destruct (all_nested e v) as [X _]. now rewrite (X _ _ D).
  - apply accepts_exactly; [split; [|split]; auto|auto|]. eapply all_read_back; eauto.
Qed.

Lemma holds_finite : forall e, forall v, (forall t, holds e t v -> finite v = true) /\ (forall x, v = VSome x -> forall t, holds e t x -> finite x = true).
Proof.
  intros e.
  induction v as [| |b|z|f|s|b|z|z|l IH|l IH|i v IH|l IH| |v IH| |v IH|a v IH] using val_ind';
    (split; [intros t H|intros x E; first [discriminate E|injection E as <-; exact (proj1 IH)]]); try reflexivity; try (inversion H; subst; auto; fail).
  - cbn. apply forallb_forall. intros x I. rewrite Forall_forall in IH. destruct (IH _ I) as [W _].
    inversion H as [| | | | | | | | | | |u l' S F|u l' F|u l' F S| |a b y z Ha Hb|ts l' F| | | |]; subst; try (rewrite Forall_forall in F; eauto; fail).
    + destruct I as [<-|[<-|[]]]; eauto.
    + apply In_nth_error in I. destruct I as (i & I). destruct (forall2_in_r _ _ _ _ _ F x (nth_error_In _ _ I)) as (u & _ & Hu). eauto.
  - cbn. apply forallb_forall. intros x I. rewrite Forall_forall in IH. destruct (IH _ I) as [W _].
    inversion H as [| | | | | | | | | | | | | |o u l' F S| | | | | |]; subst. rewrite Forall_forall in F. eapply W. apply F; auto.
  - inversion H; subst. cbn. eapply (proj1 IH); eauto.
  - cbn. apply forallb_forall. intros x I. rewrite Forall_forall in IH. destruct (IH _ I) as [W W2].
    inversion H as [| | | | | | | | | | | | | | | | |c l' F| | |]; subst. destruct (forall2_in_r _ _ _ _ _ F x I) as (m & _ & Hm).
    inversion Hm; subst; cbn; eauto.
  - inversion H; subst. cbn. eapply (proj1 IH); eauto.
  - inversion H; subst. cbn. eapply (proj1 IH); eauto.
Qed.

Lemma written_text : forall render e t v str j, holds e t v -> serialize_to_document e t v = SOk [] j ->
  write_to_string render e t v str = Some (true, document_to_string render j).
Proof. intros render e t v str j H S. pose proof (same_text render e t v str (proj1 (holds_finite e v) t H)) as X. now rewrite S in X. Qed.

Lemma text_round_trip : forall render e fuel t v str, supported e fuel -> fresh_classes e -> parser_classes e -> legible e -> iterates e ->
  ordinary_type t -> parser_type t = true -> holds e t v -> (depth v <= 84)%nat ->
  exists j, write_to_string render e t v str = Some (true, render (events j)) /\ parse e fuel real_capacity t j = PReturned v.
Proof.
  intros render e fuel t v str S F PC LG IT T PT H N. destruct (write_then_parse e fuel t v S F PC LG IT T PT H N) as (j & Sj & P).
  exists j. split; auto. now apply written_text.
Qed.

(** * The other reader *)
Lemma document_of : forall e t v, ordinary e -> iterates e -> plain t = true -> holds e t v ->
  exists j, doc e t v j /\ serialize_to_document e t v = SOk [] j.
Proof.
  intros e t v (P & _ & TK) IT T H. destruct (proj1 (all_written e P IT TK v) t T H) as (j & D & G). exists j. split; auto. apply G.
Qed.

Lemma doc_round_trip : forall e t v, ordinary e -> named e -> iterates e -> ordinary_type t -> holds e t v ->
  exists j, serialize_to_document e t v = SOk [] j /\ deserialize_throw e t j = Returned v /\ forall obj, deserialize e t j obj = DRet true start v.
Proof.
  intros e t v O NM IT T H. destruct (document_of e t v O IT (proj1 T) H) as (j & D & S). exists j. split; auto.
  assert (X : forall old, denotes e t old j v) by (intros old; eapply all_read_back; eauto; apply O).
  split; [apply accepts_exactly; auto|]. intros obj. now apply all_read.
Qed.
