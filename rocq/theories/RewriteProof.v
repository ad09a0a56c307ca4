(** What was read can be written and read again. *)
From Coq Require Import List Arith ZArith NArith Ascii String Bool Lia Relations Sorted.
From Verif Require Import Base Float NumericModel Base64Spec DatetimeSpec DatetimeProof EnumModel EnumProof Json Types DenoteSpec RoundSpec
  SchemaGenSpec SafetySpec SafetyProof DenoteProof MapFacts RewriteSpec.
Import ListNotations.

Lemma finite_in : forall l x, fold_right (fun x P => finite x /\ P) True l -> In x l -> finite x.
Proof. intros l x. induction l as [|y l IH]; cbn; [tauto|]. intros [F R] [<-|I]; auto. Qed.

Lemma finite_entry : forall (l : list (string * val)) p, fold_right (fun p P => finite (snd p) /\ P) True l -> In p l -> finite (snd p).
Proof. intros l x. induction l as [|y l IH]; cbn; [tauto|]. intros [F R] [<-|I]; auto. Qed.

(** * Sets and maps *)

Lemma insert_in : forall lt l x y, In y (set_insert lt l x) -> y = x \/ In y l.
Proof.
  intros lt l x y. induction l as [|z l IH]; cbn; [intros [<-|[]]; auto|].
  destruct (lt x z); [intros [<-|I]; auto|]. destruct (lt z x); [|auto]. intros [<-|I]; [auto|]. destruct (IH I); auto.
Qed.

Lemma inserted_in : forall lt vs l y, In y (fold_left (set_insert lt) vs l) -> In y vs \/ In y l.
Proof.
  intros lt vs. induction vs as [|x vs IH]; cbn; intros l y I; [auto|]. destruct (IH _ _ I) as [J|J]; [auto|].
  apply insert_in in J as [-> | J]; auto.
Qed.

Definition rising (lt : val -> val -> bool) : list val -> Prop := StronglySorted (fun x y => lt x y = true /\ lt y x = false).

Lemma insert_rising : forall lt l x, ordered lt -> rising lt l -> rising lt (set_insert lt l x).
Proof.
  intros lt l x [As Tr] S. induction S as [|y l S IH F]; cbn; [repeat constructor|]. destruct (lt x y) eqn:A.
  - constructor; [now constructor|]. constructor; [auto|]. eapply Forall_impl; [|exact F]. intros z [B C]. assert (lt x z = true) by eauto. auto.
  - destruct (lt y x) eqn:B; [|now constructor]. constructor; [exact IH|]. rewrite Forall_forall in *. intros z I.
    apply insert_in in I as [-> | I]; auto.
Qed.

Lemma inserted_rising : forall lt vs l, ordered lt -> rising lt l -> rising lt (fold_left (set_insert lt) vs l).
Proof. intros lt vs. induction vs as [|x vs IH]; cbn; intros l O S; [exact S|]. apply IH, insert_rising; auto. Qed.

Lemma assign_in : forall m k v p, In p (map_assign m k v) -> p = (k, v) \/ In p m.
Proof.
  intros m k v p. induction m as [|[n w] m IH]; cbn; [intros [<-|[]]; auto|].
  destruct (str_ltb k n) eqn:A; [intros [<-|I]; auto|]. destruct (str_ltb n k) eqn:B; intros [<-|I]; auto; [destruct (IH I); auto|].
  pose proof (str_ltb_total _ _ A B) as ->. auto.
Qed.

Lemma assigned_in : forall (ps m : list (string * val)) p, In p (fold_left (fun m p => map_assign m (fst p) (snd p)) ps m) -> In p ps \/ In p m.
Proof.
  intros ps. induction ps as [|[k v] ps IH]; cbn; intros m p I; [auto|]. destruct (IH _ _ I) as [J|J]; [auto|].
  apply assign_in in J as [-> | J]; auto.
Qed.

Lemma assigned_ascending : forall ps m, ascending m -> ascending (fold_left (fun m p => map_assign m (fst p) (snd p)) ps m).
Proof. intros ps. induction ps as [|[k v] ps IH]; cbn; intros m S; [exact S|]. now apply IH, map_assign_ascending. Qed.

Lemma until_nul_twice : forall s, until_nul (until_nul s) = until_nul s.
Proof. induction s as [|c s IH]; cbn; [reflexivity|]. destruct (Ascii.eqb c Ascii.zero) eqn:E; cbn; [reflexivity|]. now rewrite E, IH. Qed.

Lemma same_length : forall A B (R : A -> B -> Prop) l l', Forall2 R l l' -> List.length l = List.length l'.
Proof. intros A B R l l' H. induction H; cbn; congruence. Qed.

(** * Objects to read into *)
Section Ready.
Variable e : env.
Hypothesis fresh : ready_classes e.

Lemma ready_init : forall t, ready e t (dinit e t) /\ ready e t (vinit e t).
Proof.
  induction t using ty_ind'; try (split; apply ready_other; reflexivity); try apply fresh.
  - cbn. destruct IHt1, IHt2. split; apply ready_pair; (constructor; [|constructor; [|constructor]]); assumption.
  - cbn. assert (F : Forall2 (ready e) ts (map (vinit e) ts)) by (induction H as [|t l [_ Ht] F IH]; cbn; constructor; auto).
    split; apply ready_tuple; exact F.
Qed.

Lemma holds_ready : forall v t, holds e t v -> ready e t v.
Proof.
  assert (M : forall ts l, Forall (fun v => forall t, holds e t v -> ready e t v) l -> Forall2 (holds e) ts l -> Forall2 (ready e) ts l).
  { intros ts l F H. induction H as [|t v ts l Ht H IH]; constructor; inversion F; subst; auto. }
  induction v as [| |b|z|f|s|b|z|z|l IH|l IH|i v IH|l IH| |v IH| |v IH|a v IH] using val_ind'; intros t H; inversion H; subst; try (apply ready_other; reflexivity).
  - apply ready_pair, M; auto.
  - now apply ready_tuple, M.
  - apply ready_class. match goal with F : Forall2 _ _ l |- _ => revert F end. generalize (c_members (class_of e c)). clear H. revert IH.
    induction l as [|x l IHl]; intros IH ms F; inversion F as [|m y ms' l' Hm F']; subst; constructor.
    + inversion IH; subst. inversion Hm; subst; [split; auto|..]; split; intros K; congruence.
    + inversion IH; subst. auto.
Qed.

Variable T : ty.
Variable root : json.
Hypothesis types : rewritable e T.
Hypothesis numbers : doubles root.

Lemma double_format : forall f, inside (JDbl f) root -> match f with FFin _ m _ => odd_pos m = true | _ => True end.
Proof.
  intros f I. apply numbers in I. destruct f; auto. cbn in I. destruct (odd_pos m); [reflexivity|discriminate].
Qed.

Lemma integer_format : forall z, match fl_of_Z z with FFin _ m _ => odd_pos m = true | _ => True end.
Proof. intros z. destruct z as [|p|p]; cbn; try exact I; destruct (strip p) eqn:S; apply strip_spec in S; tauto. Qed.

Lemma rounded_format : forall f, in_format binary64 f = true -> match f with FFin _ m _ => odd_pos m = true | _ => True end.
Proof. intros f H. destruct f; auto. cbn in H. destruct (odd_pos m); [reflexivity|discriminate]. Qed.

Notation within := SchemaGenSpec.within.

Definition good (v : val) : Prop := forall t old j, reachable e t T -> inside j root -> ready e t old -> denotes e t old j v -> finite v -> holds e t v.

Lemma parts_hold : forall vs, Forall good vs -> forall ts olds js, Forall (fun t => reachable e t T) ts -> (forall j, In j js -> inside j root) ->
  Forall2 (ready e) ts olds -> parts_denote (denotes e) ts olds js vs -> fold_right (fun x P => finite x /\ P) True vs -> Forall2 (holds e) ts vs.
Proof.
  intros vs G. induction G as [|v vs Gv G IH]; intros ts olds js R J O D F; inversion D; subst; constructor; inversion R; inversion O; subst; cbn in *.
  - eapply Gv; [assumption|apply J; now left|eassumption|eassumption|tauto].
  - eapply IH; eauto. tauto.
Qed.

Lemma members_hold : forall vs, Forall good vs -> (forall x, In (VSome x) vs -> good x) -> forall l ms olds, Forall (fun m => reachable e (m_ty m) T) ms -> inside (JObj l) root ->
  Forall2 (fun m v => (m_kind m = MDefault -> holds e (m_ty m) v) /\ (m_kind m = MRequired -> ready e (m_ty m) v)) ms olds ->
  members_denote (denotes e) e l ms olds vs -> fold_right (fun x P => finite x /\ P) True vs -> Forall2 (member_holds (holds e)) ms vs.
Proof.
  intros vs G. induction G as [|v vs Gv G IH]; intros Go l ms olds R J O D F; inversion D as [|m ms' olds' v' vs' Dm D']; subst; constructor;
    inversion R; inversion O as [|? old ? olds' [Od Or]]; subst; cbn in *.
  - assert (Rd : m_kind m <> MOptional -> ready e (m_ty m) old).
    { intros K. destruct (m_kind m); [auto|apply holds_ready; auto|congruence]. }
    inversion Dm; subst.
    + apply member_held; [assumption|]. eapply Gv; [assumption|eapply member_inside; [apply find_in; eassumption|exact J]|auto|eassumption|tauto].
    + apply member_held; [congruence|auto].
    + apply member_filled; [assumption|]. eapply Go; [now left|assumption|eapply member_inside; [apply find_in; eassumption|exact J]| |eassumption|exact (proj1 F)].
      apply (proj1 (ready_init (m_ty m))).
    + now apply member_empty.
  - eapply IH; eauto. tauto.
Qed.

Lemma elements_hold : forall l t js vs, (forall x, In x l -> In x vs) -> Forall good l -> reachable e t T -> inside (JArr js) root ->
  Forall2 (denotes e t (dinit e t)) js vs -> fold_right (fun x P => finite x /\ P) True l -> Forall (holds e t) l.
Proof.
  intros l t js vs S G R J D F. rewrite Forall_forall in *. intros x I. pose proof (finite_in l x F I) as Fx.
  assert (exists j, In j js /\ denotes e t (dinit e t) j x) as (j & Ij & Dj).
  { apply S in I. clear - D I. induction D as [|j v js vs H D IH]; [destruct I|]. destruct I as [<-|I]; [exists j; split; [now left|exact H]|].
    destruct (IH I) as (j' & A & B). exists j'. split; [now right|exact B]. }
  eapply (G x I); [exact R|eapply element_inside; eassumption|apply (proj1 (ready_init t))|exact Dj|exact Fx].
Qed.

Definition better (v : val) : Prop := good v /\ match v with VSome x => good x | _ => True end.

Lemma betters : forall l, Forall better l -> Forall good l.
Proof. intros l. apply Forall_impl. intros v [G _]. exact G. Qed.

Lemma all_good : forall v, better v.
Proof.
  destruct types as (En & Ve & Se & By).
  induction v as [| |b|z|f|s|b|z|z|l IH|l IH|i v IH|l IH| |v IH| |v IH|a v IH] using val_ind'; (split; [|first [exact I|exact (proj1 IH)]]).
  all: try (intros t old j R J O D F; inversion D; subst; try (constructor; assumption)).
  - apply holds_enum_str; [apply (En _ R)|apply (En _ R)|]. apply in_map_iff. eapply ex_intro. split; [|eapply enum_from_string_some; eassumption]. reflexivity.
  - cbn in F. constructor; [|exact F]. apply round_in_format; [apply good32|now apply double_format].
  - cbn in F. constructor; [|exact F]. apply round_in_format; [apply good64|now apply double_format].
  - cbn in F. constructor; [|exact F]. apply round_in_format; [apply good32|]. apply rounded_format, round_in_format; [apply good64|apply integer_format].
  - cbn in F. constructor; [|exact F]. apply round_in_format; [apply good64|apply integer_format].
  - constructor. now apply By.
  - constructor; [assumption|]. now apply (year_range y m d hh mi ss).
  - constructor; [assumption|]. apply (year_range y m d 0 0 0); [|assumption]. split; [unfold time_ok; lia|]. exists z. split; [assumption|lia].
  - apply holds_vector; [now apply Ve|]. eapply elements_hold; eauto using betters. eapply part_reachable; [|exact R]. now left.
  - replace (List.length js) with (List.length l) by (symmetry; eapply same_length; eassumption). apply holds_array.
    eapply elements_hold; eauto using betters. eapply part_reachable; [|exact R]. now left.
  - apply holds_set; [|apply inserted_rising; [now apply Se|constructor]].
    eapply (elements_hold _ t0 js vs); eauto using betters; [|eapply part_reachable; [|exact R]; now left].
    intros x I. apply inserted_in in I as [I|[]]. exact I.
  - inversion O as [? ? X|? ? ol Fo| |]; subst; [discriminate X|].
    assert (Q : Forall2 (holds e) [a; b] l).
    { eapply parts_hold; [apply betters, IH| | |exact Fo|eassumption|exact F].
      - constructor; [|constructor; [|constructor]]; (eapply part_reachable; [|exact R]); cbn; auto.
      - intros x I. eapply element_inside; eassumption. }
    inversion Q as [|? x ? ? Qa Q']; subst. inversion Q' as [|? y ? ? Qb Q'']; subst. inversion Q''; subst. now apply holds_pair.
  - inversion O as [? ? X| |? ol Fo|]; subst; [discriminate X|]. apply holds_tuple.
    eapply parts_hold; [apply betters, IH| | |exact Fo|eassumption|exact F].
    + rewrite Forall_forall. intros u I. eapply part_reachable; [|exact R]. exact I.
    + intros x I. eapply element_inside; eassumption.
  - match goal with H : Forall2 _ l0 vs |- _ => rename H into Fm end. apply holds_map; [|apply assigned_ascending; constructor].
    rewrite Forall_forall in *. intros p I. pose proof (finite_entry _ p F I) as Fp. pose proof (IH p I) as [G _].
    apply assigned_in in I as [I|[]].
    assert (exists q, In q l0 /\ fst p = until_nul (fst q) /\ denotes e t0 (dinit e t0) (snd q) (snd p)) as (q & Iq & Eq & Dq).
    { clear - Fm I. induction Fm as [|q v l vs H Fm IHf]; [destruct I|]. cbn in I. destruct I as [<-|I]; [exists q; cbn; repeat split; auto|].
      destruct (IHf I) as (q' & A & B & C). exists q'. cbn. auto. }
    split; [rewrite Eq; apply until_nul_twice|]. apply (G t0 (dinit e t0) (snd q)); auto; [eapply part_reachable; [|exact R]; now left|..|apply ready_init].
    destruct q as [k x]. eapply member_inside; eassumption.
  - inversion O as [? ? X| | |? ol Fo]; subst; [discriminate X|]. apply holds_class.
    eapply members_hold; [apply betters, IH| |..|exact Fo|eassumption|exact F].
    + intros x I. rewrite Forall_forall in IH. exact (proj2 (IH _ I)).
    + rewrite Forall_forall. intros m I. eapply part_reachable; [|exact R]. cbn. apply in_map_iff. exists m. auto.
    + exact J.
  - apply holds_unique. apply (proj1 IH t0 (vinit e t0) j); auto; [eapply part_reachable; [|exact R]; now left|apply ready_init].
Qed.
End Ready.
