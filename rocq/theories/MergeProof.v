(** The parser gives exactly the values of MergeSpec.v. *)
From Coq Require Import List Arith Lia ZArith NArith Ascii String Bool.
From Verif Require Import Base Float NumericModel NumericSpec NumericProof HashModel HashProof DispatchModel DispatchProof
  Base64Model Base64Spec Base64Decode DatetimeModel DatetimeSpec DatetimeProof EnumModel Json Events Types SerializeModel DeserializeModel DenoteSpec DenoteProof
  MapFacts ParseModel ParseRead ParseSpec PlaceFacts ParseProof ParseFacts ParseLimit MergeSpec.
Import ListNotations.

(** * Names *)

Lemma list_ascii_inj : forall a b, list_ascii_of_string a = list_ascii_of_string b -> a = b.
Proof. intros a b H. rewrite <- (string_of_list_ascii_of_string a), <- (string_of_list_ascii_of_string b). now f_equal. Qed.

Definition names_of (ms : list member) : list (list ascii) := map (fun m => list_ascii_of_string (m_name m)) ms.

Lemma dispatch_total : forall fuel names key, names <> [] ->
  (N.of_nat (List.length names) <= 2 ^ 63)%N -> (N.of_nat fuel < 2 ^ 63)%N ->
  (3 <= List.length names -> exists table, build fuel names = Ok table) -> exists r, dispatch fuel names key = Ok r.
Proof.
  intros fuel names key Hn Hl Hf Hb. pose proof (dispatch_not_bad fuel names key Hn Hl Hf) as Hbad.
  destruct names as [|x [|y [|z names]]]; [congruence|cbn; eauto|cbn; eauto|].
  destruct Hb as (table & Hb); [cbn; lia|]. destruct (build_good _ _ _ Hn Hl Hf Hb) as [_ Hi].
  destruct (Hi key) as (k & Hk & Hk'). destruct (nth_error (x :: y :: z :: names) k) as [found|] eqn:E;
    [|apply nth_error_None in E; lia].
  remember (x :: y :: z :: names) as l eqn:El. assert (Ed : dispatch fuel l key = if negb (same found key) then Ok None else match visit_at (List.length l) k with Some m => Ok (Some m) | None => Bad end).
  { subst l. unfold dispatch. rewrite Hb. unfold rbind. cbv zeta. rewrite Hk, E. reflexivity. }
  rewrite Ed in *.
  destruct (negb _); eauto. destruct (visit_at _ _); eauto. congruence.
Qed.

Section Names.
Variable e : env.
Variable fuel : nat.
Hypothesis Hr : routed e fuel.

Lemma dispatch_member : forall c i m, nth_error (c_members (class_of e c)) i = Some m ->
  dispatch fuel (names_of (c_members (class_of e c))) (list_ascii_of_string (m_name m)) = Ok (Some i).
Proof.
  intros c i m Hi. destruct Hr as [Hf Hc]. destruct (Hc c) as (Hd & Hl & Hb). set (ms := c_members (class_of e c)) in *.
  assert (Hn : names_of ms <> []) by (destruct ms; [destruct i|]; discriminate).
  assert (Hl' : (N.of_nat (List.length (names_of ms)) <= 2 ^ 63)%N) by (unfold names_of; now rewrite map_length).
  destruct (dispatch_total fuel (names_of ms) (list_ascii_of_string (m_name m)) Hn Hl' Hf) as (r & Er).
  { unfold names_of. rewrite map_length. exact Hb. }
  pose proof (dispatch_ok _ _ _ _ Hn Hl' Hf Er) as Hp. rewrite Er. repeat f_equal.
  assert (Hin : nth_error (names_of ms) i = Some (list_ascii_of_string (m_name m))).
  { unfold names_of. now rewrite nth_error_map, Hi. }
  destruct r as [k|]; cbn in Hp.
  - f_equal. assert (NoDup (names_of ms)).
    { unfold names_of. rewrite <- (map_map m_name list_ascii_of_string). apply FinFun.Injective_map_NoDup; auto.
      intros a b. apply list_ascii_inj. }
    assert (k < List.length (names_of ms)) by (apply nth_error_Some; congruence).
    rewrite NoDup_nth_error in H. apply H; auto. congruence.
  - exfalso. apply Hp. eapply nth_error_In; eauto.
Qed.

Lemma dispatch_some : forall c k i, dispatch fuel (names_of (c_members (class_of e c))) (list_ascii_of_string k) = Ok (Some i) ->
  exists m, nth_error (c_members (class_of e c)) i = Some m /\ m_name m = k.
Proof.
  intros c k i H. destruct Hr as [Hf Hc]. destruct (Hc c) as (Hd & Hl & Hb). set (ms := c_members (class_of e c)) in *.
  destruct ms as [|m0 ms0] eqn:E.
  - exfalso. clear - H. cbn in H. destruct (build fuel []) as [t| |]; cbn in H; try discriminate.
  - rewrite <- E in *. assert (Hn : names_of ms <> []) by (rewrite E; discriminate).
    assert (Hl' : (N.of_nat (List.length (names_of ms)) <= 2 ^ 63)%N) by (unfold names_of; now rewrite map_length).
    pose proof (dispatch_ok _ _ _ _ Hn Hl' Hf H) as Hp. cbn in Hp. unfold names_of in Hp. rewrite nth_error_map in Hp.
    destruct (nth_error ms i) as [m|]; [|discriminate]. exists m. split; auto. apply list_ascii_inj. now inversion Hp.
Qed.
End Names.

(** * Scalars *)

Lemma float_range_iff : forall f, float_range f <-> assignable_ff binary32 binary64 f = true.
Proof.
  intros f. unfold float_range. rewrite (narrowing_exact f (Z.min (expo f) 104)); [tauto| |lia].
  destruct f; cbn; auto. lia.
Qed.

Definition integer_ok (z : Z) : Prop :=
  match integer_event z with
  | Some V => valid_ity V /\ in_range V z /\ ~ beyond_64 z /\ (digits V <= 32 -> Z.abs z < 2 ^ 32)%Z
  | None => beyond_64 z
  end.

Lemma in_signed : forall w z, (- 2 ^ (w - 1) <= z < 2 ^ (w - 1))%Z -> in_range {| width := w; is_signed := true |} z.
Proof. auto. Qed.

Lemma in_unsigned : forall w z, (0 <= z < 2 ^ w)%Z -> in_range {| width := w; is_signed := false |} z.
Proof. auto. Qed.

Lemma integer_event_ok : forall z, integer_ok z.
Proof.
  intros z. unfold integer_ok, integer_event, beyond_64.
  change (2 ^ 32)%Z with 4294967296%Z. change (2 ^ 64)%Z with 18446744073709551616%Z.
  change (- 2 ^ 31)%Z with (-2147483648)%Z. change (- 2 ^ 63)%Z with (-9223372036854775808)%Z.
  destruct (Z.leb_spec 0 z).
  - destruct (Z.ltb_spec z 4294967296); [|destruct (Z.ltb_spec z 18446744073709551616)].
    + cbv beta iota. split; [vm_compute; tauto|]. split; [apply in_unsigned; lia|]. split; [lia|]. intros _. lia.
    + cbv beta iota. split; [vm_compute; tauto|]. split; [apply in_unsigned; lia|]. split; [lia|]. unfold digits. cbn [is_signed width uint64]. lia.
    + cbv beta iota. lia.
  - destruct (Z.leb_spec (-2147483648) z); [|destruct (Z.leb_spec (-9223372036854775808) z)].
    + cbv beta iota. split; [vm_compute; tauto|]. split; [apply in_signed; lia|]. split; [lia|]. intros _. lia.
    + cbv beta iota. split; [vm_compute; tauto|]. split; [apply in_signed; lia|]. split; [lia|]. unfold digits. cbn [is_signed width int64]. lia.
    + cbv beta iota. lia.
Qed.

Lemma assignable_fi_complete : forall F V v, good_format F -> valid_ity V -> in_range V v ->
  (Z.abs v < 2 ^ prec F)%Z -> assignable_fi F V v = true.
Proof.
  intros F V v G HV HR H. pose proof (gf_prec F G). unfold assignable_fi.
  pose proof (width_pos V HV) as HW.
  destruct (Z.leb_spec (digits V) (prec F)) as [L|L]; [reflexivity|].
  destruct (is_signed V) eqn:SV.
  - destruct (neg_limit V F HV SV ltac:(lia)) as (R0 & R1 & R2 & R3 & R4 & R5).
    rewrite R0, R2. rewrite !clt_safe by (auto; left; congruence). apply andb_true_iff. split; apply Z.ltb_lt; lia.
  - assert (in_range V (2 ^ prec F)) as R1.
    { unfold in_range, digits in *. rewrite SV in *. pose proof (Z.pow_lt_mono_r 2 (prec F) (width V)).
      pose proof (Z.pow_pos_nonneg 2 (prec F)). lia. }
    rewrite wrap_id by auto. rewrite clt_safe by auto. apply Z.ltb_lt. lia.
Qed.

Lemma float_integer : forall z V, integer_event z = Some V ->
  (assignable_fi binary32 V z = true <-> (Z.abs z < 2 ^ 24)%Z).
Proof.
  intros z V E. pose proof (integer_event_ok z) as H. unfold integer_ok in H. rewrite E in H. destruct H as (Hv & Hz & _ & _).
  split; [|intros; apply assignable_fi_complete; auto; apply good32].
  intros H. destruct (assignable_fi_bound binary32 V z good32 Hv Hz H) as [?|[_ Hd]]; auto.
  exfalso. revert Hd. clear - E. unfold integer_event in E.
  repeat match type of E with (if ?b then _ else _) = _ => destruct b end; inversion E; subst; vm_compute; congruence.
Qed.

Lemma double_integer : forall z V, integer_event z = Some V ->
  (assignable_fi binary64 V z = true <-> (Z.abs z < 2 ^ 53)%Z).
Proof.
  intros z V E. pose proof (integer_event_ok z) as H. unfold integer_ok in H. rewrite E in H. destruct H as (Hv & Hz & _ & Hs).
  split; [|intros; apply assignable_fi_complete; auto; apply good64].
  intros H. destruct (assignable_fi_bound binary64 V z good64 Hv Hz H) as [?|[_ Hd]]; auto.
  assert (digits V <= 32)%Z; [|specialize (Hs H0); lia].
  revert Hd. clear - E. unfold integer_event in E.
  repeat match type of E with (if ?b then _ else _) = _ => destruct b end; inversion E; subst; vm_compute; congruence.
Qed.

Lemma no_beyond : forall k z, existsb (Z.eqb (width k)) [8; 16; 32; 64]%Z = true -> in_range k z -> ~ beyond_64 z.
Proof.
  intros k z H Hz Hb. apply Hb. apply real_valid in H. clear Hb. destruct k as [w s]. unfold valid_ity, int_widths, in_range in *.
  cbn in H. cbn [width is_signed] in Hz. destruct H as [<-|[<-|[<-|[<-|[]]]]]; destruct s; cbn in Hz; lia.
Qed.

Lemma assign_int : forall k z, existsb (Z.eqb (width k)) [8; 16; 32; 64]%Z = true ->
  (in_range k z -> exists V, integer_event z = Some V /\ assignable_ii k V z = true /\ wrap k z = z) /\
  (forall V, integer_event z = Some V -> assignable_ii k V z = true -> in_range k z /\ wrap k z = z).
Proof.
  intros k z Hk. pose proof (integer_event_ok z) as H. unfold integer_ok in H. pose proof (real_valid k Hk) as Hv. split.
  - intros Hz. destruct (integer_event z) as [V|]; [|elim (no_beyond k z Hk Hz); auto].
    exists V. split; auto. destruct H as (HV & HV' & _). split; [now apply assignable_ii_exact|].
    apply wrap_id; auto. now apply width_pos.
  - intros V E Ha. rewrite E in H. destruct H as (HV & HV' & _). apply assignable_ii_exact in Ha; auto.
    split; auto. apply wrap_id; auto. now apply width_pos.
Qed.

(** A scalar value for the first event of a document. *)
Definition given (t : ty) (v : val) : sres := match t with TEnumStr _ => SStay v | _ => SAssign v end.

Lemma scalar_given : forall e t old j v, (0 < tick e)%Z -> scalar_type t = true -> real_ints t = true ->
  denotes e t old j v -> exact_number t j -> scalar e t (head j) = given t v.
Proof.
  intros e t old j v Ht Hs Hr Hd Hx. destruct t; try discriminate; inversion Hd; subst; cbn [head scalar given]; try reflexivity.
  - cbn [number_event]. match goal with Hz : in_range k z |- _ => destruct (proj1 (assign_int k z Hr) Hz) as (V & -> & Ha & Hw) end. cbn. now rewrite Ha, Hw.
  - cbn in Hx. apply float_range_iff in Hx. cbn [number_event assign_number]. now rewrite Hx.
  - cbn [number_event]. pose proof (integer_event_ok z) as Hz. unfold integer_ok in Hz. cbn in Hx.
    destruct (integer_event z) as [V|] eqn:E; cbn [assign_number].
    + destruct Hx as [Hx|[Hx _]]; [|tauto]. rewrite (proj2 (float_integer z V E) Hx). do 2 f_equal.
      symmetry. f_equal. apply round_exact. apply fl_of_Z_in_format; [apply good64| |vm_compute; congruence].
      change (prec binary64) with 53%Z. lia.
    + destruct Hx as [Hx|[_ Hx]]; [exfalso; apply Hz; lia|]. apply float_range_iff in Hx. now rewrite Hx.
  - cbn [number_event]. pose proof (integer_event_ok z) as Hz. unfold integer_ok in Hz. cbn in Hx.
    destruct (integer_event z) as [V|] eqn:E; cbn [assign_number].
    + destruct Hx as [Hx|Hx]; [|tauto]. now rewrite (proj2 (double_integer z V E) Hx).
    + change (assignable_ff binary64 binary64 _) with true. cbv iota. now rewrite round64_of_Z.
  - replace (base64_decode (list_ascii_of_string s)) with (Some (true, data)); [reflexivity|]. symmetry. apply decode_iff. eauto.
  - replace (parse_datetime (tick e) (list_ascii_of_string s)) with (Some (Some (sec * tick e)%Z)); [reflexivity|].
    symmetry. apply parse_datetime_iff. exists sep, y, m, d, hh, mi, ss, sec. auto 8.
  - replace (parse_date (tick e) (list_ascii_of_string s)) with (Some (Some (n * 86400 * tick e)%Z)).
    + now rewrite ticks_day_exact.
    + symmetry. apply date_iff; auto. exists y, m, d. auto.
  - cbn [number_event]. match goal with Hz : in_range k z |- _ => destruct (proj1 (assign_int k z Hr) Hz) as (V & -> & Ha & Hw) end. cbn. now rewrite Ha, Hw.
  - match goal with Hn : enum_from_string _ _ = _ |- _ => now rewrite Hn end.
Qed.

Lemma scalar_means : forall e t old j v, (0 < tick e)%Z -> scalar_type t = true -> real_ints t = true ->
  scalar e t (head j) = SAssign v \/ scalar e t (head j) = SStay v -> denotes e t old j v /\ exact_number t j /\ scalar e t (head j) = given t v.
Proof.
  intros e t old j v Ht Hs Hr H. destruct t; try discriminate; cbn [scalar given] in *.
  - destruct j; cbn in *; destruct H as [H|H]; inversion H; subst. repeat split; constructor.
  - destruct j; cbn in *; destruct H as [H|H]; inversion H; subst. repeat split; constructor.
  - destruct j; cbn [head number_event] in *; try (destruct H; discriminate).
    destruct (integer_event z) as [V|] eqn:E; cbn [assign_number] in *; [|destruct H; discriminate].
    destruct (assignable_ii k V z) eqn:Ea; [|destruct H; discriminate].
    destruct (proj2 (assign_int k z Hr) V E Ea) as [Hz Hw]. destruct H as [H|H]; inversion H; subst. rewrite Hw.
    repeat split; cbn; auto. now constructor.
  - destruct j; cbn [head number_event] in *; try (destruct H; discriminate).
    + pose proof (integer_event_ok z) as Hz. unfold integer_ok in Hz.
      destruct (integer_event z) as [V|] eqn:E; cbn [assign_number] in *.
      * destruct (assignable_fi binary32 V z) eqn:Ea; [|destruct H; discriminate]. apply float_integer in Ea; auto.
        destruct H as [H|H]; inversion H; subst. repeat split; cbn; auto.
        replace (fl_of_Z z) with (Float.round binary64 (fl_of_Z z)) at 1; [constructor|].
        apply round_exact. apply fl_of_Z_in_format; [apply good64| |vm_compute; congruence].
        change (prec binary64) with 53%Z. lia.
      * destruct (assignable_ff binary32 binary64 _) eqn:Ea; [|destruct H; discriminate]. apply float_range_iff in Ea; auto.
        destruct H as [H|H]; inversion H; subst. repeat split; cbn; auto. constructor.
    + cbn [assign_number] in *. destruct (assignable_ff binary32 binary64 f) eqn:Ea; [|destruct H; discriminate].
      apply float_range_iff in Ea. destruct H as [H|H]; inversion H; subst. repeat split; cbn; auto; try constructor; apply Ea.
  - destruct j; cbn [head number_event] in *; try (destruct H; discriminate).
    + pose proof (integer_event_ok z) as Hz. unfold integer_ok in Hz.
      destruct (integer_event z) as [V|] eqn:E; cbn [assign_number] in *.
      * destruct (assignable_fi binary64 V z) eqn:Ea; [|destruct H; discriminate]. apply double_integer in Ea; auto.
        destruct H as [H|H]; inversion H; subst. repeat split; cbn; auto. constructor.
      * change (assignable_ff binary64 binary64 _) with true in *. cbv iota in *.
        destruct H as [H|H]; inversion H; subst. rewrite round64_of_Z. repeat split; cbn; auto. constructor.
    + cbn [assign_number] in *. change (assignable_ff binary64 binary64 _) with true in *. cbv iota in *.
      destruct H as [H|H]; inversion H; subst. repeat split; cbn; auto. constructor.
  - destruct j; cbn in *; destruct H as [H|H]; inversion H; subst. repeat split; constructor.
  - destruct j; cbn [head] in *; try (destruct H; discriminate).
    destruct (base64_decode (list_ascii_of_string s)) as [[[|] b]|] eqn:B; destruct H as [H|H]; inversion H; subst.
    apply decode_iff in B. destruct B as [values B]. repeat split; cbn; auto. econstructor; exact B.
  - destruct j; cbn [head] in *; try (destruct H; discriminate).
    destruct (parse_datetime (tick e) (list_ascii_of_string s)) as [[z|]|] eqn:B; destruct H as [H|H]; inversion H; subst.
    apply parse_datetime_iff in B.
    destruct B as (sep & y & m & d & hh & mi & ss & sec & S & Y & T & I & -> & B). repeat split; cbn; auto. econstructor; eassumption.
  - destruct j; cbn [head] in *; try (destruct H; discriminate).
    destruct (parse_date (tick e) (list_ascii_of_string s)) as [[z|]|] eqn:B; destruct H as [H|H]; inversion H; subst.
    pose proof (date_days e Ht s z B) as E. rewrite E in B. apply date_iff in B; auto.
    destruct B as (y & m & d & Y & T & C & B). repeat split; cbn; auto. econstructor; eassumption.
  - destruct j; cbn [head number_event] in *; try (destruct H; discriminate).
    destruct (integer_event z) as [V|] eqn:E; cbn [assign_number] in *; [|destruct H; discriminate].
    destruct (assignable_ii k V z) eqn:Ea; [|destruct H; discriminate].
    destruct (proj2 (assign_int k z Hr) V E Ea) as [Hz Hw]. destruct H as [H|H]; inversion H; subst. rewrite Hw.
    repeat split; cbn; auto. now constructor.
  - destruct j; cbn [head] in *; try (destruct H; discriminate).
    destruct (enum_from_string names s) eqn:E; destruct H as [H|H]; inversion H; subst. repeat split; cbn; auto. now constructor.
Qed.

(** * Documents *)

Definition ret (t : ty) (v : val) (a : nat) : rres := if unfinished t then ROpen v a else RDone v a.

(** The outcome is a value with property [P], if there is one. *)
Definition meets (t : ty) (a : nat) (P : val -> Prop) (x : rres) : Prop :=
  (forall v, P v -> x = ret t v a) /\
  (forall v a', x = RDone v a' \/ x = ROpen v a' -> P v /\ x = ret t v a).

(** The same without an unfinished handler. *)
Definition ends (a : nat) (P : val -> Prop) (x : rres) : Prop :=
  (forall v, P v -> x = RDone v a) /\
  (forall v a', x = RDone v a' -> P v /\ a' = a) /\ (forall v a', x <> ROpen v a').

Lemma ends_meets : forall t a P x, unfinished t = false -> ends a P x -> meets t a P x.
Proof.
  intros t a P x Hu (H1 & H2 & H3). unfold meets, ret. rewrite Hu. split; auto.
  intros v a' [H|H]; [|elim (H3 v a' H)]. destruct (H2 v a' H); subst; auto.
Qed.

Lemma meets_ends : forall t a P x, unfinished t = false -> meets t a P x -> ends a P x.
Proof.
  intros t a P x Hu (H1 & H2). unfold ret in *. rewrite Hu in *. split; [auto|]. split.
  - intros v a' H. destruct (H2 v a') as [Hp Hx]; auto. split; auto. congruence.
  - intros v a' H. destruct (H2 v a') as [Hp Hx]; auto. congruence.
Qed.

Lemma ends_fail : forall a P x, (forall v, ~ P v) -> (forall v a', x <> RDone v a' /\ x <> ROpen v a') -> ends a P x.
Proof.
  intros a P x HP Hx. split; [intros v H; elim (HP v H)|]. split.
  - intros v a' H. elim (proj1 (Hx v a') H).
  - intros v a'. apply Hx.
Qed.

Lemma ends_ext : forall a (P Q : val -> Prop) x, (forall v, P v <-> Q v) -> ends a P x -> ends a Q x.
Proof.
  intros a P Q x H (H1 & H2 & H3). split; [|split]; auto.
  - intros v Hv. apply H1, H, Hv.
  - intros v a' Hv. destruct (H2 v a' Hv). split; auto. now apply H.
Qed.

(** A sub-object, then the rest. *)
Lemma andthen_ends : forall a (P : val -> Prop) (Q : val -> val -> Prop) x k, ends a P x -> (forall v, P v -> ends a (Q v) (k v a)) ->
  ends a (fun w => exists v, P v /\ Q v w) (andthen x k).
Proof.
  intros a P Q x k (H1 & H2 & H3) Hk. split; [|split].
  - intros w (v & Hp & Hq). rewrite (H1 v Hp). cbn. now apply (Hk v Hp).
  - intros w a' H. apply andthen_done in H. destruct H as (v & a1 & Hx & H). destruct (H2 _ _ Hx) as [Hp ->].
    destruct (Hk v Hp) as (_ & K2 & _). destruct (K2 _ _ H). split; eauto.
  - intros w a'. destruct x; cbn; try discriminate. destruct (H2 _ _ eq_refl) as [Hp ->]. now apply (Hk v Hp).
Qed.

Lemma andthen_unfinished : forall t a P x k, unfinished t = true -> meets t a P x -> forall Q, (forall w, ~ Q w) -> ends a Q (andthen x k).
Proof.
  intros t a P x k Hu (H1 & H2) Q HQ. apply ends_fail; auto. intros v a'. unfold ret in *. rewrite Hu in *.
  destruct x; cbn; try (split; discriminate). destruct (H2 _ _ (or_introl eq_refl)). discriminate.
Qed.

Lemma core_behind : forall t, plain t = true -> core t = behind t.
Proof. induction t; cbn; auto; discriminate. Qed.

Section Documents.
Variable e : env.
Variable fuel : nat.
Hypothesis ord : ordinary e.
Hypothesis shp : shaped_classes e.
Hypothesis rtd : routed e fuel.

Notation pread := (pread e fuel unlimited).
Notation ropen := (ropen e unlimited).

Definition direct (t : ty) : bool := match t with TUnique _ => false | _ => true end.

Definition exact_at (j : json) : Prop := forall t below old a, plain t = true -> real_ints t = true -> direct t = true ->
  shaped e t old -> meets t a (merges e t old j) (pread j below t old a).

Lemma behind_direct : forall t, direct (behind t) = true.
Proof. induction t; cbn; auto. Qed.

Lemma behind_plain : forall t, plain t = true -> plain (behind t) = true.
Proof. induction t; cbn; auto. Qed.

Lemma behind_real : forall t, real_ints t = true -> real_ints (behind t) = true.
Proof. induction t; cbn; auto. Qed.

Lemma plain_compiles : forall t, plain t = true -> compiles t = true.
Proof. intros t H. unfold compiles. induction t; cbn in *; auto; discriminate. Qed.

Lemma boxed_exact : forall j below t old a, exact_at j -> plain t = true -> real_ints t = true -> shaped e t old ->
  meets t a (merges e t old j) (boxed e t old a (pread j below (core t))).
Proof.
  intros j below t old a Hj. revert old a. induction t; intros old a Hp Hr Ho; try (apply Hj; auto; fail); try discriminate.
  - cbn [boxed]. destruct (IHt (vinit e t) a Hp Hr (vinit_shaped e shp t)) as [H1 H2]. split.
    + intros v Hv. inversion Hv as [| | | | | | | |u0 old0 j0 v0 Hv0]; subst; [discriminate|]. cbn [core]. rewrite (H1 v0 Hv0). unfold ret, unfinished. cbn [behind].
      destruct (behind t); reflexivity.
    + intros v a' H. cbn [core] in *.
      assert (exists w, boxed e t (vinit e t) a (pread j below (core t)) = RDone w a' \/
                        boxed e t (vinit e t) a (pread j below (core t)) = ROpen w a') as (w & Hw).
      { destruct (boxed e t (vinit e t) a (pread j below (core t))); cbn in H; destruct H as [H|H]; inversion H; subst; eauto. }
      destruct (H2 w a' Hw) as [Hm Hx]. rewrite Hx in *. unfold ret, unfinished in *. cbn [behind].
      assert (v = VPtr w) as ->.
      { destruct (behind t); cbn in *; destruct H as [H|H]; try discriminate; destruct Hw as [Hw|Hw]; inversion H; inversion Hw; subst; auto. }
      split; [now constructor|]. destruct (behind t); reflexivity.
Qed.

Lemma ropen_exact : forall j below t old a, exact_at j -> plain t = true -> real_ints t = true -> shaped e t old ->
  meets t a (merges e t old j) (ropen below t (pread j) old a).
Proof.
  intros. unfold ParseRead.ropen. rewrite plain_compiles by auto. cbn [unlimited]. now apply boxed_exact.
Qed.

Lemma element_type : forall u old j v, merges e u old j v -> plain u = true -> odd_number u = false -> fast u = false ->
  is_json_type u (head j) = true.
Proof.
  intros u old j v H Hp Ho Hf.
  assert (Hb : exists old' v', merges e (behind u) old' j v').
  { clear - H. revert old v H. induction u; intros old v H; cbn [behind]; eauto. inversion H; subst; [discriminate|]. eauto. }
  destruct Hb as (old' & v' & Hb). unfold is_json_type. rewrite core_behind by auto.
  pose proof (behind_direct u) as Hd.
  assert (Hn : match behind u with TInt _ | TFloat | TDouble | TEnumInt _ => False | _ => True end).
  { destruct u; cbn in *; auto; try discriminate.
    - destruct (Z.eqb (width k) 8); discriminate.
    - destruct (behind u); auto; discriminate. }
  inversion Hb; subst; try (destruct (behind u); try discriminate; reflexivity); rewrite <- ?H0; auto.
  - inversion H2; subst; rewrite <- ?H4, <- ?H3 in *; try contradiction; try reflexivity; try (exfalso; match goal with X : _ = behind u |- _ => rewrite <- X in Hn; exact Hn end);
     try (match goal with X : _ = behind u |- _ => rewrite <- X in *; first [reflexivity|discriminate] end).
Qed.

Notation elem := (fun x => (head x, pread x)).
Notation mem := (fun p : string * json => (fst p, pread (snd p))).

Lemma finished_done : forall a (P : val -> Prop) v, (forall w, P w <-> w = v) -> ends a P (RDone v a).
Proof.
  intros a P v H. split; [|split].
  - intros w Hw. apply H in Hw. now subst.
  - intros w a' Hw. inversion Hw; subst. split; auto. now apply H.
  - discriminate.
Qed.

Lemma ends_rfail : forall a (P : val -> Prop), (forall w, ~ P w) -> ends a P RFail.
Proof. intros a P H. apply ends_fail; auto. intros; split; discriminate. Qed.

Lemma ritems_exact : forall u below js, Forall exact_at js -> plain u = true -> real_ints u = true -> fast u = false ->
  forall acc a, ends a (fun w => exists vs, (js = [] \/ element u = true) /\ Forall2 (merges e u (vinit e u)) js vs /\ w = VList (acc ++ vs))
    (ritems e unlimited u below (map elem js) acc a).
Proof.
  intros u below js Hjs Hp Hr Hf. induction Hjs as [|j js Hj Hjs IH]; intros acc a; cbn [map ritems].
  - apply finished_done. intros w. split.
    + intros (vs & _ & F & ->). inversion F; subst. now rewrite app_nil_r.
    + intros ->. exists []. rewrite app_nil_r. auto.
  - pose proof (ropen_exact j below u (vinit e u) a Hj Hp Hr (vinit_shaped e shp u)) as Hm.
    destruct (odd_number u) eqn:Eo.
    { assert (Hx : is_json_type u (head j) = false).
      { unfold is_json_type. rewrite core_behind by auto. clear - Eo Hf. destruct u; try discriminate; cbn [behind]; try reflexivity.
        cbn in Eo. destruct (behind u); try discriminate; destruct (head j); reflexivity. }
      rewrite Hx. apply ends_rfail. intros w (vs & [H|H] & _); [discriminate|]. unfold element in H. rewrite Eo, andb_false_r in H. discriminate. }
    destruct (is_json_type u (head j)) eqn:Et.
    + destruct (unfinished u) eqn:Eu.
      * eapply andthen_unfinished; eauto. intros w (vs & [H|H] & _); [discriminate|]. unfold element in H. rewrite Eu in H. discriminate.
      * apply meets_ends in Hm; auto.
        eapply ends_ext; [|apply andthen_ends with (Q := fun v w => exists vs, (js = [] \/ element u = true) /\ Forall2 (merges e u (vinit e u)) js vs /\ w = VList (push_back acc v ++ vs)); [exact Hm|]].
        -- intros w. split.
           ++ intros (v & Hv & vs & _ & F & ->). exists (v :: vs). unfold element. rewrite Eu, Eo. split; auto. split; [now constructor|].
              unfold push_back. now rewrite <- app_assoc.
           ++ intros (vs & _ & F & ->). inversion F as [|? v ? vs' Hv F']; subst. exists v. split; auto. exists vs'.
              unfold element. rewrite Eu, Eo. split; auto. split; auto. unfold push_back. now rewrite <- app_assoc.
        -- intros v _. apply IH.
    + apply ends_rfail. intros w (vs & _ & F & _). inversion F as [|? v ? vs' Hv F']; subst.
      rewrite (element_type _ _ _ _ Hv) in Et; auto. discriminate.
Qed.

Lemma fast_scalar : forall u, fast u = true -> scalar_type u = true /\ unfinished u = false /\ odd_number u = false /\ direct u = true.
Proof. intros u H. destruct u; cbn in *; auto; try discriminate. destruct (Z.eqb (width k) 8); auto; discriminate. Qed.

Lemma rfast_exact : forall u add js, fast u = true -> real_ints u = true -> forall acc a,
  ends a (fun w => exists vs, (js = [] \/ element u = true) /\ Forall2 (merges e u (vinit e u)) js vs /\ w = VList (fold_left add vs acc))
    (rfast e u add (map fst (map elem js)) acc a).
Proof.
  intros u add js Hf Hr. destruct (fast_scalar u Hf) as (Hs & Hu & Ho & _).
  assert (He : element u = true) by (unfold element; now rewrite Hu, Ho). destruct ord as (_ & _ & Ht).
  assert (Hg : forall v, given u v = SAssign v) by (intros; destruct u; try reflexivity; discriminate).
  induction js as [|j js IH]; intros acc a; cbn [map fst rfast].
  - apply finished_done. intros w. split.
    + intros (vs & _ & F & ->). now inversion F; subst.
    + intros ->. exists []. auto.
  - destruct (scalar e u (head j)) as [v| | | |] eqn:E.
    + destruct (scalar_means e u (vinit e u) j v Ht Hs Hr (or_introl E)) as (Hd & Hx & _).
      eapply ends_ext; [|apply IH]. intros w. split.
      * intros (vs & _ & F & ->). exists (v :: vs). split; auto. split; auto. constructor; auto. now constructor.
      * intros (vs & _ & F & ->). inversion F as [|? v' ? vs' Hv F']; subst. exists vs'. split; auto. split; auto.
        assert (v' = v); [|now subst]. inversion Hv; subst; try discriminate.
        rewrite (scalar_given e u (vinit e u) j v' Ht Hs Hr) in E; eauto. rewrite Hg in E. now inversion E.
    + apply ends_rfail. intros w (vs & _ & F & ->). inversion F as [|? v' ? vs' Hv F']; subst. inversion Hv; subst; try discriminate.
      rewrite (scalar_given e u (vinit e u) j v' Ht Hs Hr) in E; eauto. rewrite Hg in E. discriminate.
    + apply ends_rfail. intros w (vs & _ & F & ->). inversion F as [|? v' ? vs' Hv F']; subst. inversion Hv; subst; try discriminate.
      rewrite (scalar_given e u (vinit e u) j v' Ht Hs Hr) in E; eauto. rewrite Hg in E. discriminate.
    + apply ends_rfail. intros w (vs & _ & F & ->). inversion F as [|? v' ? vs' Hv F']; subst. inversion Hv; subst; try discriminate.
      rewrite (scalar_given e u (vinit e u) j v' Ht Hs Hr) in E; eauto. rewrite Hg in E. discriminate.
    + apply ends_rfail. intros w (vs & _ & F & ->). inversion F as [|? v' ? vs' Hv F']; subst. inversion Hv; subst; try discriminate.
      rewrite (scalar_given e u (vinit e u) j v' Ht Hs Hr) in E; eauto. rewrite Hg in E. discriminate.
Qed.

Lemma nth_skipn : forall (l : list val) i x r, skipn i l = x :: r -> nth i l VIndet = x /\ i < List.length l /\ skipn (S i) l = r.
Proof.
  induction l as [|y l IH]; intros [|i] x r H; cbn in *; try discriminate; [inversion H; subst; auto with arith|].
  destruct (IH i x r H) as (? & ? & ?). auto with arith.
Qed.

Lemma rfixed_exact : forall js, Forall exact_at js -> forall i ts below vs a,
  forallb plain ts = true -> forallb real_ints ts = true -> Forall2 (shaped e) ts (skipn i vs) ->
  ends a (fun w => finished ts = true /\ exists ws, parts_denote (merges e) ts (skipn i vs) js ws /\ w = VList (firstn i vs ++ ws))
    (rfixed e unlimited i ts below (map elem js) vs a).
Proof.
  intros js Hjs. induction Hjs as [|j js Hj Hjs IH]; intros i [|t ts] below vs a Hp Hr Hs; cbn [map rfixed].
  - apply finished_done. intros w. inversion Hs as [E|]. symmetry in H. split.
    + intros (_ & ws & D & ->). inversion D; subst. rewrite app_nil_r. f_equal. rewrite <- (firstn_skipn i vs) at 2. now rewrite H, app_nil_r.
    + intros ->. split; auto. exists []. split; [constructor|]. rewrite app_nil_r. f_equal. rewrite <- (firstn_skipn i vs) at 1. now rewrite H, app_nil_r.
  - apply ends_rfail. intros w (_ & ws & D & _). inversion D.
  - apply ends_rfail. intros w (_ & ws & D & _). inversion D.
  - cbn [unlimited]. cbn in Hp, Hr. apply andb_prop in Hp, Hr. destruct Hp as [Hp Hps], Hr as [Hr Hrs].
    inversion Hs as [|? x ? xs Hx Hxs E1 E2]; subst. symmetry in E2. destruct (nth_skipn _ _ _ _ E2) as (En & El & Es). rewrite En.
    pose proof (ropen_exact j (size_of (KFixed (S i) ts) :: below) t x a Hj Hp Hr Hx) as Hm.
    destruct (unfinished t) eqn:Eu.
    { eapply andthen_unfinished; eauto. intros w (Hf & _). cbn in Hf. rewrite Eu in Hf. discriminate. }
    apply meets_ends in Hm; auto.
    eapply ends_ext; [|eapply andthen_ends with (Q := fun v w => finished ts = true /\ exists ws, parts_denote (merges e) ts xs js ws /\ w = VList (firstn i vs ++ v :: ws)); [exact Hm|]].
    + intros w. cbn [finished forallb]. rewrite Eu. cbn [negb andb]. fold (finished ts). split.
      * intros (v & Hv & Hf & ws & D & ->). split; auto. exists (v :: ws). split; auto. constructor; auto.
      * intros (Hf & ws & D & ->). inversion D as [|? ? ? ? ? v ws' Hv D']; subst. exists v. split; auto. split; auto. exists ws'. auto.
    + intros v Hv. eapply ends_ext; [|apply (IH (S i) ts below (set_nth vs i v) a Hps Hrs); rewrite set_skipn, Es; exact Hxs].
      intros w. rewrite set_skipn, Es, set_firstn by auto. split; intros (Hf & ws & D & ->); split; auto; exists ws; rewrite <- ?app_assoc; auto.
Qed.

Lemma assign_replace : forall m k x v, entry m k = None -> map_replace (map_assign m k x) k v = map_assign m k v.
Proof.
  induction m as [|[n y] m IH]; intros k x v H; cbn in *; [now rewrite String.eqb_refl|].
  destruct (String.eqb n k) eqn:E; [discriminate|]. destruct (str_ltb k n) eqn:E1; cbn; [now rewrite String.eqb_refl|].
  destruct (str_ltb n k) eqn:E2; cbn; [rewrite E; f_equal; auto|].
  rewrite (str_ltb_total _ _ E1 E2), String.eqb_refl in E. discriminate.
Qed.

Lemma rentries_exact : forall u below l, Forall (fun p => exact_at (snd p)) l -> plain u = true -> real_ints u = true ->
  forall acc a, Forall (fun p => shaped e u (snd p)) acc ->
  ends a (fun w => (l = [] \/ unfinished u = false) /\ exists m, entries_merge (merges e) e u l acc m /\ w = VMap m)
    (rentries e unlimited u below (map mem l) acc a).
Proof.
  intros u below l Hl Hp Hr. induction Hl as [|[k j] l Hj Hl IH]; intros acc a Hs; cbn [map rentries fst snd].
  - apply finished_done. intros w. split.
    + intros (_ & m & F & ->). now inversion F; subst.
    + intros ->. split; auto. exists acc. split; auto. constructor.
  - set (acc1 := try_emplace acc k (vinit e u)).
    set (old := match map_find acc1 k with Some x => x | None => VIndet end).
    assert (Ho : shaped e u old /\ (entry acc k = Some old /\ (forall v, map_replace acc1 k v = change acc k v) \/
                                    entry acc k = None /\ old = vinit e u /\ forall v, map_replace acc1 k v = map_assign acc k v)).
    { unfold old, acc1, try_emplace. change entry with map_find. change change with map_replace. destruct (map_find acc k) as [x|] eqn:E.
      - rewrite E. split; [eapply find_shape; eauto|]. left. auto.
      - rewrite assign_find. split; [now apply vinit_shaped|]. right. split; auto. split; auto. intros v. now apply assign_replace. }
    destruct Ho as [Ho Hc].
    pose proof (ropen_exact j below u old a Hj Hp Hr Ho) as Hm.
    destruct (unfinished u) eqn:Eu.
    { eapply andthen_unfinished; eauto. intros w ([H|H] & _); discriminate. }
    apply meets_ends in Hm; auto.
    eapply ends_ext; [|eapply andthen_ends with (Q := fun v w => exists m, entries_merge (merges e) e u l (map_replace acc1 k v) m /\ w = VMap m); [exact Hm|]].
    + intros w. destruct Hc as [(He & Hx)|(He & Hi & Hx)]; split.
      * intros (v & Hv & m & Hm' & ->). split; auto. exists m. split; auto. rewrite Hx in Hm'. eapply entries_old; eauto.
      * intros (_ & m & Hm' & ->). inversion Hm' as [|? ? ? ? x v ? Hx' Hv Hm''|]; subst; try congruence.
        rewrite He in Hx'. inversion Hx'; subst. exists v. split; auto. exists m. rewrite Hx. auto.
      * intros (v & Hv & m & Hm' & ->). split; auto. exists m. split; auto. rewrite Hx in Hm'. eapply entries_new; eauto. now rewrite <- Hi.
      * intros (_ & m & Hm' & ->). inversion Hm' as [| |? ? ? ? v ? Hx' Hv Hm'']; subst; try congruence.
        exists v. rewrite <- Hi in Hv. split; auto. exists m. rewrite Hx. auto.
    + intros v Hv. destruct (IH (map_replace acc1 k v) a) as (I1 & I2 & I3).
      { apply replace_shape.
        - unfold acc1. apply emplace_shape; auto. now apply vinit_shaped.
        - apply (ropen_shape e unlimited (pread j) below u old a v a); auto; [apply pread_shape; auto|]. now apply Hm. }
      split; [|split].
      * intros w Hw. apply I1. split; [now right|exact Hw].
      * intros w a' H. destruct (I2 w a' H) as [[_ ?] ?]. split; assumption.
      * exact I3.
Qed.

Lemma set_with : forall (l : list val) i w, i < List.length l -> set_nth l i w = with_item l i w.
Proof.
  unfold with_item. induction l as [|x l IH]; intros [|i] w H; cbn in *; try lia; auto. f_equal. apply IH. lia.
Qed.

Lemma rmembers_exact : forall c below l, Forall (fun p => exact_at (snd p)) l ->
  forall vs a, Forall2 (fun m v => m_kind m <> MOptional -> shaped e (m_ty m) v) (c_members (class_of e c)) vs ->
  ends a (fun w => exists vs', members_merge (merges e) e (c_members (class_of e c)) l vs vs' /\ w = VObj vs')
    (rmembers e fuel unlimited (c_members (class_of e c)) below (map mem l) vs a).
Proof.
  intros c below l Hl. destruct ord as (Hpl & Hre & _). specialize (Hpl c). specialize (Hre c). set (ms := c_members (class_of e c)) in *.
  induction Hl as [|[k j] l Hj Hl IH]; intros vs a Hs; cbn [map rmembers fst snd].
  - apply finished_done. intros w. split.
    + intros (m & F & ->). now inversion F; subst.
    + intros ->. exists vs. split; auto. constructor.
  - assert (Hnone : dispatch fuel (names_of ms) (list_ascii_of_string k) <> Ok None \/ forall i m, nth_error ms i = Some m -> m_name m <> k).
    { destruct (dispatch fuel (names_of ms) (list_ascii_of_string k)) as [[i|]| |] eqn:E; try (left; congruence).
      right. intros i m Hi Hn. subst k. pose proof (dispatch_member e fuel rtd c i m Hi) as H. unfold ms in E. congruence. }
    fold (names_of ms). destruct (dispatch fuel (names_of ms) (list_ascii_of_string k)) as [[i|]| |] eqn:E.
    + destruct (dispatch_some e fuel rtd c k i E) as (m & Hi & <-). fold ms in Hi. rewrite Hi.
      destruct (forall2_nth _ _ _ _ _ _ _ Hs Hi) as (x & Hx & Hxs).
      assert (Hlt : i < List.length vs) by (apply nth_error_Some; congruence).
      assert (Hm' : forall i' m', nth_error ms i' = Some m' -> m_name m' = m_name m -> i' = i /\ m' = m).
      { intros i' m' Hi' Hn. pose proof (dispatch_member e fuel rtd c i' m' Hi') as H. rewrite Hn in H. fold ms in H. rewrite E in H.
        inversion H; subst. split; congruence. }
      assert (Hp : plain (m_ty m) = true) by (rewrite forallb_forall in Hpl; apply Hpl; eapply nth_error_In; eauto).
      assert (Hr : real_ints (m_ty m) = true) by (rewrite forallb_forall in Hre; apply Hre; eapply nth_error_In; eauto).
      rewrite (nth_error_nth _ _ _ Hx).
      assert (Hrest : forall v, (m_kind m <> MOptional -> shaped e (m_ty m) v) ->
         ends a (fun w => exists vs', members_merge (merges e) e ms l (with_item vs i v) vs' /\ w = VObj vs')
           (rmembers e fuel unlimited ms below (map mem l) (set_nth vs i v) a)).
      { intros v Hv. rewrite set_with by auto. apply IH. rewrite <- set_with by auto. eapply forall2_set; eauto. }
      unfold rmember. destruct (m_kind m) eqn:Ek.
      1,2: (pose proof (ropen_exact j below (m_ty m) x a Hj Hp Hr (Hxs ltac:(discriminate))) as Hm;
        destruct (unfinished (m_ty m)) eqn:Eu;
        [ eapply andthen_unfinished; eauto; intros w (vs' & Hm'' & _);
          inversion Hm'' as [|i' m' ? ? ? ? ? Hi' Hk Hu' Hv' Hr'|i' m' ? ? ? ? ? Hi' Hk Hu' Hv' Hr']; subst;
          destruct (Hm' i' m' Hi'); auto; subst; congruence
        | apply meets_ends in Hm; auto;
          eapply ends_ext; [|eapply andthen_ends; [exact Hm|intros v Hv; apply Hrest; intros _;
             eapply (ropen_shape e unlimited (pread j) below (m_ty m) x a v a); auto; [apply pread_shape; auto|now apply Hm|apply Hxs; congruence]]];
          intros w; split;
          [ intros (v & Hv & vs' & Hm'' & ->); exists vs'; split; auto; eapply merge_plain; eauto; [congruence|]; now rewrite (nth_error_nth _ _ _ Hx)
          | intros (vs' & Hm'' & ->);
            inversion Hm'' as [|i' m' ? ? ? v ? Hi' Hk Hu' Hv' Hr'|i' m' ? ? ? ? ? Hi' Hk Hu' Hv' Hr']; subst;
            destruct (Hm' i' m' Hi'); auto; subst; try congruence; rewrite (nth_error_nth _ _ _ Hx) in Hv'; exists v; eauto ] ]).
      pose proof (ropen_exact j below (m_ty m) (vinit e (m_ty m)) a Hj Hp Hr (vinit_shaped e shp (m_ty m))) as Hm.
      destruct (unfinished (m_ty m)) eqn:Eu.
      * assert (Hm2 : meets (m_ty m) a (fun w => exists v, merges e (m_ty m) (vinit e (m_ty m)) j v /\ w = VSome v)
           (rmap VSome (ropen below (m_ty m) (pread j) (vinit e (m_ty m)) a))).
        { destruct Hm as [H1 H2]. unfold ret in *. rewrite Eu in *. split.
          - intros v (v' & Hv & ->). rewrite (H1 v' Hv). unfold ret. now rewrite Eu.
          - intros v a' H. destruct (ropen below (m_ty m) (pread j) (vinit e (m_ty m)) a) as [v1 a1|v1 a1| | | |] eqn:Er; cbn in H; destruct H as [H|H]; inversion H; subst.
            + destruct (H2 v1 a' (or_introl eq_refl)) as [? K]. discriminate K.
            + destruct (H2 v1 a' (or_intror eq_refl)) as [? K]. inversion K; subst. split; eauto. unfold ret. rewrite Eu. reflexivity. }
        eapply andthen_unfinished; eauto. intros w (vs' & Hm'' & _).
        inversion Hm'' as [|i' m' ? ? ? ? ? Hi' Hk Hu' Hv' Hr'|i' m' ? ? ? ? ? Hi' Hk Hu' Hv' Hr']; subst;
          destruct (Hm' i' m' Hi'); auto; subst; congruence.
      * apply meets_ends in Hm; auto.
        assert (Hm2 : ends a (fun w => exists v, merges e (m_ty m) (vinit e (m_ty m)) j v /\ w = VSome v)
           (rmap VSome (ropen below (m_ty m) (pread j) (vinit e (m_ty m)) a))).
        { destruct Hm as (H1 & H2 & H3). split; [|split].
          - intros v (v' & Hv & ->). now rewrite (H1 v' Hv).
          - intros v a' H. apply rmap_done in H. destruct H as (v' & H & ->). destruct (H2 _ _ H). eauto.
          - intros v a' H. destruct (ropen below (m_ty m) (pread j) (vinit e (m_ty m)) a) as [v1 a1|v1 a1| | | |]; cbn in H; try discriminate. now apply (H3 v1 a1). }
        eapply ends_ext; [|eapply andthen_ends; [exact Hm2|intros v Hv; apply Hrest; congruence]].
        intros w; split.
        -- intros (v & (v' & Hv & ->) & vs' & Hm'' & ->). exists vs'; split; auto. eapply merge_optional; eauto.
        -- intros (vs' & Hm'' & ->).
           inversion Hm'' as [|i' m' ? ? ? ? ? Hi' Hk Hu' Hv' Hr'|i' m' ? ? ? v ? Hi' Hk Hu' Hv' Hr']; subst;
            destruct (Hm' i' m' Hi'); auto; subst; try congruence. exists (VSome v). split; [exists v; auto|]. exists vs'. split; auto.
    + destruct Hnone as [Hnone|Hnone]; [congruence|]. apply ends_rfail. intros w (vs' & Hm & _).
      inversion Hm as [|i m ? ? ? ? ? Hi|i m ? ? ? ? ? Hi]; subst; eapply Hnone; eauto.
    + apply ends_fail; [|split; discriminate]. intros w (vs' & Hm & _).
      inversion Hm as [|i m ? ? ? ? ? Hi|i m ? ? ? ? ? Hi]; subst; pose proof (dispatch_member e fuel rtd c i m Hi) as Hdm; unfold ms in E; congruence.
    + apply ends_fail; [|split; discriminate]. intros w (vs' & Hm & _).
      inversion Hm as [|i m ? ? ? ? ? Hi|i m ? ? ? ? ? Hi]; subst; pose proof (dispatch_member e fuel rtd c i m Hi) as Hdm; unfold ms in E; congruence.
Qed.

Lemma finish_meets : forall t a P Q x, unfinished t = false -> ends a Q x -> (forall v, P v <-> Q v) -> meets t a P x.
Proof. intros t a P Q x Hu H HPQ. apply ends_meets; auto. eapply ends_ext; [|exact H]. intros v. symmetry. apply HPQ. Qed.

Lemma scalar_exact : forall t j old a, scalar_type t = true -> real_ints t = true ->
  meets t a (merges e t old j)
    match scalar e t (head j) with
    | SAssign v => RDone v a
    | SStay v => ROpen v a
    | SReject | SRejectAssign _ => RFail
    | SUndefined => RUndef
    end.
Proof.
  intros t j old a Hs Hr. destruct ord as (_ & _ & Ht).
  assert (Hg : forall v, match given t v with SAssign v => RDone v a | SStay v => ROpen v a | _ => RFail end = ret t v a).
  { intros v. destruct t; try discriminate; reflexivity. }
  split.
  - intros v Hv. inversion Hv; subst; try discriminate. rewrite (scalar_given e t old j v); auto. rewrite <- Hg. destruct t; reflexivity.
  - intros v a' H.
    assert (Hx : scalar e t (head j) = SAssign v \/ scalar e t (head j) = SStay v).
    { destruct (scalar e t (head j)); destruct H as [H|H]; inversion H; subst; auto. }
    destruct (scalar_means e t old j v Ht Hs Hr Hx) as (Hd & He & Hsc). split; [now constructor|]. rewrite Hsc, <- Hg. destruct t; reflexivity.
Qed.

Ltac wrong := apply ends_meets; [reflexivity|]; apply ends_rfail; intros w Hw; inversion Hw; subst; discriminate.

Lemma all_exact : forall j, exact_at j.
Proof.
  induction j using json_ind'; intros t below old a Hp Hr Hd Ho;
    try (destruct t; try discriminate; cbn [ParseRead.pread]; try (now apply scalar_exact); wrong).
  - destruct t; try discriminate; cbn [ParseRead.pread]; try (now apply (scalar_exact _ (JArr l))); try wrong;
      unfold replaced; cbn [unlimited].
    + inversion Ho; subst; [discriminate|]. cbn [items_of]. destruct (fast t) eqn:Ef.
      * eapply finish_meets; [reflexivity|apply rfast_exact; auto|]. intros v. split.
        -- intros Hm. inversion Hm as [| ? ? ? vs Hc F| | | | | | |]; subst; [discriminate|]. exists vs. split; auto. split; auto. cbn [components]. now rewrite fold_push_back.
        -- intros (vs & Hc & F & ->). rewrite fold_push_back. apply (merges_vector e t (VList l0)); auto.
      * eapply finish_meets; [reflexivity|apply ritems_exact; auto|]. intros v. split.
        -- intros Hm. inversion Hm as [| ? ? ? vs Hc F| | | | | | |]; subst; [discriminate|]. exists vs. auto.
        -- intros (vs & Hc & F & ->). apply (merges_vector e t (VList l0)); auto.
    + destruct (shaped_components e (TArray n t) (repeat t n) old Ho) as (vs & -> & Hs); [left; eauto|]. cbn [items_of].
      assert (Hps : forallb plain (repeat t n) = true) by now apply forallb_repeat.
      assert (Hrs : forallb real_ints (repeat t n) = true) by now apply forallb_repeat.
      eapply finish_meets; [reflexivity|apply (rfixed_exact l H 0 (repeat t n) below vs a Hps Hrs Hs)|]. cbn [skipn firstn app]. intros v. split.
      * intros Hm. inversion Hm as [| | |? ? ? ? ws Hc F| | | | |]; subst; [discriminate|]. split; auto. exists ws. auto.
      * intros (Hf & ws & D & ->). apply merges_array; auto.
    + inversion Ho; subst; [discriminate|]. cbn [items_of]. destruct (fast t) eqn:Ef.
      * eapply finish_meets; [reflexivity|apply rfast_exact; auto|]. intros v. split.
        -- intros Hm. inversion Hm as [| |? ? ? vs Hc F| | | | | |]; subst; [discriminate|]. exists vs. auto.
        -- intros (vs & Hc & F & ->). apply (merges_set e t (VList l0)); auto.
      * destruct (ritems_exact t (size_of (KSet t 0) :: below) l H Hp Hr Ef [] a) as (R1 & R2 & R3). apply ends_meets; [reflexivity|]. split; [|split].
        -- intros v Hm. inversion Hm as [| |? ? ? vs Hc F| | | | | |]; subst; [discriminate|].
           rewrite (R1 (VList ([] ++ vs))); [reflexivity|]. exists vs. auto.
        -- intros v a' Hx. apply rmap_done in Hx. destruct Hx as (v' & Hx & ->). destruct (R2 _ _ Hx) as [(vs & Hc & F & ->) ->].
           split; auto. cbn [app items_of]. apply (merges_set e t (VList l0)); auto.
        -- intros v a' Hx. destruct (ritems _ _ _ _ _ _ _) eqn:Er in Hx; cbn in Hx; try discriminate. eapply R3; eauto.
    + destruct (shaped_components e (TPair t1 t2) [t1; t2] old Ho) as (vs & -> & Hs); [right; left; eauto|]. cbn [items_of].
      assert (Hps : forallb plain [t1; t2] = true) by (cbn in *; now rewrite andb_true_r).
      assert (Hrs : forallb real_ints [t1; t2] = true) by (cbn in *; now rewrite andb_true_r).
      eapply finish_meets; [reflexivity|apply (rfixed_exact l H 0 [t1; t2] below vs a Hps Hrs Hs)|]. cbn [skipn firstn app]. intros v. split.
      * intros Hm. inversion Hm as [| | | |? ? ? ? ws Hc F| | | |]; subst; [discriminate|]. split; auto. exists ws. auto.
      * intros (Hf & ws & D & ->). apply merges_pair; auto.
    + destruct (shaped_components e (TTuple ts) ts old Ho) as (vs & -> & Hs); [right; right; eauto|]. cbn [items_of].
      eapply finish_meets; [reflexivity|apply (rfixed_exact l H 0 ts below vs a Hp Hr Hs)|]. cbn [skipn firstn app]. intros v. split.
      * intros Hm. inversion Hm as [| | | | |? ? ? ws Hc F| | |]; subst; [discriminate|]. split; auto. exists ws. auto.
      * intros (Hf & ws & D & ->). apply merges_tuple; auto.
  - destruct t; try discriminate; cbn [ParseRead.pread]; try (now apply (scalar_exact _ (JObj l))); try wrong;
      unfold replaced; cbn [unlimited].
    + inversion Ho as [| | | |? ? l0 Hs0 Hl0| | |]; subst; [discriminate|]. cbn [pairs_of].
      eapply finish_meets; [reflexivity|apply rentries_exact; auto|]. intros v. split.
      * intros Hm. inversion Hm as [| | | | | |? ? ? ? m Hc F| |]; subst; [discriminate|]. split; auto. exists m. auto.
      * intros (Hc & m & F & ->). apply (merges_map e ordered t (VMap l0)); auto.
    + inversion Ho as [| | | | | | |? l0 Hl0]; subst; [discriminate|]. cbn [parts_of].
      eapply finish_meets; [reflexivity|apply rmembers_exact; auto|]. intros v. split.
      * intros Hm. inversion Hm as [| | | | | | |? ? ? vs F|]; subst; [discriminate|]. exists vs. auto.
      * intros (vs & F & ->). apply (merges_class e c (VObj l0)); auto.
Qed.

(** parse gives exactly the values of the specification. *)
Lemma parse_exactly : forall t j obj v, plain t = true -> real_ints t = true -> shaped e t obj ->
  (parse_into e fuel unlimited t j obj = Parsed true v <-> merges e t obj j v).
Proof.
  intros t j obj v Hp Hr Ho. pose proof (parse_into_spec e fuel unlimited t j obj shp Ho) as Hs.
  destruct (ropen_exact j [] t obj 0 (all_exact j) Hp Hr Ho) as [H1 H2]. split.
  - intros H. destruct (ParseRead.ropen e unlimited [] t (ParseRead.pread e fuel unlimited j) obj 0) as [w a|w a| | | |] eqn:E;
      try (rewrite H in Hs; inversion Hs; subst; now apply (H2 w a); auto).
    destruct Hs as (w & Hw). congruence.
  - intros H. rewrite (H1 v H) in Hs. unfold ret in Hs. destruct (unfinished t); auto.
Qed.
End Documents.
