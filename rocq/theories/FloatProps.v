(** Properties of floating-point numbers on their way through documents. *)
From Coq Require Import List ZArith Ascii Bool Lia.
From Verif Require Import Base Float FloatFacts Json Types SerializeModel WriteModel Events DeserializeModel DenoteProof DeserializeProps.
Import ListNotations.
Local Open Scope Z_scope.

Lemma float_survives : forall e f, in_format binary32 f = true -> is_finite f = true ->
  exists tab, serialize_to_document e TFloat (VFlt f) = SOk tab (JDbl f) /\ write_events e TFloat (VFlt f) = WRet true tab [EDbl f] /\
  in_format binary64 f = true /\
  deserialize_throw e TFloat (JDbl f) = Returned (VFlt f) /\
  forall obj, deserialize e TFloat (JDbl f) obj = DRet true start (VFlt f).
Proof.
  intros e f I F. exists []. unfold serialize_to_document, write_events. cbn. rewrite F.
  split; [reflexivity|split; [reflexivity|]]. split; [now apply float_in_double|].
  unfold deserialize_throw, deserialize. cbn. now rewrite (round_exact _ _ I).
Qed.

Lemma double_survives : forall e f, in_format binary64 f = true -> is_finite f = true ->
  exists tab, serialize_to_document e TDouble (VFlt f) = SOk tab (JDbl f) /\ write_events e TDouble (VFlt f) = WRet true tab [EDbl f] /\
  deserialize_throw e TDouble (JDbl f) = Returned (VFlt f) /\
  forall obj, deserialize e TDouble (JDbl f) obj = DRet true start (VFlt f).
Proof.
  intros e f I F. exists []. unfold serialize_to_document, write_events. cbn. rewrite F.
  split; [reflexivity|split; [reflexivity|]].
  unfold deserialize_throw, deserialize. cbn. now rewrite (round_exact _ _ I).
Qed.

(** The finite number as a multiple of the smallest positive double, 2^-1074. *)
Definition units (f : fl) : Z := scaled (-1074) f.

Lemma float_above : forall f, in_format binary64 f = true -> above (-1074) f.
Proof.
  intros [s|s| |s m x] H; cbn in *; auto. apply andb_true_iff in H. destruct H as [H _]. apply andb_true_iff in H. destruct H as [_ H]. lia.
Qed.

Lemma nearest : forall e x, in_format binary64 x = true -> is_finite x = true ->
  exists r, deserialize_throw e TFloat (JDbl x) = Returned (VFlt r) /\
  (r <> FNan /\ in_format binary32 r = true) /\
  (is_finite r = false <-> (2 ^ 25 - 1) * 2 ^ (103 + 1074) <= Z.abs (units x)) /\
  (is_finite r = true -> forall f, in_format binary32 f = true -> is_finite f = true ->
     Z.abs (units x - units r) <= Z.abs (units x - units f) /\
     (Z.abs (units x - units r) = Z.abs (units x - units f) -> units f <> units r -> units r = 0 \/ expo f < expo r)).
Proof.
  intros e x I F. exists (round binary32 x). split; [reflexivity|].
  assert (O : match x with FFin _ m _ => odd_pos m = true | _ => True end).
  { destruct x as [s|s| |s m k]; auto. cbn in I. destruct (odd_pos m); [reflexivity|discriminate]. }
  assert (IR : in_format binary32 (round binary32 x) = true) by (apply round_in_format; [apply good32|exact O]).
  split; [split; [|exact IR]|split].
  - destruct x as [s|s| |s m k]; try discriminate. intros N.
    assert (- 1074 <= k) by exact (float_above _ I).
    destruct (overflow s m k O H) as [_ V]. rewrite N in V. cbn in V. assert (false = true) by (apply V; discriminate). discriminate.
  - destruct x as [s|s| |s m k]; try discriminate.
    + split; [intros X; discriminate X|]. intros T. exfalso. vm_compute in T. now apply T.
    + assert (K : - 1074 <= k) by exact (float_above _ I). destruct (overflow s m k O K) as [V W].
      replace (Z.abs (units (FFin s m k))) with (Zpos m * 2 ^ (k + 1074)).
      2:{ unfold units, scaled. replace (k - -1074) with (k + 1074) by lia. pose proof (Z.pow_pos_nonneg 2 (k + 1074)). destruct s; nia. }
      rewrite <- V. split; [|intros ->; reflexivity]. intros N. destruct (round binary32 (FFin s m k)) as [s'|s'| |s' m' k'] eqn:R; try discriminate.
      * destruct (Bool.bool_dec s' s) as [->|S]; [reflexivity|]. assert (false = true); [|discriminate]. apply W. intros X. injection X. contradiction.
      * assert (false = true); [|discriminate]. apply W. discriminate.
  - intros FR f If Ff. apply round_nearest; auto using good32.
    + now apply float_above.
    + apply float_above. now apply float_in_double.
    + apply float_above. now apply float_in_double.
Qed.

(** C38: a finite float is written as it is, which is a double, and read back the same. *)
Theorem C38_float_survives : forall e f, in_format binary32 f = true -> is_finite f = true ->
  exists tab, serialize_to_document e TFloat (VFlt f) = SOk tab (JDbl f) /\ write_events e TFloat (VFlt f) = WRet true tab [EDbl f] /\
  in_format binary64 f = true /\
  deserialize_throw e TFloat (JDbl f) = Returned (VFlt f) /\
  forall obj, deserialize e TFloat (JDbl f) obj = DRet true start (VFlt f).
Proof. exact float_survives. Qed.
Print Assumptions C38_float_survives.

(** C38: so is a double. *)
Theorem C38_double_survives : forall e f, in_format binary64 f = true -> is_finite f = true ->
  exists tab, serialize_to_document e TDouble (VFlt f) = SOk tab (JDbl f) /\ write_events e TDouble (VFlt f) = WRet true tab [EDbl f] /\
  deserialize_throw e TDouble (JDbl f) = Returned (VFlt f) /\
  forall obj, deserialize e TDouble (JDbl f) obj = DRet true start (VFlt f).
Proof. exact double_survives. Qed.
Print Assumptions C38_double_survives.

(** C38: a double read into a float gives the nearest float; of two equally near ones that
    with the greater exponent when written with odd significand, which is the even one. From
    2^128 - 2^103 on, half a unit above the largest float, the result is infinite, which is
    not treated as an error. *)
Theorem C38_nearest : forall e x, in_format binary64 x = true -> is_finite x = true ->
  exists r, deserialize_throw e TFloat (JDbl x) = Returned (VFlt r) /\
  (r <> FNan /\ in_format binary32 r = true) /\
  (is_finite r = false <-> (2 ^ 25 - 1) * 2 ^ (103 + 1074) <= Z.abs (units x)) /\
  (is_finite r = true -> forall f, in_format binary32 f = true -> is_finite f = true ->
     Z.abs (units x - units r) <= Z.abs (units x - units f) /\
     (Z.abs (units x - units r) = Z.abs (units x - units f) -> units f <> units r -> units r = 0 \/ expo f < expo r)).
Proof. exact nearest. Qed.
Print Assumptions C38_nearest.

Example C38_example :
  (* 1 + 2^-24 is half-way and goes to 1; 1 + 3 * 2^-24 goes up to 1 + 2^-22; 10^308 is beyond *)
  deserialize_throw ex_plain TFloat (JDbl (FFin false (2 ^ 24 + 1) (-24))) = Returned (VFlt (FFin false 1 0)) /\
  deserialize_throw ex_plain TFloat (JDbl (FFin false (2 ^ 24 + 3) (-24))) = Returned (VFlt (FFin false (2 ^ 22 + 1) (-22))) /\
  deserialize_throw ex_plain TFloat (JDbl (FFin true 5 1000)) = Returned (VFlt (FInf true)) /\
  deserialize_throw ex_plain TFloat (JDbl (FFin false 1 (-1074))) = Returned (VFlt (FZero false)).
Proof. repeat split; vm_compute; reflexivity. Qed.
