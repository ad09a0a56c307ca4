(** Property C11: the numeric range check. *)
From Coq Require Import List ZArith Bool.
From Verif Require Import Float NumericModel NumericSpec NumericProof.
Local Open Scope Z_scope.

(** Integers: accepted exactly when in range, for all pairs of types. *)
Theorem C11_integers_exact : forall T V v, valid_ity T -> valid_ity V -> in_range V v ->
  (assignable_ii T V v = true <-> in_range T v).
Proof. exact assignable_ii_exact. Qed.
Print Assumptions C11_integers_exact.

(** An integer accepted for float or double is a value of that format. *)
Theorem C11_integer_to_float_exact : forall F V v, F = binary32 \/ F = binary64 ->
  valid_ity V -> in_range V v ->
  assignable_fi F V v = true -> in_format F (fl_of_Z v) = true.
Proof. exact assignable_fi_exact_std. Qed.
Print Assumptions C11_integer_to_float_exact.

(** No floating-point value is accepted for an integer type. *)
Theorem C11_float_to_integer_never : forall T F v, assignable_if T F v = false.
Proof. exact assignable_if_never. Qed.
Print Assumptions C11_float_to_integer_never.

(** Narrowing double to float: exactly the finite values between lowest and max. *)
Theorem C11_narrowing_exact : forall v k, above k v -> k <= 104 ->
  (assignable_ff binary32 binary64 v = true <-> is_finite v = true /\ within binary32 k v).
Proof. exact narrowing_exact. Qed.
Print Assumptions C11_narrowing_exact.

(** Widening is always accepted and exact. *)
Theorem C11_widening_exact : forall v, in_format binary32 v = true ->
  assignable_ff binary64 binary32 v = true /\ in_format binary64 v = true.
Proof. exact widening_exact. Qed.
Print Assumptions C11_widening_exact.

Example C11_example :
  let u8 := {| width := 8; is_signed := false |} in
  let i64 := {| width := 64; is_signed := true |} in
  valid_ity u8 /\ valid_ity i64 /\ in_range i64 (-1) /\
  assignable_ii u8 i64 255 = true /\ assignable_ii u8 i64 256 = false /\
  assignable_ii u8 i64 (-1) = false /\
  assignable_fi binary64 i64 (2 ^ 53 - 1) = true /\ assignable_fi binary64 i64 (2 ^ 53) = false /\
  assignable_ff binary32 binary64 (FFin false 1 127) = true /\
  assignable_ff binary32 binary64 (FFin false 1 128) = false /\
  assignable_ff binary32 binary64 FNan = false.
Proof. cbv zeta. repeat split; try (vm_compute; tauto); vm_compute; discriminate. Qed.
