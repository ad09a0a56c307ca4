(** Ranges of integer types (two's complement). *)
From Coq Require Import ZArith.
From Verif Require Import Float NumericModel.
Local Open Scope Z_scope.

Definition in_range (t : ity) (v : Z) : Prop :=
  if is_signed t then - 2 ^ (width t - 1) <= v < 2 ^ (width t - 1) else 0 <= v < 2 ^ width t.

(** Magnitude of a finite value at most the largest finite value of the format
    (2^prec - 1) * 2^(emax - prec), compared in units of 2^k. *)
Definition within (F : format) (k : Z) (v : fl) : Prop :=
  Z.abs (scaled k v) <= (2 ^ prec F - 1) * 2 ^ (emax F - prec F - k).
