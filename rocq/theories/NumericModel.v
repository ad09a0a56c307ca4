(** Model of include/persistence/detail/numeric_traits.hpp. *)
From Coq Require Import List Arith NArith ZArith Bool.
From Verif Require Import Float.
Local Open Scope Z_scope.

(** An integer type: width in bits and signedness. bool is not modelled. *)
Record ity : Set := { width : Z; is_signed : bool }.

Definition int_widths : list Z := (8 :: 16 :: 32 :: 64 :: nil)%list.
Definition valid_ity (t : ity) : Prop := In (width t) int_widths.

Definition tmin (t : ity) : Z := if is_signed t then - 2 ^ (width t - 1) else 0.
Definition tmax (t : ity) : Z := if is_signed t then 2 ^ (width t - 1) - 1 else 2 ^ width t - 1.

(** Conversion of a value to an integer type: wrap-around. *)
Definition wrap (t : ity) (v : Z) : Z :=
  if is_signed t then (v + 2 ^ (width t - 1)) mod 2 ^ width t - 2 ^ (width t - 1)
  else v mod 2 ^ width t.

Definition int32 : ity := {| width := 32; is_signed := true |}.

(** Integer promotion and the usual arithmetic conversions of C++. *)
Definition promote (t : ity) : ity := if width t <? 32 then int32 else t.

Definition common (a b : ity) : ity :=
  let a := promote a in
  let b := promote b in
  if Bool.eqb (is_signed a) (is_signed b) then (if width a <? width b then b else a)
  else
    let '(u, s) := if is_signed a then (b, a) else (a, b) in
    if width s <=? width u then u else s.

(** A typed value: the operands of a C++ comparison. *)
Definition cge (a : ity) (x : Z) (b : ity) (y : Z) : bool :=
  wrap (common a b) y <=? wrap (common a b) x.
Definition cle (a : ity) (x : Z) (b : ity) (y : Z) : bool :=
  wrap (common a b) x <=? wrap (common a b) y.
Definition clt (a : ity) (x : Z) (b : ity) (y : Z) : bool :=
  wrap (common a b) x <? wrap (common a b) y.

Definition make_unsigned (t : ity) : ity := {| width := width t; is_signed := false |}.

(** numeric_traits.hpp:20-56: integer target, integer source. *)
Definition assignable_ii (T V : ity) (value : Z) : bool :=
  match is_signed T, is_signed V with
  | true, true =>
    if width V <=? width T then true
    else cge V value T (tmin T) && cle V value T (tmax T)
  | false, false =>
    if width V <=? width T then true
    else cle V value T (tmax T)
  | false, true =>
    if width V <=? width T then cge V value int32 0
    else cge V value int32 0 && cle (make_unsigned V) (wrap (make_unsigned V) value) T (tmax T)
  | true, false =>
    if width V <? width T then true
    else cle V value (make_unsigned T) (wrap (make_unsigned T) (tmax T))
  end.

(** numeric_traits.hpp:17-19: integer target, floating-point source. *)
Definition assignable_if (T : ity) (F : format) (value : fl) : bool := false.

(** std::numeric_limits<V>::digits *)
Definition digits (t : ity) : Z := if is_signed t then width t - 1 else width t.

(** numeric_traits.hpp:70-85: floating-point target, integer source. *)
Definition assignable_fi (F : format) (V : ity) (value : Z) : bool :=
  if digits V <=? prec F then true
  else
    let limit := wrap V (2 ^ prec F) in
    if is_signed V then
      clt (promote V) (wrap (promote V) (- limit)) V value && clt V value V limit
    else clt V value V limit.

(** numeric_traits.hpp:62-69: both floating-point; the sizes order like the precisions. *)
Definition assignable_ff (T V : format) (value : fl) : bool :=
  if prec V <=? prec T then true
  else fle (fmax T true) value && fle value (fmax T false).
