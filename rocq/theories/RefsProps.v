(** Property C16: reference tables keep the first entry. *)
From Coq Require Import List Arith.
From Verif Require Import RefsModel RefsProof.
Import ListNotations.

Theorem C16_first_registration_kept :
  forall K V (eqb : K -> K -> bool), (forall a b, eqb a b = true <-> a = b) ->
  forall pre post (key : K) (v : V), (forall w, ~ In (key, w) pre) ->
  ref_get eqb (register eqb [] (pre ++ (key, v) :: post)) key = Some v.
Proof. exact register_first. Qed.
Print Assumptions C16_first_registration_kept.

Theorem C16_nothing_if_never_registered :
  forall K V (eqb : K -> K -> bool), (forall a b, eqb a b = true <-> a = b) ->
  forall (puts : list (K * V)) (key : K), (forall w, ~ In (key, w) puts) ->
  ref_get eqb (register eqb [] puts) key = None.
Proof. exact register_none. Qed.
Print Assumptions C16_nothing_if_never_registered.

Example C16_example :
  ref_get Nat.eqb (register Nat.eqb [] [(1, true); (2, false); (1, false)]) 1 = Some true /\
  ref_get Nat.eqb (register Nat.eqb [] [(1, true); (2, false); (1, false)]) 3 = None.
Proof. split; reflexivity. Qed.
