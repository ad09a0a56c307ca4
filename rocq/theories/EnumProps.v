(** Property C32: enum names convert back and forth. *)
From Coq Require Import List ZArith String Ascii.
From Verif Require Import EnumModel EnumProof.
Import ListNotations.

Theorem C32_value_to_name_and_back : forall t v, NoDup (map fst t) -> NoDup (map snd t) ->
  In v (map fst t) -> enum_from_string t (enum_to_string t v) = Some v.
Proof.
  exact (fun t v N1 N2 H =>
    match proj1 (in_map_iff fst t v) H with
    | ex_intro _ (w, s) (conj E IN) =>
      eq_ind w (fun v => enum_from_string t (enum_to_string t v) = Some v)
        (eq_ind_r (fun u => enum_from_string t u = Some w)
          (enum_from_string_in t w s N2 IN) (enum_to_string_in t w s N1 IN)) v E
    end).
Qed.
Print Assumptions C32_value_to_name_and_back.

Theorem C32_name_to_value_and_back : forall t s v, NoDup (map fst t) ->
  enum_from_string t s = Some v -> In (v, s) t /\ enum_to_string t v = s.
Proof.
  exact (fun t s v N H => conj (enum_from_string_some t v s H)
    (enum_to_string_in t v s N (enum_from_string_some t v s H))).
Qed.
Print Assumptions C32_name_to_value_and_back.

Theorem C32_unknown_name_rejected : forall t s, enum_from_string t s = None <-> ~ In s (map snd t).
Proof. exact enum_from_string_none. Qed.
Print Assumptions C32_unknown_name_rejected.

Theorem C32_unlisted_value_is_empty_text : forall t v, ~ In v (map fst t) -> enum_to_string t v = EmptyString.
Proof. exact enum_unlisted. Qed.
Print Assumptions C32_unlisted_value_is_empty_text.

Example C32_example :
  let t := [(0%Z, "no"); (7%Z, "yes"); ((-3)%Z, "maybe")]%string in
  enum_to_string t 7 = "yes"%string /\ enum_from_string t "maybe" = Some (-3)%Z /\
  enum_from_string t "never" = None /\ enum_to_string t 1 = ""%string.
Proof. repeat split. Qed.
