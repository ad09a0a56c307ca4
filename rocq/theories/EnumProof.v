(** Proofs about the enumeration converter. *)
From Coq Require Import List ZArith String Ascii.
From Verif Require Import EnumModel.
Import ListNotations.

Lemma enum_to_string_in : forall t v s, NoDup (map fst t) -> In (v, s) t -> enum_to_string t v = s.
Proof.
  induction t as [|[w u] t IH]; intros v s ND IN; [destruct IN|]. cbn in *.
  inversion ND as [|? ? N1 N2]; subst. destruct IN as [E|IN].
  - injection E as -> ->. now rewrite Z.eqb_refl.
  - destruct (Z.eqb_spec w v) as [->|]; [|now apply IH].
    exfalso. apply N1. apply in_map_iff. now exists (v, s).
Qed.

Lemma enum_from_string_in : forall t v s, NoDup (map snd t) -> In (v, s) t -> enum_from_string t s = Some v.
Proof.
  induction t as [|[w u] t IH]; intros v s ND IN; [destruct IN|]. cbn in *.
  inversion ND as [|? ? N1 N2]; subst. destruct IN as [E|IN].
  - injection E as -> ->. now rewrite String.eqb_refl.
  - destruct (String.eqb_spec u s) as [->|]; [|now apply IH].
    exfalso. apply N1. apply in_map_iff. now exists (v, s).
Qed.

Lemma enum_from_string_some : forall t v s, enum_from_string t s = Some v -> In (v, s) t.
Proof.
  induction t as [|[w u] t IH]; intros v s E; cbn in *; [discriminate|].
  destruct (String.eqb_spec u s) as [->|]; [injection E as ->; now left|right; auto].
Qed.

Lemma enum_from_string_none : forall t s, enum_from_string t s = None <-> ~ In s (map snd t).
Proof.
  induction t as [|[w u] t IH]; intros s; cbn; [tauto|].
  destruct (String.eqb_spec u s) as [->|N]; [split; [discriminate|tauto]|]. rewrite IH. tauto.
Qed.

Lemma enum_unlisted : forall t v, ~ In v (map fst t) -> enum_to_string t v = EmptyString.
Proof.
  induction t as [|[w u] t IH]; intros v N; cbn in *; [reflexivity|].
  destruct (Z.eqb_spec w v) as [->|]; [tauto|]. apply IH. tauto.
Qed.
