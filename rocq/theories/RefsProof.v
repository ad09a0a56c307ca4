(** Proofs about reference tables. *)
From Coq Require Import List Bool Arith.
From Verif Require Import RefsModel.
Import ListNotations.

Section Proofs.
Variables (K V : Type) (eqb : K -> K -> bool).
Hypothesis eqb_eq : forall a b, eqb a b = true <-> a = b.

Lemma eqb_refl : forall a, eqb a a = true.
Proof. intros. now apply eqb_eq. Qed.

Lemma ref_get_app : forall (t u : rtable K V) key,
  ref_get eqb (t ++ u) key = match ref_get eqb t key with Some v => Some v | None => ref_get eqb u key end.
Proof.
  induction t as [|[k v] t IH]; intros u key; [reflexivity|]. cbn. destruct (eqb k key); [reflexivity|apply IH].
Qed.

Lemma ref_get_put : forall (t : rtable K V) k v key,
  ref_get eqb (ref_put eqb t k v) key =
  match ref_get eqb t key with
  | Some w => Some w
  | None => if eqb k key then Some v else None
  end.
Proof.
  intros t k v key. unfold ref_put. destruct (ref_get eqb t k) as [w|] eqn:E.
  - destruct (ref_get eqb t key) eqn:E2; [reflexivity|]. destruct (eqb k key) eqn:EQ; [|reflexivity].
    apply eqb_eq in EQ. subst. congruence.
  - rewrite ref_get_app. cbn. reflexivity.
Qed.

Lemma register_get : forall puts (t : rtable K V) key,
  ref_get eqb (register eqb t puts) key =
  match ref_get eqb t key with
  | Some w => Some w
  | None => option_map snd (find (fun e => eqb (fst e) key) puts)
  end.
Proof.
  induction puts as [|[k v] puts IH]; intros t key.
  - cbn. now destruct (ref_get eqb t key).
  - change (register eqb t ((k, v) :: puts)) with (register eqb (ref_put eqb t k v) puts).
    rewrite IH, ref_get_put. cbn [find fst]. destruct (ref_get eqb t key); [reflexivity|].
    destruct (eqb k key); reflexivity.
Qed.

Lemma register_first : forall pre post (key : K) (v : V), (forall w, ~ In (key, w) pre) ->
  ref_get eqb (register eqb [] (pre ++ (key, v) :: post)) key = Some v.
Proof.
  intros pre post key v H. rewrite register_get. cbn [ref_get].
  induction pre as [|[k w] pre IH]; cbn [app find fst].
  - now rewrite eqb_refl.
  - destruct (eqb k key) eqn:E.
    + apply eqb_eq in E. subst. exfalso. apply (H w). now left.
    + apply IH. intros u IN. apply (H u). now right.
Qed.

Lemma register_none : forall puts (key : K), (forall w, ~ In (key, w) puts) ->
  ref_get eqb (register eqb (V := V) [] puts) key = None.
Proof.
  intros puts key H. rewrite register_get. cbn [ref_get].
  induction puts as [|[k w] puts IH]; [reflexivity|]. cbn [find fst].
  destruct (eqb k key) eqn:E.
  - apply eqb_eq in E. subst. exfalso. apply (H w). now left.
  - apply IH. intros u IN. apply (H u). now right.
Qed.
End Proofs.
