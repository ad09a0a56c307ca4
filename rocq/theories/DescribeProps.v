(** C67: enumerations described with Boost.Describe. *)
From Coq Require Import List ZArith String Ascii Bool.
From Verif Require Import Json Events EnumModel DescribeModel.
Import ListNotations.
Local Open Scope string_scope.

(** BOOST_DESCRIBE_ENUM: the names are identifiers, all different; values may repeat. *)
Definition enumerators (t : enum_table) : Prop :=
  NoDup (map snd t) /\ forall v name, In (v, name) t -> name <> "" /\ ~ In zero (list_ascii_of_string name).

(** The name, or the name and a NUL character with anything behind it. *)
Definition begins_as (s name : string) : Prop := s = name \/ exists rest, s = name ++ String zero rest.

Lemma to_string_last : forall t v s,
  (exists name, In (v, name) t /\ described_to_string t v s = name) \/
  ((forall name, ~ In (v, name) t) /\ described_to_string t v s = s).
Proof.
  induction t as [|(w, n) t IH]; intros v s; [right; split; [intros ? []|reflexivity]|]. cbn.
  destruct (IH v (if Z.eqb v w then n else s)) as [(name & I & E)|(N & E)]; [left; exists name; split; [right; exact I|exact E]|].
  destruct (Z.eqb_spec v w) as [->|D].
  - left. exists n. split; [left; reflexivity|exact E].
  - right. split; [intros name [H|H]; [congruence|exact (N name H)]|exact E].
Qed.

Lemma strcmp_spec : forall name s, ~ In zero (list_ascii_of_string name) -> (strcmp_equal name s = true <-> begins_as s name).
Proof.
  induction name as [|c name IH]; intros s N.
  - destruct s as [|d s]; cbn.
    + split; [left; reflexivity|reflexivity].
    + split.
      * intro E. apply Ascii.eqb_eq in E. subst d. right. exists s. reflexivity.
      * intros [E|(rest & E)]; [discriminate|]. injection E as -> _. apply Ascii.eqb_refl.
  - assert (C : Ascii.eqb c zero = false) by (apply Ascii.eqb_neq; intros ->; apply N; left; reflexivity).
    assert (N' : ~ In zero (list_ascii_of_string name)) by (intro I; apply N; right; exact I).
    destruct s as [|d s]; cbn; rewrite C.
    + split; [discriminate|]. intros [E|(rest & E)]; discriminate.
    + rewrite andb_true_iff, (IH s N'), Ascii.eqb_eq. split.
      * intros (-> & [->|(rest & ->)]); [left; reflexivity|right; exists rest; reflexivity].
      * intros [E|(rest & E)]; injection E as -> ->; (split; [reflexivity|]); [left; reflexivity|right; exists rest; reflexivity].
Qed.

Lemma begins_one : forall s a b, ~ In zero (list_ascii_of_string a) -> ~ In zero (list_ascii_of_string b) ->
  begins_as s a -> begins_as s b -> a = b.
Proof.
  intros s a. revert s. induction a as [|c a IH]; intros s [|d b] Na Nb A B.
  - reflexivity.
  - destruct A as [->|(r & ->)].
    + destruct B as [B|(q & B)]; discriminate.
    + exfalso. destruct B as [B|(q & B)]; injection B as <- _; apply Nb; left; reflexivity.
  - destruct B as [->|(r & ->)].
    + destruct A as [A|(q & A)]; discriminate.
    + exfalso. destruct A as [A|(q & A)]; injection A as <- _; apply Na; left; reflexivity.
  - destruct s as [|x s]; [destruct A as [A|(q & A)]; discriminate|].
    assert (A' : c = x /\ begins_as s a).
    { destruct A as [A|(q & A)]; injection A as -> ->; (split; [reflexivity|]); [left; reflexivity|right; exists q; reflexivity]. }
    assert (B' : d = x /\ begins_as s b).
    { destruct B as [B|(q & B)]; injection B as -> ->; (split; [reflexivity|]); [left; reflexivity|right; exists q; reflexivity]. }
    destruct A' as (-> & A'), B' as (-> & B'). f_equal. apply (IH s); auto.
    + intro I. apply Na. right. exact I.
    + intro I. apply Nb. right. exact I.
Qed.

Lemma from_string_spec : forall t s v, enumerators t ->
  (described_from_string t s = Some v <-> exists name, In (v, name) t /\ begins_as s name).
Proof.
  intros t s v (D & C). induction t as [|(w, n) t IH].
  - cbn. split; [discriminate|intros (? & [] & _)].
  - assert (Cn : ~ In zero (list_ascii_of_string n)) by (apply (C w n); left; reflexivity).
    assert (IH' := IH (proj2 (proj1 (NoDup_cons_iff _ _) D)) (fun v name I => C v name (or_intror I))). clear IH.
    pose proof (proj1 (proj1 (NoDup_cons_iff _ _) D)) as Dn. cbn [described_from_string].
    destruct (strcmp_equal n s) eqn:E.
    + apply (strcmp_spec n s Cn) in E. split.
      * intro H. injection H as ->. exists n. split; [left; reflexivity|exact E].
      * intros (name & [H|H] & B); [congruence|]. exfalso. apply Dn.
        rewrite (begins_one s n name Cn (proj2 (C v name (or_intror H))) E B). apply (in_map snd) in H. exact H.
    + rewrite IH'. split.
      * intros (name & I & B). exists name. split; [right; exact I|exact B].
      * intros (name & [H|H] & B); [|exists name; split; assumption].
        injection H as -> ->. apply (strcmp_spec name s Cn) in B. congruence.
Qed.

(** A value with an enumerator is written as the name of one of its enumerators, both ways of writing, and is read back. *)
Theorem C67_round_trip : forall t v name, enumerators t -> In (v, name) t ->
  exists written, In (v, written) t /\ described_serialize t v = JStr written /\ described_write t v = events (JStr written) /\
    described_deserialize t (JStr written) = Assigned v /\ described_parse t (EStr written) = Assigned v.
Proof.
  intros t v name E I. destruct (to_string_last t v "") as [(w & J & W)|(N & _)]; [|exfalso; exact (N name I)].
  exists w. assert (F : described_from_string t w = Some v) by (apply from_string_spec; [exact E|]; exists w; split; [exact J|left; reflexivity]).
  split; [exact J|]. unfold described_serialize, described_write, described_deserialize, described_parse. rewrite W, F.
  repeat split; reflexivity.
Qed.
Print Assumptions C67_round_trip.

(** A value without an enumerator is written as an empty text, which is not read. *)
Theorem C67_unlisted : forall t v, enumerators t -> (forall name, ~ In (v, name) t) ->
  described_serialize t v = JStr "" /\ described_write t v = events (JStr "") /\
  exists reason, described_deserialize t (described_serialize t v) = Refused reason.
Proof.
  intros t v E N. destruct (to_string_last t v "") as [(w & J & W)|(_ & W)]; [exfalso; exact (N w J)|].
  unfold described_serialize, described_write. rewrite W. split; [reflexivity|split; [reflexivity|]]. cbn.
  destruct (described_from_string t "") as [z|] eqn:F; [|eexists; reflexivity].
  apply from_string_spec in F; [|exact E]. destruct F as (name & I & B). exfalso. destruct (proj2 E z name I) as (X & _).
  destruct B as [B|(rest & B)]; [congruence|]. destruct name; discriminate.
Qed.
Print Assumptions C67_unlisted.

(** Texts are read exactly if their part before the first NUL is the name of an enumerator, and nothing but texts is read. *)
Theorem C67_reads_exactly : forall t j v, enumerators t ->
  (described_deserialize t j = Assigned v <-> exists s name, j = JStr s /\ In (v, name) t /\ begins_as s name).
Proof.
  intros t j v E. split.
  - destruct j as [| | | | |s|]; try discriminate. cbn. intro H. destruct (described_from_string t s) as [w|] eqn:F; [|discriminate].
    injection H as ->. apply from_string_spec in F; [|exact E]. destruct F as (name & I & B). exists s, name. auto.
  - intros (s & name & -> & I & B). cbn. assert (F : described_from_string t s = Some v) by (apply from_string_spec; [exact E|eauto]).
    rewrite F. reflexivity.
Qed.
Print Assumptions C67_reads_exactly.

(** The parser and the deserializer take the same texts for the same values. *)
Theorem C67_parse_same : forall t s v, described_parse t (EStr s) = Assigned v <-> described_deserialize t (JStr s) = Assigned v.
Proof.
  intros t s v. cbn. destruct (described_from_string t s); split; intro H; try discriminate; exact H.
Qed.
Print Assumptions C67_parse_same.

(** Whatever an [EnumConverter] with the same table takes is taken for the same value, and texts without NUL characters are
    treated alike; other texts are not. *)
Theorem C67_converter : forall t s v, enumerators t ->
  (enum_from_string t s = Some v -> described_from_string t s = Some v) /\
  (~ In zero (list_ascii_of_string s) -> described_from_string t s = enum_from_string t s).
Proof.
  intros t s v E.
  assert (A : forall v, enum_from_string t s = Some v -> described_from_string t s = Some v).
  { intros w H. apply from_string_spec; [exact E|]. exists s. split; [|left; reflexivity]. clear E.
    induction t as [|(x, n) t IH]; [discriminate|]. cbn in H. destruct (String.eqb_spec n s) as [->|D].
    - injection H as ->. left. reflexivity.
    - right. apply IH. exact H. }
  split; [apply A|]. intro N. destruct (enum_from_string t s) as [w|] eqn:F; [apply A; reflexivity|].
  destruct (described_from_string t s) as [w|] eqn:G; [|reflexivity]. exfalso.
  apply from_string_spec in G; [|exact E]. destruct G as (name & I & [->|(rest & ->)]).
  - clear A N E. induction t as [|(x, n) t IH]; [destruct I|]. cbn in F. destruct (String.eqb_spec n name) as [->|D]; [discriminate|].
    destruct I as [I|I]; [congruence|]. exact (IH F I).
  - apply N. clear. induction name as [|c name IH]; cbn; [left; reflexivity|right; exact IH].
Qed.
Print Assumptions C67_converter.

Definition ex_side : enum_table := [(1%Z, "Left"); (2%Z, "Right"); (2%Z, "Starboard")].

(** So it is not true that only names are read. *)
Theorem C67_names_only_refuted : exists t s v, enumerators t /\ ~ In s (map snd t) /\
  described_deserialize t (JStr s) = Assigned v /\ described_parse t (EStr s) = Assigned v /\ enum_from_string t s = None.
Proof.
  exists ex_side, ("Left" ++ String zero "over"), 1%Z. split; [|repeat split; cbn; intuition discriminate].
  split; [repeat constructor; cbn; intuition discriminate|]. intros v name I. cbn in I.
  destruct I as [I|[I|[I|[]]]]; injection I as <- <-; (split; [discriminate|]); cbn; intuition discriminate.
Qed.
Print Assumptions C67_names_only_refuted.

(** test/boost.cpp, and two enumerators with the same value. *)
Example C67_example :
  map (described_serialize ex_side) [1%Z; 2%Z; 3%Z] = [JStr "Left"; JStr "Starboard"; JStr ""] /\
  map (fun s => described_deserialize ex_side (JStr s)) ["Left"; "Right"; "left"; ""] =
    [Assigned 1%Z; Assigned 2%Z; Refused "unrecognized enumeration string value; got: left"; Refused "unrecognized enumeration string value; got: "] /\
  described_deserialize ex_side (JInt 1) = Refused "wrong JSON data type; expected: string".
Proof. repeat split. Qed.
