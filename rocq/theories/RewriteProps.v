(** What was read can be written and read again. *)
From Coq Require Import List Arith ZArith NArith Ascii String Bool Lia Relations Sorted.
From Verif Require Import Base Float NumericModel NumericSpec Json Events Types SerializeModel DeserializeModel WriteModel TextModel TextSpec TextProof DenoteSpec RoundSpec
  SchemaGenSpec SafetySpec SafetyProof DenoteFacts RoundProof RoundParse RewriteSpec RewriteProof DeserializeProps ParseProps RoundProps TextProps SafetyProps.
Import ListNotations.
Local Open Scope string_scope.
Local Open Scope list_scope.

(** C54: a value that was read from a document can be written; the document that is written
    is read as this value again, whatever the first document looked like. *)
Theorem C54_written_again : forall e t j v, ordinary e -> named e -> iterates e -> ordinary_type t -> ready_classes e -> rewritable e t -> doubles j ->
  deserialize_throw e t j = Returned v -> finite v ->
  exists j', serialize_to_document e t v = SOk [] j' /\ deserialize_throw e t j' = Returned v /\ forall obj, deserialize e t j' obj = DRet true start v.
Proof.
  intros e t j v O NM IT OT RC RW D R F. apply doc_round_trip; auto. apply accepts_exactly in R; auto.
  exact (proj1 (all_good e RC t j RW D v) t (dinit e t) j (rt_refl _ _ _) (inside_here j) (proj1 (ready_init e RC t)) R F).
Qed.
Print Assumptions C54_written_again.

(** C54: the same for an object that existed before, if what it may keep can be written. *)
Theorem C54_object_written_again : forall e t j obj st v, ordinary e -> named e -> iterates e -> ordinary_type t -> ready_classes e -> rewritable e t ->
  doubles j -> ready e t obj -> denotes e t obj j v -> finite v ->
  deserialize e t j obj = DRet true start v /\
  exists j', serialize_to_document e t v = SOk [] j' /\ deserialize e t j' st = DRet true start v.
Proof.
  intros e t j obj st v O NM IT OT RC RW D Ro R F. split; [now apply all_read|].
  destruct (doc_round_trip e t v O NM IT OT) as (j' & A & _ & B); [|exists j'; auto].
  exact (proj1 (all_good e RC t j RW D v) t obj j (rt_refl _ _ _) (inside_here j) Ro R F).
Qed.
Print Assumptions C54_object_written_again.

Section Texts.
Variable print : fl -> list ascii.
Variable nearest : list ascii -> option fl.
Hypothesis nearest_double : forall s f, nearest s = Some f -> in_format binary64 f = true.

Lemma text_doubles : (forall s j, value nearest s j -> doubles j) /\ (forall s j, spaced nearest s j -> doubles j) /\
  (forall s l, items nearest s l -> Forall doubles l) /\ (forall s l, fields nearest s l -> Forall (fun p => doubles (snd p)) l).
Proof.
  apply grammar_ind; intros; try (constructor; assumption); try assumption.
  all: try (intros x I; inversion I; subst; try (match goal with K : In _ [] |- _ => destruct K end); eauto; fail).
  - intros x I. inversion I as [|y ? Ix J|]; subst. rewrite Forall_forall in *. exact (H0 y Ix x J).
  - intros x I. inversion I as [| |k y ? Ix J]; subst. rewrite Forall_forall in *. exact (H0 (k, y) Ix x J).
  - constructor; [assumption|constructor].
  - constructor; [assumption|constructor].
Qed.

(** C54: and for texts. *)
Theorem C54_text_written_again : forall e t str v buf, ordinary e -> named e -> iterates e -> ordinary_type t -> ready_classes e -> rewritable e t ->
  deserialize_string_throw nearest e t str = Document (Returned v) -> finite v -> numbers (faithful print nearest) v ->
  exists str', write_to_string (TextModel.written print) e t v buf = Some (true, str') /\
    deserialize_string_throw nearest e t str' = Document (Returned v) /\ forall obj, deserialize_string nearest e t str' obj = DRet true start v.
Proof.
  intros e t str v buf O NM IT OT RC RW R F N. apply C37_text_round_trip; auto.
  unfold deserialize_string_throw, string_to_document in R. destruct (read_text nearest str) as [j r| |] eqn:E; try discriminate.
  injection R as R. apply accepts_exactly in R; auto. apply read_exactly in E as [_ E].
  assert (D : doubles j) by (apply (proj1 (proj2 text_doubles)) in E; exact E).
  exact (proj1 (all_good e RC t j RW D v) t (dinit e t) j (rt_refl _ _ _) (inside_here j) (proj1 (ready_init e RC t)) R F).
Qed.
End Texts.
Print Assumptions C54_text_written_again.

Example ex_ready : ready_classes ex_round.
Proof.
  assert (P0 : forall b, holds ex_round TBool (VBool b)) by (intros b; apply holds_bool).
  assert (Q0 : forall x, ready ex_round (TClass 0) (VObj [x; VBool true; VNone])).
  { intros x. apply ready_class. cbn. repeat (apply Forall2_cons; [split; intros K; try discriminate K; auto; apply ready_other; reflexivity|]). apply Forall2_nil. }
  intros c. by_class' c; (split; [apply ready_class|apply ready_class]; cbn;
    repeat (apply Forall2_cons; [split; intros K; try discriminate K; auto; try (apply ready_other; reflexivity)|]); try apply Forall2_nil).
  all: try (apply holds_vector; [reflexivity|apply Forall_nil]); apply holds_map; constructor.
Qed.

Definition ex_sky_parts : list ty :=
  [TClass 3; TVector (TInt int32); TMap false (TClass 0); TTime; TUnique (TSet (TInt int32)); TSet (TInt int32); TInt int32; TClass 0; TBool; TString].

Example ex_rewritable : rewritable ex_round (TClass 3).
Proof.
  split; [|split; [|split]].
  - intros names H. reaches ex_sky_parts.
  - intros u H. reaches ex_sky_parts. now injection H as <-.
  - intros u H. reaches ex_sky_parts. injection H as <-. split.
    + intros [] []; cbn; try discriminate. intros K. apply Z.ltb_lt in K. apply Z.ltb_ge. lia.
    + intros [] [] []; cbn; try discriminate. intros K L. apply Z.ltb_lt in K, L. apply Z.ltb_lt. lia.
  - intros H. reaches ex_sky_parts.
Qed.

(** Documents without numbers with fraction or exponent. *)
Fixpoint whole (j : json) : bool :=
  match j with
  | JDbl _ => false
  | JArr l => forallb whole l
  | JObj l => forallb (fun p => whole (snd p)) l
  | _ => true
  end.

Lemma whole_doubles : forall j, whole j = true -> doubles j.
Proof.
  intros j W f H. exfalso. revert W. induction H as [|x l I H IH|k x l I H IH]; cbn; try discriminate; rewrite forallb_forall; intros W;
    [exact (IH (W x I))|exact (IH (W (k, x) I))].
Qed.

(** A document with repeated elements, repeated and unknown members, and a member that is
    missing; what is written is the canonical document. *)
Definition ex_untidy : json :=
  JObj [("map", JObj [("b", JObj [("b", JBool false); ("n", JInt 2)]); ("a", JObj [("n", JInt 1)]); ("b", JObj [("n", JInt 3); ("n", JInt 4)])]);
        ("extra", JNull); ("set", JArr [JInt 5; JInt 3; JInt 5]); ("time", JStr "1970-01-01 00:00:01Z")].

Example C54_example : doubles ex_untidy /\ exists v j', deserialize_throw ex_round (TClass 3) ex_untidy = Returned v /\ finite v /\
  serialize_to_document ex_round (TClass 3) v = SOk [] j' /\ deserialize_throw ex_round (TClass 3) j' = Returned v /\
  j' = JObj [("values", JArr []); ("map", JObj [("b", JObj [("n", JInt 3); ("b", JBool true)]); ("a", JObj [("n", JInt 1); ("b", JBool true)])]);
             ("time", JStr "1970-01-01T00:00:01Z"); ("set", JArr [JInt 3; JInt 5])].
Proof.
  split.
  - now apply whole_doubles.
  - do 2 eexists. split; [vm_compute; reflexivity|]. split; [cbn; tauto|]. repeat (split; [vm_compute; reflexivity|]). reflexivity.
Qed.

(** A number that is too big for a float is read as infinity, which cannot be written. *)
Theorem C54_overflow_refuted : exists e t j v, ordinary e /\ named e /\ iterates e /\ ordinary_type t /\ ready_classes e /\ rewritable e t /\ doubles j /\
  deserialize_throw e t j = Returned v /\ forall buf written j', write_to_string written e t v buf <> Some (true, j').
Proof.
  exists ex_round, TFloat, (JDbl (FFin false 1 1000)), (VFlt (FInf false)).
  split; [exact ex_round_ordinary|]. split; [exact ex_round_named|]. split; [exact ex_round_iterates|]. split; [now split|]. split; [exact ex_ready|].
  split; [split; [|split; [|split]]; intros; exfalso; reaches [TFloat]|]. split; [intros f H; inversion H; subst; reflexivity|].
  split; [vm_compute; reflexivity|]. intros buf w j'. vm_compute. discriminate.
Qed.
Print Assumptions C54_overflow_refuted.

(** A vector of pairs of a string and something is read from an array and written as an
    object, which cannot be read. *)
Theorem C54_pairs_refuted : exists e t j v j', ordinary e /\ named e /\ iterates e /\ ordinary_type t /\ ready_classes e /\ doubles j /\ finite v /\
  deserialize_throw e t j = Returned v /\ serialize_to_document e t v = SOk [] j' /\ forall w, deserialize_throw e t j' <> Returned w.
Proof.
  exists ex_round, (TVector (TPair TString TBool)), (JArr [JArr [JStr "a"; JBool true]]), (VList [VList [VStr "a"; VBool true]]), (JObj [("a", JBool true)]).
  split; [exact ex_round_ordinary|]. split; [exact ex_round_named|]. split; [exact ex_round_iterates|]. split; [now split|]. split; [exact ex_ready|].
  split; [now apply whole_doubles|].
  split; [cbn; tauto|]. split; [vm_compute; reflexivity|]. split; [vm_compute; reflexivity|]. intros w. vm_compute. discriminate.
Qed.
Print Assumptions C54_pairs_refuted.

