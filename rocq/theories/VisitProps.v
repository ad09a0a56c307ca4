(** Property C72: how often the values of a document are read. *)
From Coq Require Import Arith ZArith NArith Ascii String Bool Lia Relations List.
From Verif Require Import Base NumericModel Json PathModel Types SerializeModel DeserializeModel SchemaGenSpec SafetySpec SafetyProps
  VisitModel VisitSpec VisitProof VisitCount.
Import ListNotations.
Local Open Scope string_scope.
Local Open Scope list_scope.

(** Deserializers that keep a record of the calls return, throw and change what those of
    DeserializeModel do. *)
Theorem C72_same : forall e exc t j obj, fst (traced e j j exc t obj [] [] start) = deser e j j exc t obj [] [] start.
Proof. intros e exc t j obj. apply traced_same. Qed.
Print Assumptions C72_same.

(** Every call is for a value of the document and the type that the place asks for. *)
Theorem C72_reads : forall e exc t j obj p u, In (p, u) (calls e exc t j obj) -> reads e j t p u.
Proof.
  intros e exc t j obj p u I. destruct (traced_sound e j j t exc obj [] [] start p u I) as (q & -> & R). exact R.
Qed.
Print Assumptions C72_reads.

(** If an object is returned, then every one of these values has been read. *)
Theorem C72_all : forall e t j v, no_variant e t -> no_shared e t -> deserialize_throw e t j = Returned v ->
  forall p u, reads e j t p u -> In (p, u) (calls e true t j (dinit e t)).
Proof.
  intros e t j v V U R p u H. unfold deserialize_throw in R. rewrite <- (traced_same e j j true t) in R.
  destruct (fst (traced e j j true t (dinit e t) [] [] start)) as [ok s x|why q| |] eqn:E; try discriminate R.
  now apply (traced_thorough e j j t V U _ _ _ _ _ _ _ E).
Qed.
Print Assumptions C72_all.

(** No call is made twice. *)
Theorem C72_once : forall e exc t j obj, distinct_members e -> no_variant e t -> NoDup (calls e exc t j obj).
Proof. intros e exc t j obj D V. now apply traced_once. Qed.
Print Assumptions C72_once.

(** The number of calls has a bound that is linear in the number of values. *)
Theorem C72_linear : forall e exc t j obj w, distinct_members e -> no_variant e t -> (forall u, reachable e u t -> attempts u <= w) ->
  List.length (calls e exc t j obj) <= w * values j.
Proof.
  intros e exc t j obj w D V A. rewrite <- weight_values. apply calls_bound; [exact D|]. intros u R. split; [now apply A|].
  apply (one_branch e). intros ts R'. apply (V ts). now apply rt_trans with u.
Qed.
Print Assumptions C72_linear.

(** With variants: each level of the document counts as often as there are alternatives. *)
Theorem C72_bound : forall e exc t j obj w b, distinct_members e ->
  (forall u, reachable e u t -> attempts u <= w) -> (forall u, reachable e u t -> branches u <= b) ->
  List.length (calls e exc t j obj) <= w * weight b j.
Proof. intros e exc t j obj w b D A B. apply calls_bound; [exact D|]. intros u R. split; auto. Qed.
Print Assumptions C72_bound.

(** ** Variants *)

(** Two classes that differ in the last member, which stand for each other in the first. *)
Definition ex_either : ty := TVariant [TUnique (TClass 0); TUnique (TClass 1)].
Definition ex_twins : env := {|
  classes := [
    {| c_members := [{| m_name := "a"; m_kind := MOptional; m_ty := ex_either |}; {| m_name := "b"; m_kind := MRequired; m_ty := TBool |}];
       c_root := 2; c_default := [VNone; VIndet]; c_value := [VNone; VBool false] |};
    {| c_members := [{| m_name := "a"; m_kind := MOptional; m_ty := ex_either |}];
       c_root := 1; c_default := [VNone]; c_value := [VNone] |}];
  tick := 1000000000; endian := Base64Model.little; after := fun _ => []; less := fun _ _ _ => false;
  iteration := fun keys => seq 0 (List.length keys) |}.

(** {"a":{"a": ... {} ... }} *)
Fixpoint ex_nest (n : nat) : json :=
  match n with O => JObj [] | S n => JObj [("a", ex_nest n)] end.

(** The object read: the first alternative is always the wrong one. *)
Fixpoint ex_nest_value (n : nat) : val :=
  match n with O => VObj [VNone] | S n => VObj [VSome (VVariant 1 (VPtr (ex_nest_value n)))] end.

Lemma ex_twins_distinct : distinct_members ex_twins.
Proof.
  intros c. destruct c as [|[|c]]; [| |unfold class_of; cbn; destruct c]; cbn;
    repeat (constructor; [cbn; intuition discriminate|]); constructor.
Qed.

Local Arguments traced : simpl never.

Lemma ex_nest_calls : forall root n exc old ctx loc st,
  (exists v c, traced ex_twins root (ex_nest n) false (TClass 0) old ctx loc st = (DRet false st v, c) /\ List.length c + 4 = 5 * 2 ^ n) /\
  (exists c, traced ex_twins root (ex_nest n) exc (TClass 1) old ctx loc st = (DRet true st (ex_nest_value n), c) /\ List.length c + 4 = 5 * 2 ^ n).
Proof.
  intros root n. induction n as [|n IH]; intros exc old ctx loc st.
  - split; [do 2 eexists|eexists]; rewrite traced_unfold; (split; [reflexivity|reflexivity]).
  - assert (V : forall exc old ctx loc st, exists c,
      traced ex_twins root (ex_nest n) exc ex_either old ctx loc st = (DRet true st (VVariant 1 (VPtr (ex_nest_value n))), c) /\ List.length c + 5 = 10 * 2 ^ n).
    { clear exc old ctx loc st. intros exc old ctx loc st. unfold ex_either. rewrite traced_unfold. unfold traced_step. cbn [map].
      destruct (IH false (vinit ex_twins (TClass 0)) ctx loc st) as [(v & c & E & L) _].
      destruct (IH false (vinit ex_twins (TClass 1)) ctx loc st) as [_ (c' & E' & L')].
      cbn [t_variant]. rewrite (traced_unfold _ _ _ _ (TUnique (TClass 0))). unfold traced_step at 1. rewrite E. cbn.
      rewrite (traced_unfold _ _ _ _ (TUnique (TClass 1))). unfold traced_step at 1. cbn. cbn in E'. rewrite E'. cbn. eexists. split; [reflexivity|]. unfold called; cbn [fst snd app List.length]. rewrite ?app_length. cbn [app List.length]. lia. }
    split.
    + rewrite traced_unfold. unfold traced_step. cbn.
      destruct (V false (dinit ex_twins ex_either) (at_name ctx "a") (loc ++ [0]) st) as (c & E & L).
      cbn in E. rewrite E. cbn. do 2 eexists. split; [reflexivity|]. cbn. rewrite !app_length. cbn. lia.
    + rewrite traced_unfold. unfold traced_step. cbn.
      destruct (V exc (dinit ex_twins ex_either) (at_name ctx "a") (loc ++ [0]) st) as (c & E & L).
      cbn in E. rewrite E. cbn. eexists. split; [reflexivity|]. cbn. rewrite !app_length. cbn. lia.
Qed.

(** There are types for which the number of calls doubles with each level of the document, which is
    accepted. *)
Theorem C72_exponential : exists e t, distinct_members e /\ forall n, exists j v,
  values j = S n /\ deserialize_throw e t j = Returned v /\
  List.length (calls e true t j (dinit e t)) = 5 * 2 ^ n - 4.
Proof.
  exists ex_twins, (TClass 1). split; [apply ex_twins_distinct|]. intros n. exists (ex_nest n), (ex_nest_value n). split; [|].
  - induction n as [|n IH]; [reflexivity|]. cbn [ex_nest values map list_sum fold_right snd] in *. unfold list_sum. cbn. rewrite IH. lia.
  - destruct (ex_nest_calls (ex_nest n) n true (dinit ex_twins (TClass 1)) [] [] start) as [_ (c & E & L)].
    unfold deserialize_throw, calls. rewrite <- (traced_same ex_twins (ex_nest n) (ex_nest n) true (TClass 1)). rewrite E. cbn [fst snd].
    split; [reflexivity|]. lia.
Qed.
Print Assumptions C72_exponential.

(** No bound is linear for all types. *)
Theorem C72_linear_refuted : exists e t, distinct_members e /\ forall k, exists j v,
  deserialize_throw e t j = Returned v /\ k * values j < List.length (calls e true t j (dinit e t)).
Proof.
  destruct C72_exponential as (e & t & D & H). exists e, t. split; [exact D|]. intros k. destruct (H (k + k)) as (j & v & V & R & L).
  exists j, v. split; [exact R|]. rewrite V, L, Nat.pow_add_r. pose proof (Nat.pow_gt_lin_r 2 k) as P. nia.
Qed.
Print Assumptions C72_linear_refuted.

(** ** Examples *)

(** Eight levels, fifty bytes, 1276 calls; for the class without variants each value is read once. *)
Example C72_ex_nest : List.length (calls ex_twins true (TClass 1) (ex_nest 8) VIndet) = 1276 /\ values (ex_nest 8) = 9.
Proof. split; reflexivity. Qed.

Definition ex_visited : json :=
  JArr [JObj [("b", JBool false); ("z", JArr [JNull]); ("n", JInt 2); ("b", JNull)]; JObj [("n", JInt 4)]].
Example C72_ex_visited :
  deserialize_throw ex_micro (TVector (TClass 0)) ex_visited = Returned (VList [VObj [VInt 2; VBool false; VNone]; VObj [VInt 4; VBool true; VNone]]) /\
  calls ex_micro true (TVector (TClass 0)) ex_visited VIndet =
    [([], TVector (TClass 0)); ([0], TClass 0); ([0; 2], TInt int32); ([0; 0], TBool); ([1], TClass 0); ([1; 0], TInt int32)] /\
  values ex_visited = 9.
Proof. repeat split; reflexivity. Qed.
Example C72_ex_premises : no_variant ex_micro (TVector (TClass 0)) /\ no_shared ex_micro (TVector (TClass 0)) /\
  forall u, reachable ex_micro u (TVector (TClass 0)) -> attempts u <= 1.
Proof.
  split; [|split]; [intros ts R|intros v R|intros u R]; reaches [TVector (TClass 0); TClass 0; TInt int32; TBool; TString]; subst; cbn; auto.
Qed.
Example C72_ex_distinct : distinct_members ex_micro.
Proof.
  intros c. destruct c as [|[|c]]; [| |unfold class_of; cbn; destruct c]; cbn;
    repeat (constructor; [cbn; intuition discriminate|]); constructor.
Qed.

(** An enumeration is read as a number as well, what a pointer points to as itself: three calls for
    one value. *)
Example C72_ex_enum : calls ex_micro true (TUnique (TEnumInt int32)) (JInt 1) VIndet =
  [([], TUnique (TEnumInt int32)); ([], TEnumInt int32); ([], TInt int32)] /\ attempts (TUnique (TEnumInt int32)) = 3.
Proof. split; reflexivity. Qed.

(** Nothing is read after what is wrong. *)
Example C72_ex_wrong : calls ex_micro true (TVector TBool) (JArr [JBool true; JNull; JBool true]) VIndet =
  [([], TVector TBool); ([0], TBool); ([1], TBool)].
Proof. reflexivity. Qed.
