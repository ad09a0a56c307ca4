(** Properties of deserialize with respect to values that have never been set. *)
From Coq Require Import List Arith ZArith NArith Ascii String Bool Relations Lia.
From Verif Require Import Base Float NumericModel EnumModel DatetimeModel Json PathModel Types DeserializeModel DenoteSpec SchemaGenSpec SafetySpec DenoteProof DenoteFacts SafetyProof
  SameSpec IndetModel IndetSpec IndetProof IndetSafe IndetCopy DeserializeProps.
Import ListNotations.
Local Open Scope string_scope.
Local Open Scope list_scope.

(** C78: a copy without a value is the only difference that copies make: whatever the type, the
    document and the object, the outcome is the same if there is none. *)
Theorem C78_same : forall e t j obj, m_deserialize e t j obj = DUndef \/ m_deserialize e t j obj = deserialize e t j obj.
Proof. intros e t j obj. apply mdeser_under. Qed.
Print Assumptions C78_same.

(** C78: documents that are accepted, if the classes initialise their members with a default. *)
Theorem C78_accepted : forall e t, ordinary e -> prepared e -> ordinary_type t -> forall j obj v, denotes e t obj j v ->
  m_deserialize e t j obj = deserialize e t j obj /\ m_deserialize e t j obj = DRet true start v.
Proof.
  intros e t O P [Pt Rt] j obj v D. assert (E : m_deserialize e t j obj = DRet true start v) by exact (all_take e j P O j t Pt Rt false _ _ _ _ _ D).
  split; [|exact E]. rewrite E. symmetry. apply C22_all_read; [exact O|split; assumption|exact D].
Qed.
Print Assumptions C78_accepted.

(** C78: the form that throws, for any document. Also the object that is returned has no part
    without a value. *)
Theorem C78_throwing : forall e t, ordinary e -> prepared e -> ordinary_type t -> forall j,
  (forall moved, m_deserialize_throw moved e t j = deserialize_throw e t j) /\
  (forall v, deserialize_throw e t j = Returned v -> given e t v).
Proof.
  intros e t O P Ht j. unfold m_deserialize_throw, deserialize_throw.
  assert (G : forall ok st v, deser e j j true t (dinit e t) [] [] start = DRet ok st v -> given e t v).
  { intros ok st v. apply throwing_given; auto. now apply dinit_ready. }
  rewrite (throwing_agree e j O P t Ht). split.
  - intros moved. destruct (deser _ _ _ _ _ _ _ _ _) as [ok st v| | |] eqn:E; auto. rewrite (given_determinate e v t (G _ _ _ eq_refl)). now rewrite andb_false_r.
  - intros v. destruct (deser _ _ _ _ _ _ _ _ _) as [ok st w| | |] eqn:E; intros H; try discriminate. injection H as <-. eapply G. reflexivity.
Qed.
Print Assumptions C78_throwing.

Ltac each_member := cbn; repeat match goal with |- Forall2 _ [] [] => apply Forall2_nil | |- Forall2 _ _ _ => apply Forall2_cons; [split; cbn [m_kind m_ty]; let K := fresh in intros K; try discriminate K; try (now destruct K)|] end;
  first [apply ready_whole; exact I|apply given_bare; exact I|apply given_owning; exact I|now left|auto].

Lemma ex_prepared : prepared ex_plain.
Proof.
  assert (R0 : forall x, ready ex_plain (TClass 0) (VObj [x; VBool true; VNone])).
  { intros x. apply ready_class. each_member. }
  intros c. destruct c as [|[|[|c]]]; [split; apply R0| | |].
  - split; apply ready_class; each_member.
  - split; apply ready_class; each_member.
  - assert (E : class_of ex_plain (S (S (S c))) = no_class) by (destruct c; reflexivity). rewrite E. split; apply ready_class; rewrite E; constructor.
Qed.

Example C78_throwing_example :
  let j := JArr [JObj [("n", JInt 1)]; JObj [("n", JInt 2); ("b", JBool false); ("s", JStr "x")]] in
  let bad := JArr [JObj [("n", JInt 1)]; JObj [("n", JStr "?")]] in
  let v := VList [VObj [VInt 1; VBool true; VNone]; VObj [VInt 2; VBool false; VSome (VStr "x")]] in
  ordinary ex_plain /\ prepared ex_plain /\ ~ initialised ex_plain /\
  m_deserialize_throw true ex_plain (TArray 2 (TClass 0)) j = Returned v /\ given ex_plain (TArray 2 (TClass 0)) v /\
  m_deserialize_throw true ex_plain (TArray 2 (TClass 0)) bad = deserialize_throw ex_plain (TArray 2 (TClass 0)) bad /\
  m_deserialize ex_plain (TArray 2 (TClass 0)) j VIndet = DRet true start v.
Proof.
  assert (N : ordinary_type (TArray 2 (TClass 0))) by (split; reflexivity).
  split; [exact ex_ordinary|]. split; [exact ex_prepared|]. split.
  { intros H. destruct (H 0) as [G _]. apply given_determinate in G. discriminate G. }
  split; [vm_compute; reflexivity|]. split; [|split; vm_compute; reflexivity].
  refine (proj2 (C78_throwing ex_plain _ ex_ordinary ex_prepared N (JArr [JObj [("n", JInt 1)]; JObj [("n", JInt 2); ("b", JBool false); ("s", JStr "x")]])) _ _). vm_compute. reflexivity.
Qed.

(** C78: an optional member of a type like int, bool, double or an enumeration, for which the
    document has a value that is not accepted: the form that reports success copies a value that
    was never set. *)
Theorem C78_optional : forall e c m l j obj, no_pointer e (TClass c) -> real_classes e -> (0 < tick e)%Z ->
  In m (c_members (class_of e c)) -> m_kind m = MOptional -> bare (m_ty m) -> ~ byte_type (m_ty m) ->
  find_member l (m_name m) = Some j -> (forall old v, ~ denotes e (m_ty m) old j v) ->
  m_deserialize e (TClass c) (JObj l) obj = DUndef.
Proof.
  intros e c m l j obj Np Rc Ck I K B Nb F N.
  destruct (C78_same e (TClass c) (JObj l) obj) as [E|E]; [exact E|].
  destruct (m_deserialize e (TClass c) (JObj l) obj) as [ok st v|why p| |] eqn:R; auto.
  - exfalso. clear E. unfold m_deserialize in R. rewrite mdeser_unfold in R. cbn [mdeser_step] in R.
    destruct (m_members _ _ _ _ _ _ _ _ _ _ _) as [[[ok' vs] [r|]] st'] eqn:M; cbn [finish_object] in R.
    + subst r. exact (m_members_stop _ _ _ _ _ _ _ _ _ _ _ _ _ _ _ M _ _ _ eq_refl).
    + destruct (m_members_all _ _ _ _ _ _ _ _ _ _ _ _ _ _ _ I M) as (flag & old & st1 & ok2 & st2 & x & Em). unfold m_member in Em. rewrite K in Em.
      pose proof (find_fun_member _ (mdeser e (JObj l)) l (m_name m)) as X. destruct (find_fun _ 0 (m_name m)) as [[k f]|]; [|congruence].
      destruct X as (j' & F' & ->). assert (j' = j) by congruence. subst j'.
      assert (Rm : real_ints (m_ty m) = true) by (specialize (Rc c); rewrite forallb_forall in Rc; auto).
      assert (S : sound_at e (JObj l) j (m_ty m)) by (apply scalar_sound; auto; destruct (m_ty m); try contradiction; exact Logic.I).
      specialize (S false ltac:(right; destruct (m_ty m); try contradiction; reflexivity) (dinit e (m_ty m)) (at_name [] (m_name m)) ([] ++ [k]) st1).
      destruct (mdeser_under e (JObj l) j false (m_ty m) (dinit e (m_ty m)) (at_name [] (m_name m)) ([] ++ [k]) st1) as [Z|Z]; rewrite Z in Em; [discriminate|]. clear Z.
      destruct (deser e (JObj l) j false (m_ty m) (dinit e (m_ty m)) (at_name [] (m_name m)) ([] ++ [k]) st1) as [[] st3 y| | |] eqn:D; try discriminate.
      * cbn in S. exact (N _ _ (proj2 S)).
      * assert (y = VIndet) as ->.
        { rewrite deser_unfold in D. clear - D B. destruct (m_ty m); try contradiction; cbn [deser_step read_scalar dinit] in D; unfold read_float, read_int, reject in D.
          all: repeat match type of D with
            | match ?x with _ => _ end = _ => destruct x
            end; try congruence. }
        destruct (m_ty m); try contradiction; cbn [determinate] in Em; try discriminate. destruct (Z.eqb_spec (width k0) 8), (is_signed k0) eqn:Sg; try discriminate.
        apply Nb. destruct k0 as [w sg]. cbn in *. subst. reflexivity.
  - exfalso. exact (no_throw _ _ _ _ _ _ _ _ _ _ (eq_sym E)).
  - exfalso. pose proof (deserialize_safe e (TClass c) (JObj l) obj) as Sf. rewrite <- E in Sf. destruct Sf as [u U]. exact (Np u U).
Qed.
Print Assumptions C78_optional.

Definition ex_optional : env := ex_program [{|
  c_members := [{| m_name := "s"; m_kind := MRequired; m_ty := TString |}; {| m_name := "n"; m_kind := MOptional; m_ty := TInt int32 |};
                {| m_name := "c"; m_kind := MOptional; m_ty := TInt {| width := 8; is_signed := false |} |}];
  c_root := 3; c_default := [VStr ""; VNone; VNone]; c_value := [VStr ""; VNone; VNone] |}].

Example C78_optional_example : let obj := VObj [VStr ""; VNone; VNone] in
  (* the number is wrong, and the next member makes up for it *)
  let j := JObj [("s", JStr "x"); ("n", JStr "y"); ("c", JInt 1)] in
  deserialize ex_optional (TClass 0) j obj = DRet true start (VObj [VStr "x"; VSome VIndet; VSome (VInt 1)]) /\
  m_deserialize ex_optional (TClass 0) j obj = DUndef /\ m_deserialize_throw true ex_optional (TClass 0) j = deserialize_throw ex_optional (TClass 0) j /\
  (* a character *)
  m_deserialize ex_optional (TClass 0) (JObj [("s", JStr "x"); ("c", JStr "z")]) obj = DRet false start (VObj [VStr "x"; VNone; VSome VIndet]).
Proof. repeat split; vm_compute; reflexivity. Qed.

(** C78: what exactly is copied. If reading [j] alone into a new object of type [u] succeeds,
    and a part of the object has no value then, reading it as an element of a vector, set, array
    or dictionary behind elements that are read, or as an alternative of a variant behind
    alternatives that are not, is undefined, the latter also in the form that throws. *)
Theorem C78_copied : forall e u j st v, unshared_classes e -> unshared u = true -> deserialize e u j (dinit e u) = DRet true st v -> lacking e u v ->
  (forall js js' obj, Forall (fun x => exists st w, deserialize e u x (dinit e u) = DRet true st w) js ->
     m_deserialize e (TVector u) (JArr (js ++ j :: js')) obj = DUndef /\
     m_deserialize e (TSet u) (JArr (js ++ j :: js')) obj = DUndef /\
     m_deserialize e (TArray (List.length (js ++ j :: js')) u) (JArr (js ++ j :: js')) obj = DUndef) /\
  (forall o l k l' obj, Forall (fun p => exists st w, deserialize e u (snd p) (dinit e u) = DRet true st w) l ->
     m_deserialize e (TMap o u) (JObj (l ++ (k, j) :: l')) obj = DUndef) /\
  (forall ts ts' obj moved, forallb unshared ts = true -> Forall (fun t => exists st w, deserialize e t j (dinit e t) = DRet false st w) ts ->
     m_deserialize e (TVariant (ts ++ u :: ts')) j obj = DUndef /\ m_deserialize_throw moved e (TVariant (ts ++ u :: ts')) j = TUndef).
Proof.
  intros e u j st v Uc Uu R L. split; [|split].
  - intros js js' obj F. unfold m_deserialize. rewrite !mdeser_unfold. cbn [mdeser_step]. rewrite Nat.eqb_refl. unfold read_array. cbn [negb].
    rewrite !(items_undefined e u Uc Uu j st v R L js js' F). auto.
  - intros o l k l' obj F. unfold m_deserialize. rewrite mdeser_unfold. cbn [mdeser_step]. exact (entries_undefined e u Uc Uu j st v R L l k l' F _ _ _ _ _ _).
  - intros ts ts' obj moved Us F. unfold m_deserialize, m_deserialize_throw. rewrite !mdeser_unfold. cbn [mdeser_step].
    destruct (variant_undefined e u j st v Uc ts Us Uu R L F ts' j 0 [] [] start) as (st' & ->). auto.
Qed.
Print Assumptions C78_copied.

(** C78: optional members are copied whatever the flag. *)
Theorem C78_copied_optional : forall e c m l j obj ok st v, no_pointer e (TClass c) -> unshared_classes e -> unshared (m_ty m) = true ->
  In m (c_members (class_of e c)) -> m_kind m = MOptional -> find_member l (m_name m) = Some j ->
  deserialize e (m_ty m) j (dinit e (m_ty m)) = DRet ok st v -> lacking e (m_ty m) v -> m_deserialize e (TClass c) (JObj l) obj = DUndef.
Proof. exact optional_undefined. Qed.
Print Assumptions C78_copied_optional.

Example C78_copied_example :
  (* the number is not read, the string behind it is *)
  let v := VObj [VIndet; VBool true; VSome (VStr "x")] in
  deserialize ex_plain (TClass 0) (JObj [("n", JNull); ("s", JStr "x")]) (dinit ex_plain (TClass 0)) = DRet true start v /\
  lacking ex_plain (TClass 0) v /\ lacking ex_plain (TTuple [TString; TArray 2 (TVariant [TBool; TClass 0])]) (VList [VStr ""; VList [VVariant 0 (VBool true); VVariant 1 v]]) /\
  m_deserialize ex_plain (TMap true (TClass 0)) (JObj [("a", JObj [("n", JInt 1)]); ("b", JObj [("n", JNull); ("s", JStr "x")]); ("c", JNull)]) VIndet = DUndef /\
  m_deserialize ex_plain (TMap true (TClass 0)) (JObj [("a", JObj [("n", JInt 1)]); ("b", JNull); ("c", JObj [("n", JNull); ("s", JStr "x")])]) VIndet =
    DRet false start (VMap [("a", VObj [VInt 1; VBool true; VNone])]).
Proof.
  assert (L : lacking ex_plain (TClass 0) (VObj [VIndet; VBool true; VSome (VStr "x")])).
  { apply (lacking_member ex_plain 0 _ 0 {| m_name := "n"; m_kind := MRequired; m_ty := TInt int32 |} VIndet); [reflexivity|reflexivity|]. apply lacking_bare; [exact I|discriminate]. }
  cbv zeta. repeat split; try (vm_compute; reflexivity); [exact L|].
  apply (lacking_tuple _ _ _ 1 (TArray 2 (TVariant [TBool; TClass 0])) (VList [VVariant 0 (VBool true); VVariant 1 (VObj [VIndet; VBool true; VSome (VStr "x")])])); [reflexivity|reflexivity|].
  eapply lacking_array; [right; left; reflexivity|]. eapply lacking_variant; [reflexivity|exact L].
Qed.

(** C78: if the classes initialise all their members, and optional members are of types that
    initialise themselves, nothing without a value is copied, whatever the type, variants and
    shared pointers included, and whatever the document. *)
Theorem C78_initialised : forall e t j, initialised e -> steady_optionals e ->
  (forall obj, m_deserialize e t j obj = deserialize e t j obj) /\
  (forall moved, moved = false \/ given e t (dinit e t) -> m_deserialize_throw moved e t j = deserialize_throw e t j).
Proof.
  intros e t j P O. split; [intros obj; apply initialised_agree; auto|]. intros moved Hm. unfold m_deserialize_throw, deserialize_throw.
  rewrite (initialised_agree e j P O). destruct (deser e j j true t (dinit e t) [] [] start) as [ok st v| | |] eqn:E; auto.
  destruct Hm as [->|G]; [reflexivity|]. apply (all_keep e j P O) in E. rewrite (given_determinate e v t (proj2 E G)), andb_false_r. reflexivity.
Qed.
Print Assumptions C78_initialised.

Definition ex_initialised : env := ex_program [{|
  c_members := [{| m_name := "a"; m_kind := MRequired; m_ty := TInt int32 |}; {| m_name := "s"; m_kind := MOptional; m_ty := TString |};
                {| m_name := "b"; m_kind := MRequired; m_ty := TInt int32 |}];
  c_root := 3; c_default := [VInt 0; VNone; VInt 0]; c_value := [VInt 0; VNone; VInt 0] |}].

Example C78_initialised_example : initialised ex_initialised /\ steady_optionals ex_initialised /\
  let t := TVariant [TShared TString; TVector (TClass 0)] in
  m_deserialize_throw false ex_initialised t (JArr [JObj [("a", JStr "x"); ("b", JInt 1)]]) = Returned (VVariant 1 (VList [VObj [VInt 0; VNone; VInt 1]])) /\
  m_deserialize ex_initialised (TVector (TClass 0)) (JArr [JObj [("a", JInt 1); ("s", JNull); ("b", JInt 2)]; JObj [("b", JStr "x")]]) VIndet =
    DRet false start (VList [VObj [VInt 1; VSome (VStr ""); VInt 2]]).
Proof.
  split; [|split; [|split; vm_compute; reflexivity]].
  - intros [|c].
    + split; apply given_class; each_member.
    + assert (E : class_of ex_initialised (S c) = no_class) by (destruct c; reflexivity). rewrite E. split; apply given_class; rewrite E; constructor.
  - intros [|c] m I K.
    + destruct I as [<-|[<-|[<-|[]]]]; try discriminate K. now apply given_owning.
    + assert (E : class_of ex_initialised (S c) = no_class) by (destruct c; reflexivity). rewrite E in I. destruct I.
Qed.

Definition ex_numbers : env := ex_program [{|
  c_members := [{| m_name := "a"; m_kind := MRequired; m_ty := TInt int32 |}; {| m_name := "b"; m_kind := MRequired; m_ty := TInt int32 |}];
  c_root := 2; c_default := [VIndet; VIndet]; c_value := [VInt 0; VInt 0] |}].

Lemma ex_numbers_ordinary : ordinary ex_numbers.
Proof. split; [|split; [|reflexivity]]; intros c; destruct c as [|c]; [reflexivity| |reflexivity|]; unfold class_of; cbn; destruct c; reflexivity. Qed.

Lemma ex_numbers_prepared : prepared ex_numbers.
Proof.
  intros [|c].
  - split; apply ready_class; each_member.
  - assert (E : class_of ex_numbers (S c) = no_class) by (destruct c; reflexivity). rewrite E. split; apply ready_class; rewrite E; constructor.
Qed.

(** C78: without initialisers, success may be reported for elements that were copied although
    a member of theirs was not read (C22), *)
Theorem C78_forgotten_refuted : exists e t j v, ordinary e /\ ordinary_type t /\ prepared e /\ (forall c m, In m (c_members (class_of e c)) -> m_kind m <> MOptional) /\
  deserialize e t j VIndet = DRet true start v /\ m_deserialize e t j VIndet = DUndef.
Proof.
  exists ex_numbers, (TVector (TClass 0)), (JArr [JObj [("a", JStr "x"); ("b", JInt 1)]]), (VList [VObj [VIndet; VInt 1]]).
  split; [exact ex_numbers_ordinary|]. split; [split; reflexivity|]. split; [exact ex_numbers_prepared|]. split; [|split; vm_compute; reflexivity].
  intros [|c] m I; [destruct I as [<-|[<-|[]]]; discriminate|].
  assert (E : class_of ex_numbers (S c) = no_class) by (destruct c; reflexivity). rewrite E in I. destruct I.
Qed.
Print Assumptions C78_forgotten_refuted.

(** and inside variants the form that throws does the same. *)
Theorem C78_variant_refuted : exists e t j v, ordinary e /\ ordinary_type t /\ prepared e /\
  deserialize_throw e (TVariant [t]) j = Returned v /\ m_deserialize_throw false e (TVariant [t]) j = TUndef.
Proof.
  exists ex_numbers, (TClass 0), (JObj [("a", JStr "x"); ("b", JInt 1)]), (VVariant 0 (VObj [VIndet; VInt 1])).
  split; [exact ex_numbers_ordinary|]. split; [split; reflexivity|]. split; [exact ex_numbers_prepared|]. split; vm_compute; reflexivity.
Qed.
Print Assumptions C78_variant_refuted.
