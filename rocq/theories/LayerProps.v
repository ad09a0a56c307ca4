(** Properties of documents read one after the other into the same object. *)
From Coq Require Import List Arith ZArith NArith Ascii String Bool Lia.
From Verif Require Import Base Float NumericModel NumericSpec Json Types DeserializeModel ParseModel DenoteSpec RoundSpec ParseSpec MergeSpec ParseLimit ParseStack LayerSpec
  DenoteProof DenoteFacts LayerProof LayerParse LayerAny DeserializeProps ParseProps.
Import ListNotations.
Local Open Scope string_scope.
Local Open Scope list_scope.

(** C77: a document that is accepted is read into any object, and reading it again into the
    result changes nothing. *)
Theorem C77_again : forall e t, ordinary e -> ordinary_type t -> forall j w, deserialize_throw e t j = Returned w ->
  forall obj, exists v, deserialize e t j obj = DRet true start v /\ deserialize e t j v = DRet true start v.
Proof.
  intros e t He Ht j w A obj. apply C21_accepts_exactly in A; auto. destruct (any_old e j t _ w A obj) as (v & D).
  exists v. split; apply C22_all_read; auto. now apply (again e j t obj).
Qed.
Print Assumptions C77_again.

(** C77: whatever the type and the document, rejected ones included, what is reported does not
    depend on the object, and reading again changes nothing. *)
Theorem C77_any : forall e t j obj ok st v, deserialize e t j obj = DRet ok st v ->
  deserialize e t j v = DRet ok st v /\ forall obj', exists v', deserialize e t j obj' = DRet ok st v'.
Proof.
  intros e t j obj ok st v H. destruct (all_steady e j j false t obj [] [] start) as [A B]. unfold deserialize in *. split; [exact (B _ _ _ H)|].
  intros obj'. specialize (A obj'). rewrite H in A. cbn in A. destruct (deser e j j false t obj' [] [] start) as [ok' st' v'| | |]; try contradiction. destruct A as [-> ->]. eauto.
Qed.
Print Assumptions C77_any.

Example C77_any_example :
  (* the object is rejected at its second component, when the first one has been replaced *)
  let j := JArr [JObj [("n", JInt 1); ("s", JInt 2)]; JArr [JStr "x"; JBool true]; JInt 3] in
  let t := TTuple [TClass 0; TVector TString; TInt int32] in
  let obj := VList [VObj [VInt 7; VBool false; VSome (VStr "y")]; VList [VStr "z"]; VInt 9] in
  let v := VList [VObj [VInt 1; VBool false; VSome (VStr "")]; VList [VStr "z"]; VInt 9] in
  deserialize ex_plain t j obj = DRet false start v /\ deserialize ex_plain t j v = DRet false start v /\
  deserialize ex_plain (TVector TString) (JArr [JStr "x"; JBool true]) (VList [VStr "z"]) = DRet false start (VList [VStr "x"]).
Proof. repeat split; vm_compute; reflexivity. Qed.

(** C77: two documents that are accepted can be put together in one that is accepted, and
    reading this one is reading the two in turn, whatever the object. *)
Theorem C77_layers : forall e t, ordinary e -> named e -> ordinary_type t -> forall below above w w',
  deserialize_throw e t below = Returned w -> deserialize_throw e t above = Returned w' ->
  (exists x, deserialize_throw e t (overlay e above t below) = Returned x) /\
  forall obj, exists v v', deserialize e t below obj = DRet true start v /\ deserialize e t above v = DRet true start v' /\
    deserialize e t (overlay e above t below) obj = DRet true start v'.
Proof.
  intros e t He Hn Ht below above w w' A A'. apply C21_accepts_exactly in A; auto. apply C21_accepts_exactly in A'; auto.
  assert (X : forall obj, exists v v', denotes e t obj below v /\ denotes e t v above v' /\ denotes e t obj (overlay e above t below) v').
  { intros obj. destruct (any_old e below t _ w A obj) as (v & D). destruct (any_old e above t _ w' A' v) as (v' & D').
    exists v, v'. repeat split; auto. now apply (all_layered e He Hn above t obj below v v' Ht D). }
  split.
  - destruct (X (dinit e t)) as (v & v' & _ & _ & D). exists v'. now apply C21_accepts_exactly.
  - intros obj. destruct (X obj) as (v & v' & D1 & D2 & D3). exists v, v'. repeat split; apply C22_all_read; auto.
Qed.
Print Assumptions C77_layers.

(** C77: a document that cannot be read on top of the first one cannot be read in the
    document put together from both either. *)
Theorem C77_rejected : forall e t, ordinary e -> named e -> ordinary_type t -> forall below above w,
  deserialize_throw e t below = Returned w ->
  ((exists x, deserialize_throw e t (overlay e above t below) = Returned x) <-> exists x, deserialize_throw e t above = Returned x).
Proof.
  intros e t He Hn Ht below above w A. apply C21_accepts_exactly in A; auto. split; intros (x & X); apply C21_accepts_exactly in X; auto.
  - apply (all_layered e He Hn above t _ below w x Ht A) in X. destruct (any_old e above t _ x X (dinit e t)) as (y & Y).
    exists y. now apply C21_accepts_exactly.
  - destruct (any_old e above t _ x X w) as (y & Y). apply (all_layered e He Hn above t _ below w y Ht A) in Y. exists y. now apply C21_accepts_exactly.
Qed.
Print Assumptions C77_rejected.

(** A class for a configuration: a number and a list with a default, a nested object of the
    class of points with a default, and an optional text. *)
Definition ex_settings : cls := {|
  c_members := [{| m_name := "level"; m_kind := MDefault; m_ty := TInt int32 |};
                {| m_name := "path"; m_kind := MDefault; m_ty := TVector TString |};
                {| m_name := "at"; m_kind := MDefault; m_ty := TClass 0 |};
                {| m_name := "note"; m_kind := MOptional; m_ty := TString |}];
  c_root := 4; c_default := [VInt 3; VList []; VObj [VInt 0; VBool true; VNone]; VNone];
  c_value := [VInt 3; VList []; VObj [VInt 0; VBool true; VNone]; VNone] |}.
Definition ex_layers : env := ex_program [ex_point; ex_settings].

Example ex_layers_ordinary : ordinary ex_layers /\ named ex_layers /\ ordinary_type (TClass 1).
Proof.
  split; [|split]; [split; [|split; [|reflexivity]]; intros c; do 2 (destruct c as [|c]; [reflexivity|]); unfold class_of; cbn; destruct c; reflexivity| |split; reflexivity].
  intros c. do 2 (destruct c as [|c]; [cbn; repeat constructor; cbn; intuition discriminate|]). unfold class_of; cbn; destruct c; constructor.
Qed.

Example C77_layers_example :
  let below := JObj [("level", JInt 5); ("path", JArr [JStr "a"; JStr "b"]); ("at", JObj [("n", JInt 1); ("b", JBool false); ("s", JStr "x")]); ("note", JStr "first")] in
  let above := JObj [("at", JObj [("n", JInt 2)]); ("path", JArr [JStr "c"])] in
  let obj := VObj [VInt 9; VList [VStr "z"]; VObj [VInt 8; VBool true; VNone]; VSome (VStr "old")] in
  let first := VObj [VInt 5; VList [VStr "a"; VStr "b"]; VObj [VInt 1; VBool false; VSome (VStr "x")]; VSome (VStr "first")] in
  let second := VObj [VInt 5; VList [VStr "c"]; VObj [VInt 2; VBool false; VNone]; VNone] in
  deserialize ex_layers (TClass 1) below obj = DRet true start first /\
  deserialize ex_layers (TClass 1) below first = DRet true start first /\
  deserialize ex_layers (TClass 1) above first = DRet true start second /\
  (* "level" is taken from below; "note" and "s", which are optional, are not *)
  overlay ex_layers above (TClass 1) below = JObj [("at", JObj [("n", JInt 2); ("b", JBool false)]); ("path", JArr [JStr "c"]); ("level", JInt 5)] /\
  deserialize ex_layers (TClass 1) (overlay ex_layers above (TClass 1) below) obj = DRet true start second /\
  (* the upper document alone would have kept what is in the object *)
  deserialize ex_layers (TClass 1) above obj = DRet true start (VObj [VInt 9; VList [VStr "c"]; VObj [VInt 2; VBool true; VNone]; VNone]).
Proof. repeat split; vm_compute; reflexivity. Qed.

Example C77_rejected_example :
  let below := JObj [("level", JInt 5)] in let above := JObj [("at", JObj [("b", JBool true)])] in
  (* "at" without the number in it, which is required, is rejected even though there is a number to keep *)
  (exists v, deserialize_throw ex_layers (TClass 1) below = Returned v) /\
  (exists why p, deserialize_throw ex_layers (TClass 1) above = Threw why p) /\
  exists why p, deserialize_throw ex_layers (TClass 1) (overlay ex_layers above (TClass 1) below) = Threw why p.
Proof. vm_compute. repeat split; repeat eexists. Qed.

(** C77: the parser too, if there are no vectors and sets that it adds to and no object of
    the document names a member twice. *)
Theorem C77_parse_again : forall e fuel t j obj v, supported e fuel -> ordinary_type t -> overwritten e t -> tidy j -> shaped e t obj ->
  parse_into e fuel real_capacity t j obj = Parsed true v ->
  (parse_into e fuel real_capacity t j v = OutOfSpace \/ parse_into e fuel real_capacity t j v = Parsed true v) /\
  (nesting j <= 84 -> parse_into e fuel real_capacity t j v = Parsed true v).
Proof. exact parsed_again. Qed.
Print Assumptions C77_parse_again.

Example C77_parse_example :
  let j := JObj [("k", JObj [("n", JInt 7); ("s", JStr "x")]); ("l", JObj [("n", JInt 8)])] in
  let t := TMap true (TClass 0) in
  let obj := VMap [("a", VObj [VInt 1; VBool false; VNone]); ("k", VObj [VInt 2; VBool false; VNone])] in
  let v := VMap [("a", VObj [VInt 1; VBool false; VNone]); ("k", VObj [VInt 7; VBool false; VSome (VStr "x")]); ("l", VObj [VInt 8; VBool true; VNone])] in
  overwritten ex_parsed t /\ tidy j /\ shaped ex_parsed t obj /\ ex_read t j obj = Parsed true v /\ ex_read t j v = Parsed true v.
Proof.
  cbn zeta. split; [|split; [|split; [|split]]].
  - intros u. split; intros S; inversion S as [| |? ? S1| | |]; subst; inversion S1 as [| | | | |? m I K S2]; subst;
      cbn in I; destruct I as [<-|[<-|[<-|[]]]]; cbn in S2, K; try congruence; inversion S2.
  - repeat (first [apply tidy_object|apply tidy_array|apply tidy_scalar; discriminate|apply Forall_cons|apply Forall_nil|apply NoDup_cons|apply NoDup_nil|cbn; intuition discriminate]).
  - repeat constructor; cbn; try congruence; intros; apply shaped_other; reflexivity.
  - vm_compute. reflexivity.
  - vm_compute. reflexivity.
Qed.

(** C77: with a vector the second reading adds the elements again. *)
Theorem C77_parse_refuted : exists e fuel t j obj v w, supported e fuel /\ ordinary_type t /\ tidy j /\ shaped e t obj /\ nesting j <= 84 /\
  parse_into e fuel real_capacity t j obj = Parsed true v /\ parse_into e fuel real_capacity t j v = Parsed true w /\ w <> v.
Proof.
  exists ex_parsed, ex_fuel, (TVector TBool), (JArr [JBool true]), (VList []), (VList [VBool true]), (VList [VBool true; VBool true]).
  split; [exact ex_supported|]. split; [split; reflexivity|]. split; [apply tidy_array; repeat constructor; discriminate|]. split; [apply shaped_vector|].
  split; [cbn; lia|]. split; [vm_compute; reflexivity|]. split; [vm_compute; reflexivity|discriminate].
Qed.
Print Assumptions C77_parse_refuted.
