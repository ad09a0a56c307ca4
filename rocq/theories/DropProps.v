(** Property C57: references to objects in members that are left out. *)
From Coq Require Import List Arith ZArith NArith Ascii String Bool Lia.
From Verif Require Import Base Float RefsModel Json PathModel PathSpec PathProof Types SerializeModel Events WriteModel WriteSpec DeserializeModel DenoteProof VariantFacts.
Import ListNotations.
Local Open Scope string_scope.
Local Open Scope list_scope.

(** An optional pair of a shared pointer and a number, and another shared pointer. *)
Definition two_ways (n1 n2 : string) (u : ty) : cls := {|
  c_members := [{| m_name := n1; m_kind := MOptional; m_ty := TPair (TShared u) TDouble |};
                {| m_name := n2; m_kind := MRequired; m_ty := TShared u |}];
  c_root := 2; c_default := [VNone; VPtrNull]; c_value := [VNone; VPtrNull] |}.

Definition nowhere (n1 n2 : string) : json := JObj [(n2, JObj [("$ref", JStr (("/" ++ n1 ++ "/0")%string))])].

Lemma text_of_path : forall n1, plain_step (Member n1) ->
  string_of_list_ascii (path_str [index_segment 0; name_segment (list_ascii_of_string n1)]) = ("/" ++ n1 ++ "/0")%string.
Proof.
  intros n1 P. change (path_str _) with (path_str (rev (map segment_of [Member n1; Element 0]))).
  rewrite path_text; [|discriminate|constructor; [exact P|repeat constructor]]. cbn [map List.concat name_of app].
  cbn [string_of_list_ascii]. change (Decimal10.dec (N.of_nat 0)) with ["0"%char]. change ("/" ++ n1 ++ "/0")%string with (String "/" (n1 ++ "/0")). f_equal.
  clear. induction n1 as [|b s IH]; [reflexivity|]. cbn. now rewrite <- IH.
Qed.

Lemma dropped : forall e c n1 n2 u x j a f, class_of e c = two_ways n1 n2 u -> plain_step (Member n1) ->
  (forall ctx tab, ser e x u ctx tab = SOk tab j) -> is_finite f = false ->
  exists tab, serialize_to_document e (TClass c) (VObj [VSome (VList [VShared a x; VFlt f]); VShared a x]) = SOk tab (nowhere n1 n2).
Proof.
  intros e c n1 n2 u x j a f C P G F. unfold serialize_to_document, nowhere. cbn. rewrite C. cbn. rewrite G. cbn. rewrite F. cbn. rewrite Nat.eqb_refl. cbn.
  eexists. pose proof (text_of_path n1 P) as E. cbn in E. rewrite <- E. reflexivity.
Qed.

Lemma not_dropped : forall e c n1 n2 u x j a f, class_of e c = two_ways n1 n2 u -> plain_step (Member n1) ->
  (forall ctx tab, ser e x u ctx tab = SOk tab j) -> is_finite f = true ->
  exists tab, serialize_to_document e (TClass c) (VObj [VSome (VList [VShared a x; VFlt f]); VShared a x]) =
    SOk tab (JObj [(n1, JArr [j; JDbl f]); (n2, JObj [("$ref", JStr ("/" ++ n1 ++ "/0")%string)])]).
Proof.
  intros e c n1 n2 u x j a f C P G F. unfold serialize_to_document, nowhere. cbn. rewrite C. cbn. rewrite G. cbn. rewrite F. cbn. rewrite Nat.eqb_refl. cbn.
  eexists. pose proof (text_of_path n1 P) as E. cbn in E. rewrite <- E. reflexivity.
Qed.

Lemma not_resolved : forall n1 n2, plain_step (Member n1) -> n1 <> n2 ->
  exists ts, parse_pointer (list_ascii_of_string ("/" ++ n1 ++ "/0")%string) = Some ts /\ pointer_get (nowhere n1 n2) ts = None.
Proof.
  intros n1 n2 P N. exists (map (fun s => make_token (name_of s)) [Member n1; Element 0]). split.
  - rewrite <- parse_path; [|discriminate|constructor; [exact P|repeat constructor]]. f_equal. rewrite path_text; [|discriminate|constructor; [exact P|repeat constructor]].
    cbn [map List.concat name_of app]. change (Decimal10.dec (N.of_nat 0)) with ["0"%char]. cbn. f_equal. clear. induction n1 as [|b s IH]; [reflexivity|]. cbn. now rewrite IH.
  - unfold nowhere. cbn. rewrite string_of_list_ascii_of_string. destruct (String.eqb_spec n2 n1); [congruence|reflexivity].
Qed.

Lemma read_null : forall e c n1 n2 u exc x y, class_of e c = two_ways n1 n2 u -> plain_step (Member n1) -> n1 <> n2 ->
  deser e (nowhere n1 n2) (nowhere n1 n2) exc (TClass c) (VObj [x; y]) [] [] start = DRet false start (VObj [VNone; y]).
Proof.
  intros e c n1 n2 u exc x y C P N. rewrite deser_unfold. unfold deser_step. cbn [nowhere deser_step]. rewrite C. cbn [two_ways c_members c_root].
  destruct (not_resolved n1 n2 P N) as (ts & E & G). unfold finish_object. cbn [read_members parts_of hd tl map fst snd].
  unfold read_member at 1. cbn [find_fun m_name m_kind]. destruct (String.eqb_spec n2 n1); [congruence|].
  unfold read_member. cbn [find_fun m_name m_kind m_ty]. rewrite String.eqb_refl. fold (nowhere n1 n2).
  rewrite (dangling e (nowhere n1 n2) _ exc u y _ _ _ ("/" ++ n1 ++ "/0")%string ts); [reflexivity|reflexivity|exact E|]. intros place v Gp. congruence.
Qed.

(** C57: a member that cannot be written is left out, but the objects in it stay registered: a
    later pointer to one of them is written as a reference to nothing. The reader that throws
    returns a null pointer for it, the other one fails; so the object is lost although there is
    no exception, and although it could be written. The writer of strings fails instead. *)
Theorem C57_dangling_reference : forall e c n1 n2 u x j a f, class_of e c = two_ways n1 n2 u -> plain_step (Member n1) -> n1 <> n2 ->
  (forall ctx tab, ser e x u ctx tab = SOk tab j) -> is_finite f = false ->
  let v := VObj [VSome (VList [VShared a x; VFlt f]); VShared a x] in
  let document := JObj [(n2, JObj [("$ref", JStr ("/" ++ n1 ++ "/0")%string)])] in
  (exists tab, serialize_to_document e (TClass c) v = SOk tab document) /\
  (exists ts, parse_pointer (list_ascii_of_string ("/" ++ n1 ++ "/0")%string) = Some ts /\ pointer_get document ts = None) /\
  deserialize_throw e (TClass c) document = Returned (VObj [VNone; VPtrNull]) /\
  forall y z, deserialize e (TClass c) document (VObj [y; z]) = DRet false start (VObj [VNone; z]).
Proof.
  intros e c n1 n2 u x j a f C P N G F. split; [now apply (dropped e c n1 n2 u x j a f)|]. split; [now apply not_resolved|]. split.
  - unfold deserialize_throw. cbn [dinit]. rewrite C. cbn [two_ways c_default]. now rewrite (read_null e c n1 n2 u).
  - intros y z. now apply (read_null e c n1 n2 u).
Qed.
Print Assumptions C57_dangling_reference.

(** C57: without the number that cannot be written, there is a place to refer to. *)
Theorem C57_not_dropped : forall e c n1 n2 u x j a f, class_of e c = two_ways n1 n2 u -> plain_step (Member n1) ->
  (forall ctx tab, ser e x u ctx tab = SOk tab j) -> is_finite f = true ->
  exists tab, serialize_to_document e (TClass c) (VObj [VSome (VList [VShared a x; VFlt f]); VShared a x]) =
    SOk tab (JObj [(n1, JArr [j; JDbl f]); (n2, JObj [("$ref", JStr ("/" ++ n1 ++ "/0")%string)])]).
Proof. exact not_dropped. Qed.
Print Assumptions C57_not_dropped.

Definition ex_lost : env := {|
  classes := [two_ways "first" "again" TString]; tick := 1; endian := Base64Model.little; after := fun _ => [];
  less := fun _ _ _ => false; iteration := fun keys => seq 0 (List.length keys) |}.

Example C57_example :
  let v := VObj [VSome (VList [VShared 4 (VStr "lost"); VFlt (FInf false)]); VShared 4 (VStr "lost")] in
  let document := JObj [("again", JObj [("$ref", JStr "/first/0")])] in
  (exists tab, serialize_to_document ex_lost (TClass 0) v = SOk tab document) /\ deserialize_throw ex_lost (TClass 0) document = Returned (VObj [VNone; VPtrNull]) /\
  (exists tab evs, write_events ex_lost (TClass 0) v = WRet false tab evs).
Proof. split; [eexists; vm_compute; reflexivity|]. split; [vm_compute; reflexivity|]. eexists. eexists. vm_compute. reflexivity. Qed.
