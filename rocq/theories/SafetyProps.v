(** Reading untrusted input is defined, except for late dates and for references that go
    astray. *)
From Coq Require Import List Arith ZArith NArith Ascii String Bool Lia Relations.
From Verif Require Import Base Float NumericModel DatetimeModel DatetimeSpec DatetimeProof Json Events Types DeserializeModel ParseModel TextModel TextSpec DenoteSpec
  ParseSpec MergeSpec SchemaGenSpec FragmentSpec FragmentProof PathModel SafetySpec SafetyProof SafetyText DeserializeProps ParseProps TextProps.
Import ListNotations.
Local Open Scope string_scope.
Local Open Scope list_scope.

(** C53: a document without late dates and stray references is read without undefined
    behaviour, for every type without raw pointers; what is in the document does not matter
    otherwise. *)
Theorem C53_deserialize : forall e t j obj, no_pointer e t -> ~ late e t j -> ~ astray e t j ->
  deserialize e t j obj <> DUndef /\ deserialize e t j obj <> DOutside.
Proof. exact document_safe. Qed.
Print Assumptions C53_deserialize.

Theorem C53_deserialize_throws : forall e t j, no_pointer e t -> ~ late e t j -> ~ astray e t j ->
  deserialize_throw e t j <> TUndef /\ deserialize_throw e t j <> TOutside.
Proof. exact document_throw_safe. Qed.
Print Assumptions C53_deserialize_throws.

(** C53: the same for texts, which need not be JSON. *)
Theorem C53_text : forall nearest e t str obj, no_pointer e t ->
  (forall j, json_text nearest (until_nul str) j -> ~ late e t j /\ ~ astray e t j) ->
  deserialize_string nearest e t str obj <> DUndef /\ deserialize_string nearest e t str obj <> DOutside /\
  deserialize_string_throw nearest e t str <> Document TUndef /\ deserialize_string_throw nearest e t str <> Document TOutside.
Proof.
  intros nearest e t str obj N H. destruct (text_safe nearest e t str obj N H), (text_throw_safe nearest e t str N H). auto.
Qed.
Print Assumptions C53_text.

(** C53: if the clock is roomy and nothing is shared, no text at all leads to undefined
    behaviour. *)
Theorem C53_every_text : forall nearest e t str obj, no_pointer e t -> timely e t -> (forall u, ~ reachable e (TShared u) t) ->
  deserialize_string nearest e t str obj <> DUndef /\ deserialize_string nearest e t str obj <> DOutside /\
  deserialize_string_throw nearest e t str <> Document TUndef /\ deserialize_string_throw nearest e t str <> Document TOutside.
Proof.
  intros nearest e t str obj N Ti Sh. apply C53_text; [exact N|]. intros j _. split; [now apply timely_not_late|]. intros [[u H] _]. now apply Sh in H.
Qed.
Print Assumptions C53_every_text.

(** C53: the parser, which does not know references: every text is read without undefined
    behaviour, also the beginning of a text that turns out not to be JSON. *)
Theorem C53_parse : forall nearest e fuel fits t str obj, routed e fuel -> shaped_classes e -> peopled e t -> shaped e t obj ->
  timely e t -> no_pointer e t -> no_variant e t ->
  parse_string_into nearest e fuel fits t str obj = OutOfSpace \/
  exists ok v, parse_string_into nearest e fuel fits t str obj = Parsed ok v.
Proof. intros nearest e fuel fits t str obj Ro Sc Pe Sh. now apply parse_text_safe. Qed.
Print Assumptions C53_parse.

(** C53: also with a clock that is not roomy, if no date of the document is late. *)
Theorem C53_parse_document : forall e fuel fits t j obj, routed e fuel -> shaped_classes e -> peopled e t -> shaped e t obj ->
  no_pointer e t -> no_variant e t -> ~ late e t j ->
  parse_into e fuel fits t j obj = OutOfSpace \/ exists ok v, parse_into e fuel fits t j obj = Parsed ok v.
Proof.
  intros e fuel fits t j obj Ro Sc Pe Sh Np Nv L. pose proof (parse_safe e fuel fits t j obj Ro Pe Sc Sh) as H.
  destruct (parse_into e fuel fits t j obj); eauto; [contradiction|]. exfalso. destruct H as [[u H]|[ts H]]; [now apply Np in H|now apply Nv in H].
Qed.
Print Assumptions C53_parse_document.

(** Everything reachable is in a list that is closed under parts. *)
Lemma reachable_in : forall e l, Forall (fun t => Forall (fun u => In u l) (inner e t)) l -> forall u t, reachable e u t -> In t l -> In u l.
Proof.
  intros e l H u t R. apply clos_rt_rt1n in R. intros I. apply clos_rt1n_rt, clos_rt_rtn1 in R. revert I.
  induction R as [|v w Hv R IH]; intros I; [exact I|]. apply IH. rewrite Forall_forall in H. specialize (H w I). rewrite Forall_forall in H. now apply H.
Qed.

(** The program of the examples with classes, a clock with microseconds, and all the types of
    its widest class. *)
Definition ex_event : cls := {|
  c_members := [{| m_name := "when"; m_kind := MRequired; m_ty := TTime |}; {| m_name := "day"; m_kind := MOptional; m_ty := TDate |};
                {| m_name := "at"; m_kind := MDefault; m_ty := TVector (TClass 0) |}];
  c_root := 3; c_default := [VTime 0; VNone; VList []]; c_value := [VTime 0; VNone; VList []] |}.
Definition ex_micro : env := {|
  classes := [ex_point; ex_event]; tick := 1000000; endian := Base64Model.little; after := fun _ => [];
  less := fun _ _ _ => false; iteration := fun keys => seq 0 (List.length keys) |}.
Definition ex_nano : env := ex_program [ex_point; ex_event].

Ltac reaches l := match goal with H : reachable ?e ?u ?t |- _ =>
  apply (reachable_in e l) in H; [cbn in H; repeat (destruct H as [H|H]; try discriminate H); try contradiction|
    repeat (apply Forall_cons; [cbn; repeat (apply Forall_cons; [cbn; tauto|]); apply Forall_nil|]); apply Forall_nil|cbn; tauto] end.

Definition ex_parts : list ty := [TClass 1; TTime; TDate; TVector (TClass 0); TClass 0; TInt int32; TBool; TString].
Example C53_example : no_pointer ex_micro (TClass 1) /\ no_variant ex_micro (TClass 1) /\ timely ex_micro (TClass 1) /\ peopled ex_micro (TClass 1) /\
  (forall u, ~ reachable ex_micro (TShared u) (TClass 1)).
Proof.
  split; [|split; [|split; [|split]]].
  - intros u H. reaches ex_parts.
  - intros u H. reaches ex_parts.
  - left. split; vm_compute; congruence.
  - intros c H. reaches ex_parts; injection H as <-; discriminate.
  - intros u H. reaches ex_parts.
Qed.

Definition ex_text : string := "{""when"": ""1999-12-31T23:59:59Z"", ""at"": [{""n"": 1}], ""day"": null, ""n"": [".

Example C53_text_example :
  (exists v, parse_string_into no_nearest ex_micro ex_fuel real_capacity (TClass 1) ex_text (VObj [VTime 0; VNone; VList []]) = Parsed false v) /\
  deserialize_string no_nearest ex_micro (TClass 1) ex_text VIndet = DRet false start VIndet /\
  parse_string_into no_nearest ex_micro ex_fuel real_capacity (TClass 1) "{""when"": ""9999-12-31T23:59:59Z""}" (VObj [VTime 0; VNone; VList []]) =
    Parsed true (VObj [VTime 253402300799000000; VNone; VList []]).
Proof. split; [eexists; vm_compute; reflexivity|]. split; vm_compute; reflexivity. Qed.

(** The two kinds of exceptions are exact for single values: every late date or time, and
    every reference whose target is not the text of a pointer, is undefined behaviour. *)
Theorem C53_late_time : forall e s obj,
  (deserialize e TTime (JStr s) obj = DUndef <-> late_time e s) /\ (deserialize_throw e TTime (JStr s) = TUndef <-> late_time e s).
Proof.
  intros e s obj. unfold deserialize_throw, deserialize. cbn [deser read_scalar]. change (list_ascii_of_string s) with (text s).
  pose proof (undefined_time e s) as U. pose proof (late_time_undefined e s) as V.
  destruct (parse_datetime (tick e) (text s)) as [[z|]|]; cbn; split; split; intros H; try discriminate H; try (specialize (V H); discriminate V); auto.
Qed.
Print Assumptions C53_late_time.

Theorem C53_late_date : forall e s obj,
  (deserialize e TDate (JStr s) obj = DUndef <-> late_date e s) /\ (deserialize_throw e TDate (JStr s) = TUndef <-> late_date e s).
Proof.
  intros e s obj. unfold deserialize_throw, deserialize. cbn [deser read_scalar]. change (list_ascii_of_string s) with (text s).
  pose proof (undefined_date e s) as U. pose proof (late_date_undefined e s) as V.
  destruct (parse_date (tick e) (text s)) as [[z|]|]; cbn; split; split; intros H; try discriminate H; try (specialize (V H); discriminate V); auto.
Qed.
Print Assumptions C53_late_date.

Theorem C53_stray : forall e u l x obj, find_member l "$ref" = Some x -> ~ good_target x ->
  deserialize e (TShared u) (JObj l) obj = DUndef /\ deserialize_throw e (TShared u) (JObj l) = TUndef.
Proof.
  intros e u l x obj F G. assert (H : forall old st, read_ref (JObj l) u x old st = DUndef).
  { intros old st. destruct x; try reflexivity. assert (P : parse_reference (text s) = None).
    { apply parse_reference_malformed. intros (ns & R). apply G. now exists s, ns. }
    unfold read_ref. fold (text s). now rewrite P. }
  unfold deserialize_throw, deserialize. cbn [deser]. rewrite !F, !H. auto.
Qed.
Print Assumptions C53_stray.

(** A clock with nanoseconds does not reach the year 2300, but such a text can be read. *)
Theorem C53_late_refuted : exists e fuel t str obj, routed e fuel /\ shaped_classes e /\ peopled e t /\ shaped e t obj /\ no_pointer e t /\ no_variant e t /\
  parse_string_into no_nearest e fuel real_capacity t str obj = ParseUndef /\ deserialize_string no_nearest e t str obj = DUndef /\
  deserialize_string_throw no_nearest e t str = Document TUndef.
Proof.
  exists ex_parsed, ex_fuel, (TVector TTime), "[""2300-01-01T00:00:00Z""]", (VList []). destruct ex_supported as (_ & Sc & Ro).
  split; [exact Ro|]. split; [exact Sc|]. split; [intros c H; reaches [TVector TTime; TTime]|]. split; [apply shaped_vector|].
  split; [intros u H; reaches [TVector TTime; TTime]|]. split; [intros u H; reaches [TVector TTime; TTime]|].
  split; [vm_compute; reflexivity|]. split; vm_compute; reflexivity.
Qed.
Print Assumptions C53_late_refuted.

(** A number, a malformed pointer, or an object of another type as target. *)
Theorem C53_references_refuted : exists e t, forall str, In str ["[true, {""$ref"": 1}, null]"; "[true, {""$ref"": ""0""}, null]"; "[true, {""$ref"": ""/0~""}, null]"; "[true, {""$ref"": ""#/%3""}, null]"; "[true, true, {""$ref"": ""/0""}]"] ->
  no_pointer e t /\ timely e t /\ deserialize_string no_nearest e t str (dinit e t) = DUndef /\ deserialize_string_throw no_nearest e t str = Document TUndef.
Proof.
  exists ex_parsed, (TTuple [TShared TBool; TShared TBool; TShared TString]). intros str H.
  split; [|split; [|repeat (destruct H as [<-|H]; [split; vm_compute; reflexivity|]); destruct H]].
  - clear H. intros u H. reaches [TTuple [TShared TBool; TShared TBool; TShared TString]; TShared TBool; TShared TString; TBool; TString].
  - clear H. right. split; intros H; reaches [TTuple [TShared TBool; TShared TBool; TShared TString]; TShared TBool; TShared TString; TBool; TString].
Qed.
Print Assumptions C53_references_refuted.
