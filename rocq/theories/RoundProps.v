(** Properties C17, C19 and C47: round trips, and the format of documents. *)
From Coq Require Import List Arith ZArith NArith Ascii String Bool Lia Permutation Sorted.
From Verif Require Import Base Float NumericModel NumericSpec EnumModel DatetimeSpec Json Events Types SerializeModel WriteModel DeserializeModel ParseModel
  DenoteSpec ParseSpec MergeSpec AgreeSpec ParseLimit RoundSpec DocSpec RoundProof RoundParse DeserializeProps ParseProps.
Import ListNotations.
Local Open Scope string_scope.
Local Open Scope list_scope.

(** A program for the examples: the classes of the other examples, with an order of numbers,
    and unordered maps that are visited backwards. *)
Definition ex_sky : cls := {|
  c_members := [{| m_name := "values"; m_kind := MDefault; m_ty := TVector (TInt int32) |};
                {| m_name := "map"; m_kind := MDefault; m_ty := TMap false (TClass 0) |};
                {| m_name := "time"; m_kind := MOptional; m_ty := TTime |};
                {| m_name := "set"; m_kind := MRequired; m_ty := TUnique (TSet (TInt int32)) |}];
  c_root := 4; c_default := [VList []; VMap []; VNone; VPtrNull]; c_value := [VList []; VMap []; VNone; VPtrNull] |}.
Definition ex_round : env := {|
  classes := [ex_point; ex_nested; ex_derived; ex_sky]; tick := 1000000000; endian := Base64Model.little; after := fun _ => [];
  less := fun _ v w => match v, w with VInt a, VInt b => Z.ltb a b | _, _ => false end;
  iteration := fun keys => rev (seq 0 (List.length keys)) |}.

Ltac by_class' c := destruct c as [|[|[|[|c]]]]; [| | | |unfold class_of; cbn; destruct c].

Example ex_round_ordinary : ordinary ex_round.
Proof. split; [|split; [|reflexivity]]; intros c; by_class' c; reflexivity. Qed.
Example ex_round_named : named ex_round.
Proof. intros c. by_class' c; cbn; repeat (constructor; [cbn; intuition discriminate|]); constructor. Qed.
Example ex_round_iterates : iterates ex_round.
Proof. intros keys. cbn. apply Permutation_sym, Permutation_rev. Qed.
Example ex_round_legible : legible ex_round.
Proof. intros c m. by_class' c; cbn; intros H; repeat (destruct H as [<-|H]; [reflexivity|]); destruct H. Qed.
Example ex_round_parser : parser_classes ex_round.
Proof. intros c. by_class' c; reflexivity. Qed.
Example ex_round_supported : supported ex_round ex_fuel.
Proof.
  split; [exact ex_round_ordinary|split].
  - intros c. by_class' c; split; apply shaped_class; cbn; repeat (first [apply Forall2_cons|apply Forall2_nil]; try (intros K; cbn in *)); try congruence;
      repeat first [apply shaped_vector | apply shaped_map; [apply SSorted_nil|apply Forall_nil] | apply shaped_other; reflexivity
        | apply shaped_class; cbn; repeat (first [apply Forall2_cons|apply Forall2_nil]; try (intros K'; cbn in *)); try congruence].
  - split; [reflexivity|]. intros c. split; [apply ex_round_named|]. by_class' c; (split; [vm_compute; discriminate|]);
      try (intros H; exfalso; cbn in H; lia); intros _; eexists; vm_compute; reflexivity.
Qed.
Example ex_round_fresh : fresh_classes ex_round.
Proof.
  intros c. by_class' c; cbv zeta; repeat split; apply fresh_class; cbn [class_of classes ex_round nth c_members c_default c_value ex_point ex_nested ex_derived ex_sky];
    repeat (first [apply fresh_none | apply fresh_member; try (intros; cbn in *; congruence); try (intros _; cbn [m_ty])]);
    try (apply fresh_scalar; reflexivity); try apply fresh_vector; try apply fresh_map; try apply fresh_unique.
  all: apply fresh_class; cbn [class_of classes ex_round nth c_members c_default c_value ex_point];
    repeat (first [apply fresh_none | apply fresh_member; try (intros; cbn in *; congruence); try (intros _; cbn [m_ty])]); try (apply fresh_scalar; reflexivity).
Qed.

Definition ex_sky_value : val :=
  VObj [VList [VInt 7; VInt (-7)]; VMap [("a", VObj [VInt 1; VBool true; VNone]); ("b", VObj [VInt 2; VBool false; VSome (VStr "x")])];
        VSome (VTime 1000000000); VPtr (VList [VInt 3; VInt 5])].
Definition ex_sky_document : json :=
  JObj [("values", JArr [JInt 7; JInt (-7)]);
        ("map", JObj [("b", JObj [("n", JInt 2); ("b", JBool false); ("s", JStr "x")]); ("a", JObj [("n", JInt 1); ("b", JBool true)])]);
        ("time", JStr "1970-01-01T00:00:01Z"); ("set", JArr [JInt 3; JInt 5])].

Example ex_sky_holds : holds ex_round (TClass 3) ex_sky_value.
Proof.
  assert (I : forall z, (-2147483648 <= z < 2147483648)%Z -> holds ex_round (TInt int32) (VInt z)) by (intros z R; apply holds_int; exact R).
  apply holds_class. cbn [class_of classes ex_round nth c_members ex_sky ex_sky_value].
  apply Forall2_cons; [apply member_held; [discriminate|]; apply holds_vector; [reflexivity|]; repeat (apply Forall_cons; [apply I; lia|]); apply Forall_nil|].
  apply Forall2_cons; [apply member_held; [discriminate|]|].
  { apply holds_map; [|repeat constructor].
    repeat (apply Forall_cons; [split; [reflexivity|]; apply holds_class; cbn;
      apply Forall2_cons; [apply member_held; [discriminate|apply I; lia]|]; apply Forall2_cons; [apply member_held; [discriminate|apply holds_bool]|];
      apply Forall2_cons; [|apply Forall2_nil]|]); [| |apply Forall_nil].
    - now apply member_empty.
    - apply member_filled; [reflexivity|apply holds_string]. }
  apply Forall2_cons; [apply member_filled; [reflexivity|]; apply (holds_time ex_round 1); cbn; unfold first_second, last_second; lia|].
  apply Forall2_cons; [|apply Forall2_nil]. apply member_held; [discriminate|]. apply holds_unique, holds_set.
  - repeat (apply Forall_cons; [apply I; lia|]); apply Forall_nil.
  - repeat constructor.
Qed.

(** C47: serialization gives the JSON document of the value. *)
Theorem C47_format : forall e t v, ordinary e -> iterates e -> plain t = true -> holds e t v ->
  exists j, doc e t v j /\ serialize_to_document e t v = SOk [] j.
Proof. exact document_of. Qed.
Print Assumptions C47_format.

Example C47_example : serialize_to_document ex_round (TClass 3) ex_sky_value = SOk [] ex_sky_document.
Proof. vm_compute. reflexivity. Qed.

(** C17: what is serialized to a document can be deserialized, and is the same value then. *)
Theorem C17_round_trip : forall e t v, ordinary e -> named e -> iterates e -> ordinary_type t -> holds e t v ->
  exists j, serialize_to_document e t v = SOk [] j /\ deserialize_throw e t j = Returned v /\ forall obj, deserialize e t j obj = DRet true start v.
Proof. exact doc_round_trip. Qed.
Print Assumptions C17_round_trip.

Example C17_example : deserialize_throw ex_round (TClass 3) ex_sky_document = Returned ex_sky_value /\
  deserialize ex_round (TClass 3) ex_sky_document (VObj [VList [VInt 1]; VMap [("c", VIndet)]; VNone; VPtrNull]) = DRet true start ex_sky_value.
Proof. split; vm_compute; reflexivity. Qed.

(** C17: vectors of pairs with a string are written as objects, which are not read. *)
Theorem C17_string_pairs_refuted : exists e u l j, ordinary e /\ named e /\ iterates e /\ ordinary_type (TVector u) /\ Forall (holds e u) l /\
  serialize_to_document e (TVector u) (VList l) = SOk [] j /\ (forall v, deserialize_throw e (TVector u) j <> Returned v) /\
  forall obj, deserialize e (TVector u) j obj = DRet false start obj.
Proof.
  exists ex_round, (TPair TString TBool), [VList [VStr "a"; VBool true]], (JObj [("a", JBool true)]).
  split; [exact ex_round_ordinary|]. split; [exact ex_round_named|]. split; [exact ex_round_iterates|]. split; [now split|].
  split; [repeat constructor|]. split; [reflexivity|]. split; [|reflexivity]. intros v. vm_compute. discriminate.
Qed.
Print Assumptions C17_string_pairs_refuted.

(** C17: keys of maps end at a NUL. *)
Theorem C17_nul_key_refuted : exists e k j v, ordinary e /\ named e /\ iterates e /\
  serialize_to_document e (TMap true TBool) (VMap [(k, VBool true)]) = SOk [] j /\ deserialize_throw e (TMap true TBool) j = Returned v /\
  v <> VMap [(k, VBool true)].
Proof.
  exists ex_round, (String "a" (String Ascii.zero "b")), (JObj [(String "a" (String Ascii.zero "b"), JBool true)]), (VMap [("a", VBool true)]).
  split; [exact ex_round_ordinary|]. split; [exact ex_round_named|]. split; [exact ex_round_iterates|].
  split; [reflexivity|]. split; [reflexivity|discriminate].
Qed.
Print Assumptions C17_nul_key_refuted.

(** C17: fractions of a second are lost. *)
Theorem C17_fractions_refuted : exists e n j v, ordinary e /\
  serialize_to_document e TTime (VTime n) = SOk [] j /\ deserialize_throw e TTime j = Returned v /\ v <> VTime n.
Proof.
  exists ex_round, 1500000000%Z, (JStr "1970-01-01T00:00:01Z"), (VTime 1000000000). split; [exact ex_round_ordinary|].
  split; [vm_compute; reflexivity|]. split; [vm_compute; reflexivity|discriminate].
Qed.
Print Assumptions C17_fractions_refuted.

(** C19: what is written can be parsed, and is the same value then. *)
Theorem C19_write_then_parse : forall render e fuel t v str, supported e fuel -> fresh_classes e -> parser_classes e -> legible e -> iterates e ->
  ordinary_type t -> parser_type t = true -> holds e t v -> depth v <= 84 ->
  exists j, write_to_string render e t v str = Some (true, render (events j)) /\ parse e fuel real_capacity t j = PReturned v.
Proof. exact text_round_trip. Qed.
Print Assumptions C19_write_then_parse.

Example C19_example : depth ex_sky_value = 3 /\ (exists tab, write_events ex_round (TClass 3) ex_sky_value = WRet true tab (events ex_sky_document)) /\
  parse ex_round ex_fuel real_capacity (TClass 3) ex_sky_document = PReturned ex_sky_value.
Proof. split; [reflexivity|]. split; [eexists; vm_compute; reflexivity|vm_compute; reflexivity]. Qed.

(** C19: vectors of bytes and classes with string enumerations are written, but not parsed. *)
Theorem C19_small_numbers_refuted : exists e fuel u l j, supported e fuel /\ fresh_classes e /\ iterates e /\ ordinary_type (TVector u) /\
  holds e (TVector u) (VList l) /\ serialize_to_document e (TVector u) (VList l) = SOk [] j /\ parse e fuel real_capacity (TVector u) j = PError.
Proof.
  exists ex_round, ex_fuel, (TInt {| width := 8; is_signed := true |}), [VInt 5], (JArr [JInt 5]).
  split; [exact ex_round_supported|]. split; [exact ex_round_fresh|]. split; [exact ex_round_iterates|]. split; [now split|].
  split; [apply holds_vector; [reflexivity|]; constructor; [|constructor]; apply holds_int; cbn; lia|]. split; vm_compute; reflexivity.
Qed.
Print Assumptions C19_small_numbers_refuted.

Theorem C19_enums_refuted : exists e fuel t v j, supported e fuel /\ fresh_classes e /\ iterates e /\ ordinary_type t /\
  holds e t v /\ serialize_to_document e t v = SOk [] j /\ parse e fuel real_capacity t j = PError.
Proof.
  exists ex_round, ex_fuel, (TTuple [ex_color; TBool]), (VList [VInt 1; VBool true]), (JArr [JStr "red"; JBool true]).
  split; [exact ex_round_supported|]. split; [exact ex_round_fresh|]. split; [exact ex_round_iterates|]. split; [now split|].
  split; [|split; vm_compute; reflexivity].
  apply holds_tuple. constructor; [|repeat constructor]. apply holds_enum_str; cbn; [repeat constructor; cbn; intuition discriminate|repeat constructor; cbn; intuition discriminate|now left].
Qed.
Print Assumptions C19_enums_refuted.
