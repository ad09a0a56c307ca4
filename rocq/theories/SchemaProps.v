(** Property C26: the generated schema. *)
From Coq Require Import List Arith ZArith NArith Ascii String Bool Lia Permutation Sorted.
From Verif Require Import Base Float NumericModel NumericSpec Json PathModel PathSpec Types SerializeModel DenoteSpec RoundSpec DocSpec MapFacts GraphSpec GraphProof
  DatetimeSpec SchemaModel SchemaSpec SchemaProof DeserializeProps.
Import ListNotations.
Local Open Scope string_scope.
Local Open Scope list_scope.

(** Names of types as typeid gives them: different, without special characters. *)
Definition type_names (tn : nat -> string) : Prop :=
  (forall c c', tn c = tn c' -> c = c') /\ forall c, forallb ordinary_char (list_ascii_of_string (tn c)) = true.

(** C26: if there is a schema of the type, it accepts the documents of the values. Nothing is
    shared twice in the value, so that no reference is written. *)
Theorem C26_schema_accepts : forall e tn t v n schema d, real_classes e -> (0 < tick e)%Z -> named e -> iterates e ->
  type_names tn -> zero_blind e -> schematic_classes e -> schematic t = true -> real_ints t = true ->
  holds e t v -> simple e t v -> NoDup (addresses v) -> schema_document e tn n t = GOk schema d ->
  exists tab j, serialize_to_document e t v = SOk tab j /\ accepts schema j.
Proof.
  intros e tn t v n schema d Rc Tk Nm It [Ti To] Zb Ec Et Ri Hv S Nd G.
  destruct (unaliased_round_trip e t v Rc Tk Nm It Ri Hv S Nd) as (tab & j & Sj & Pj & _). exists tab, j. split; [exact Sj|].
  apply (schema_accepts e tn Ti To Nm Zb Ec t v j n schema d Et Hv (simple_sets _ _ _ S) Pj G).
Qed.
Print Assumptions C26_schema_accepts.

(** Two classes with most kinds of members. *)
Definition ex_track : cls := {|
  c_members := [{| m_name := "name"; m_kind := MRequired; m_ty := TString |};
                {| m_name := "level"; m_kind := MRequired; m_ty := TPair TDouble TBool |}];
  c_root := 2; c_default := [VStr ""; VList [VIndet; VIndet]]; c_value := [VStr ""; VList [VIndet; VIndet]] |}.
Definition ex_album : cls := {|
  c_members := [{| m_name := "year"; m_kind := MOptional; m_ty := TInt {| width := 16; is_signed := true |} |};
                {| m_name := "tracks"; m_kind := MRequired; m_ty := TVector (TShared (TClass 0)) |};
                {| m_name := "tags"; m_kind := MRequired; m_ty := TSet TString |};
                {| m_name := "times"; m_kind := MRequired; m_ty := TMap true TTime |};
                {| m_name := "first"; m_kind := MOptional; m_ty := TClass 0 |};
                {| m_name := "cover"; m_kind := MRequired; m_ty := TArray 2 TBytes |}];
  c_root := 6; c_default := []; c_value := [] |}.
Definition ex_music : env := {|
  classes := [ex_track; ex_album]; tick := 1000000000; endian := Base64Model.little; after := fun _ => [];
  less := fun _ v w => match v, w with VStr a, VStr b => str_ltb a b | VTime a, VTime b => Z.ltb a b | VShared a _, VShared b _ => Nat.ltb a b | _, _ => false end;
  iteration := fun keys => seq 0 (List.length keys) |}.
Definition ex_names (c : nat) : string :=
  match c with 0 => "5Track" | 1 => "5Album" | _ => string_of_list_ascii (repeat "I"%char c) end.

Definition ex_music_value : val :=
  VObj [VSome (VInt 1969); VList [VShared 3 (VObj [VStr "a"; VList [VFlt (FFin true 3 (-1)); VBool true]])]; VList [VStr "mono"; VStr "rock"];
        VMap [("mix", VTime (-1000000000))]; VNone; VList [VBytes (list_ascii_of_string "f"); VBytes []]].

Definition ex_music_document : json :=
  JObj [("year", JInt 1969); ("tracks", JArr [JObj [("name", JStr "a"); ("level", JArr [JDbl (FFin true 3 (-1)); JBool true])]]);
        ("tags", JArr [JStr "mono"; JStr "rock"]); ("times", JObj [("mix", JStr "1969-12-31T23:59:59Z")]); ("cover", JArr [JStr "Zg=="; JStr ""])].

Definition ex_track_schema : json :=
  JObj [("type", JStr "object");
        ("properties", JObj [("name", JObj [("type", JStr "string")]);
          ("level", JObj [("type", JStr "array"); ("prefixItems", JArr [JObj [("type", JStr "number")]; JObj [("type", JStr "boolean")]]);
                          ("minItems", JInt 2); ("maxItems", JInt 2)])]);
        ("required", JArr [JStr "name"; JStr "level"]); ("additionalProperties", JBool false)].

Definition ex_music_schema : json :=
  JObj [("$schema", JStr "https://json-schema.org/draft/2020-12/schema");
        ("definitions", JObj [("5Track", ex_track_schema)]);
        ("type", JStr "object");
        ("properties", JObj [
          ("year", JObj [("type", JStr "integer"); ("minimum", JInt (-32768)); ("maximum", JInt 32767)]);
          ("tracks", JObj [("type", JStr "array"); ("items", ex_track_schema)]);
          ("tags", JObj [("type", JStr "array"); ("items", JObj [("type", JStr "string")]); ("uniqueItems", JBool true)]);
          ("times", JObj [("type", JStr "object"); ("additionalProperties", JObj [("type", JStr "string"); ("format", JStr "date-time")])]);
          ("first", JObj [("$ref", JStr "#/definitions/5Track")]);
          ("cover", JObj [("type", JStr "array"); ("items", JObj [("type", JStr "string"); ("contentEncoding", JStr "base64")]); ("minItems", JInt 2); ("maxItems", JInt 2)])]);
        ("required", JArr [JStr "tracks"; JStr "tags"; JStr "times"; JStr "cover"]);
        ("additionalProperties", JBool false)].

Example ex_type_names : type_names ex_names.
Proof.
  assert (L : forall c, list_ascii_of_string (string_of_list_ascii (repeat "I"%char c)) = repeat "I"%char c) by (intros; apply list_ascii_of_string_of_list_ascii).
  split.
  - intros c c' E. destruct c as [|[|c]], c' as [|[|c']]; try reflexivity; try discriminate E. cbn [ex_names] in E. apply (f_equal list_ascii_of_string) in E. rewrite !L in E.
    apply (f_equal (@List.length ascii)) in E. rewrite !repeat_length in E. exact E.
  - intros [|[|c]]; [reflexivity|reflexivity|]. cbn [ex_names]. rewrite L. apply forallb_forall. intros x I. apply repeat_spec in I. now subst.
Qed.

Example ex_zero_blind : zero_blind ex_music.
Proof.
  intros u x y E. destruct x as [| | | |[]| | | | | | | | | | | | |]; try reflexivity; destruct y as [| | | |[]| | | | | | | | | | | | |]; try discriminate E; cbn in *; try reflexivity.
  - injection E as ->. apply str_ltb_irrefl.
  - injection E as ->. apply Z.ltb_irrefl.
  - injection E as -> _. apply Nat.ltb_irrefl.
Qed.

Example C26_example :
  (exists d, schema_document ex_music ex_names 9 (TClass 1) = GOk ex_music_schema d) /\
  (exists tab, serialize_to_document ex_music (TClass 1) ex_music_value = SOk tab ex_music_document) /\
  holds ex_music (TClass 1) ex_music_value /\ simple ex_music (TClass 1) ex_music_value /\ NoDup (addresses ex_music_value) /\
  validate 9 ex_music_schema ex_music_schema ex_music_document = Some true /\
  validate 9 ex_music_schema ex_music_schema (JObj [("tracks", JArr []); ("tags", JArr []); ("times", JObj [])]) = Some false.
Proof.
  split; [eexists; vm_compute; reflexivity|]. split; [eexists; vm_compute; reflexivity|]. split; [|split; [|split; [|split; vm_compute; reflexivity]]].
  - unfold ex_music_value. apply holds_class. cbn [c_members class_of classes ex_music nth ex_album].
    constructor; [apply member_filled; [reflexivity|apply holds_int; cbn; lia]|].
    constructor; [apply member_held; [discriminate|]|].
    { apply holds_vector; [reflexivity|]. constructor; [|constructor]. apply holds_shared, holds_class. cbn [c_members class_of classes ex_music nth ex_track].
      constructor; [apply member_held; [discriminate|constructor]|]. constructor; [apply member_held; [discriminate|]|constructor]. apply holds_pair; constructor; reflexivity. }
    constructor; [apply member_held; [discriminate|]|].
    { apply holds_set; [repeat constructor|]. repeat constructor. }
    constructor; [apply member_held; [discriminate|]|].
    { apply holds_map; [|repeat constructor]. constructor; [|constructor]. split; [reflexivity|]. change (-1000000000)%Z with (-1 * tick ex_music)%Z. apply holds_time; cbn; unfold first_second, last_second; lia. }
    constructor; [apply member_empty; reflexivity|]. constructor; [|constructor]. apply member_held; [discriminate|].
    apply (holds_array _ TBytes [_; _]). repeat constructor; cbn; lia.
  - unfold ex_music_value. split; intros; repeat match goal with
    | I : In _ (_ :: _) |- _ => destruct I as [I|I]; [first [injection I as <- <-|subst]|]
    | I : In _ [] |- _ => destruct I
    | _ => discriminate
    | _ => reflexivity
    | K : nth_error _ ?i = Some _ |- _ => is_var i; destruct i as [|i]; cbn in K; try discriminate K; try (injection K as <-)
    | K : nth_error _ 0 = Some _ |- _ => cbn in K; first [discriminate K|injection K as <-]
    | K : nth_error _ (S _) = Some _ |- _ => cbn in K
    | P : vpart _ _ _ _ _ |- _ => inversion P; clear P; subst
    | O : occurs _ _ _ _ _ |- _ => inversion O; clear O; subst
    end.
    all: repeat match goal with K : Some _ = Some _ |- _ => injection K as <- end; cbn in *; try discriminate.
    all: match goal with K : TVector _ = TVector _ |- _ => injection K as -> end; cbn; intuition discriminate.
  - cbn. constructor; [easy|constructor].
Qed.

(** A vector of variants of four JSON types, an object among them. *)
Definition ex_choice : ty := TVector (TVariant [TInt int32; TString; TArray 1 TBool; TUnique (TClass 0)]).
Definition ex_choices : val := VList [VVariant 3 (VPtr (VObj [VStr "b"; VList [VFlt (FFin false 1 2); VBool false]])); VVariant 0 (VInt 7); VVariant 2 (VList [VBool true]); VVariant 1 (VStr "7")].

Example C26_variant_example : exists schema d tab j,
  schematic ex_choice = true /\ holds ex_music ex_choice ex_choices /\ schema_document ex_music ex_names 9 ex_choice = GOk schema d /\
  serialize_to_document ex_music ex_choice ex_choices = SOk tab j /\
  j = JArr [JObj [("name", JStr "b"); ("level", JArr [JDbl (FFin false 1 2); JBool false])]; JInt 7; JArr [JBool true]; JStr "7"] /\
  validate 9 schema schema j = Some true /\ validate 9 schema schema (JArr [JBool true]) = Some false.
Proof.
  do 4 eexists. split; [reflexivity|]. split; [|split; [vm_compute; reflexivity|]; split; [vm_compute; reflexivity|]; repeat (apply conj; [vm_compute; reflexivity|]); vm_compute; reflexivity].
  assert (Un : forall ts i t, nth_error ts i = Some t -> (forall k u, (k < i)%nat -> nth_error ts k = Some u -> unlike t u) -> forall x, holds ex_music t x -> holds ex_music (TVariant ts) (VVariant i x))
    by (intros; eapply holds_variant; eauto).
  apply holds_vector; [reflexivity|]. repeat (apply Forall_cons || apply Forall_nil).
  all: eapply Un; [reflexivity|intros k u K N; do 4 (destruct k as [|k]; [try (exfalso; lia); injection N as <-; intros []; cbn; congruence|]); lia|].
  - apply holds_unique, holds_class. cbn [c_members class_of classes ex_music nth ex_track].
    constructor; [apply member_held; [discriminate|constructor]|]. constructor; [apply member_held; [discriminate|]|constructor]. apply holds_pair; constructor; reflexivity.
  - apply holds_int; cbn; lia.
  - apply (holds_array _ TBool [_]). repeat constructor.
  - constructor.
Qed.

(** The schema of an enumeration accepts nothing: the list of its values is always empty. *)
Theorem C26_enums_refuted : forall e tn n t schema d, (exists k, t = TEnumInt k) \/ (exists names, t = TEnumStr names) ->
  schema_document e tn n t = GOk schema d -> forall j, rejects schema j.
Proof.
  intros e tn n t schema d T G j. exists 1. intros m M. destruct m as [|m]; [lia|]. destruct n as [|n]; [discriminate G|].
  destruct T as [(k & ->)|(names & ->)]; cbn in G; injection G as <- _; destruct j as [| | |[]| | |]; reflexivity.
Qed.
Print Assumptions C26_enums_refuted.

Ltac refute k := exists k; intros m M; repeat (destruct m as [|m]; [exfalso; lia|]); clear M; vm_compute; reflexivity.

(** The alternatives of a variant may overlap: 3 is an integer and a number. *)
Theorem C26_variants_refuted : exists e tn t v tab j schema d,
  t = TVariant [TInt int32; TDouble] /\ type_names tn /\ zero_blind e /\ serialize_to_document e t v = SOk tab j /\
  schema_document e tn 9 t = GOk schema d /\ rejects schema j.
Proof.
  exists ex_music, ex_names, (TVariant [TInt int32; TDouble]), (VVariant 0 (VInt 3)). do 4 eexists. split; [reflexivity|]. split; [exact ex_type_names|]. split; [exact ex_zero_blind|].
  split; [vm_compute; reflexivity|]. split; [vm_compute; reflexivity|]. refute 5.
Qed.
Print Assumptions C26_variants_refuted.

Definition ex_song : val := VObj [VStr "a"; VList [VFlt (FFin true 3 (-1)); VBool true]].

Example ex_song_holds : holds ex_music (TClass 0) ex_song.
Proof.
  apply holds_class. cbn [c_members class_of classes ex_music nth ex_track]. constructor; [apply member_held; [discriminate|constructor]|].
  constructor; [apply member_held; [discriminate|]|constructor]. apply holds_pair; constructor; reflexivity.
Qed.

(** The reference to an object that has been written already does not fit the schema of the
    object. *)
Theorem C26_references_refuted : exists e tn t v tab j schema d,
  type_names tn /\ zero_blind e /\ schematic t = true /\ holds e t v /\ simple e t v /\ serialize_to_document e t v = SOk tab j /\
  schema_document e tn 9 t = GOk schema d /\ rejects schema j.
Proof.
  exists ex_music, ex_names, (TVector (TShared (TClass 0))), (VList [VShared 3 ex_song; VShared 3 ex_song]). do 4 eexists.
  split; [exact ex_type_names|]. split; [exact ex_zero_blind|]. split; [reflexivity|]. split; [|split].
  - apply holds_vector; [reflexivity|]. repeat (constructor; [apply holds_shared, ex_song_holds|]); constructor.
  - unfold ex_song. split; intros; repeat match goal with
    | I : In _ (_ :: _) |- _ => destruct I as [I|I]; [first [injection I as <- <-|subst]|]
    | I : In _ [] |- _ => destruct I
    | _ => discriminate
    | _ => reflexivity
    | K : nth_error _ ?i = Some _ |- _ => is_var i; destruct i as [|i]; cbn in K; try discriminate K; try (injection K as <-)
    | K : nth_error _ 0 = Some _ |- _ => cbn in K; first [discriminate K|injection K as <-]
    | K : nth_error _ (S _) = Some _ |- _ => cbn in K
    | P : vpart _ _ _ _ _ |- _ => inversion P; clear P; subst
    | O : occurs _ _ _ _ _ |- _ => inversion O; clear O; subst
    end.
    all: cbn in *; intuition discriminate.
  - split; [vm_compute; reflexivity|]. split; [vm_compute; reflexivity|]. refute 7.
Qed.
Print Assumptions C26_references_refuted.

(** A vector of pairs whose first component is a string is written as an object, but described
    as an array. *)
Theorem C26_string_pairs_refuted : exists e tn t v tab j schema d,
  t = TVector (TPair TString TBool) /\ type_names tn /\ zero_blind e /\ serialize_to_document e t v = SOk tab j /\
  schema_document e tn 9 t = GOk schema d /\ rejects schema j.
Proof.
  exists ex_music, ex_names, (TVector (TPair TString TBool)), (VList [VList [VStr "a"; VBool true]]). do 4 eexists. split; [reflexivity|].
  split; [exact ex_type_names|]. split; [exact ex_zero_blind|]. split; [vm_compute; reflexivity|]. split; [vm_compute; reflexivity|]. refute 5.
Qed.
Print Assumptions C26_string_pairs_refuted.

(** Two times within a second are different, their texts are not. *)
Theorem C26_subsecond_sets_refuted : exists e tn t v tab j schema d,
  t = TSet TTime /\ type_names tn /\ zero_blind e /\ (exists x y, v = VList [VTime x; VTime y] /\ less e TTime (VTime x) (VTime y) = true) /\
  serialize_to_document e t v = SOk tab j /\ schema_document e tn 9 t = GOk schema d /\ rejects schema j.
Proof.
  exists ex_music, ex_names, (TSet TTime), (VList [VTime 1; VTime 2]). do 4 eexists. split; [reflexivity|]. split; [exact ex_type_names|]. split; [exact ex_zero_blind|].
  split; [exists 1%Z, 2%Z; split; reflexivity|]. split; [vm_compute; reflexivity|]. split; [vm_compute; reflexivity|]. refute 5.
Qed.
Print Assumptions C26_subsecond_sets_refuted.

(** Different shared objects may be equal, as elements of a set too. *)
Theorem C26_shared_sets_refuted : exists e tn t v tab j schema d,
  type_names tn /\ zero_blind e /\ schematic t = true /\ holds e t v /\ NoDup (addresses v) /\
  serialize_to_document e t v = SOk tab j /\ schema_document e tn 9 t = GOk schema d /\ rejects schema j.
Proof.
  exists ex_music, ex_names, (TSet (TShared (TClass 0))), (VList [VShared 3 ex_song; VShared 4 ex_song]). do 4 eexists.
  split; [exact ex_type_names|]. split; [exact ex_zero_blind|]. split; [reflexivity|]. split; [|split].
  - apply holds_set; [repeat (constructor; [apply holds_shared, ex_song_holds|]); constructor|repeat constructor].
  - cbn. constructor; [cbn; intuition discriminate|]. constructor; [easy|constructor].
  - split; [vm_compute; reflexivity|]. split; [vm_compute; reflexivity|]. refute 7.
Qed.
Print Assumptions C26_shared_sets_refuted.
