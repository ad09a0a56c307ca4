(** Property C64: the text of a schema. *)
From Coq Require Import List Arith ZArith NArith Ascii String Bool.
From Verif Require Import Base Float NumericModel Json Events Types SerializeModel WriteModel WriteSpec DenoteSpec RoundSpec DocSpec GraphSpec SchemaModel SchemaSpec SchemaGenSpec
  SchemaTextModel SchemaTextSpec SchemaTextProof SchemaProps NumericSpec TextModel TextWrite TextProps WriteProps.
From Verif Require TextSpec SchemaFits.
Import ListNotations.
Local Open Scope string_scope.
Local Open Scope list_scope.

Section Texts.
(** How doubles are printed and read. *)
Variable print : fl -> list ascii.
Variable nearest : list ascii -> option fl.
Notation json_text := (TextSpec.json_text nearest).
Notation faithful := (TextSpec.faithful print nearest).

Lemma read_back : forall str j, json_text str j -> string_to_document nearest str = (j, true).
Proof.
  intros str j T. pose proof (TextProof.text_visible nearest str j T) as V. apply C37_reads_exactly.
  replace (DenoteSpec.until_nul str) with str by (symmetry; exact V). exact T.
Qed.

Lemma text_of : forall version e tn n t s d, machine_type e t -> gen e tn n true t [] = GOk s d ->
  let j := JObj (opt "$schema" JStr version ++ match d with [] => [] | _ => [("definitions", JObj (map (fun p => (fst p, render (snd p))) d))] end ++ members_of (render s)) in
  exists str, schema_text version (written print) e tn n t = GOk (Some (true, str)) d /\ json_text str j /\ string_to_document nearest str = (j, true).
Proof.
  intros version e tn n t s d M G j. pose proof (document_written version s d [] []) as W. fold j in W.
  destruct (gen_nums e tn faithful n true t M [] s d (Forall_nil _) G) as [Ns Nd].
  destruct (C37_finite_text print nearest schema_env (schema_type s) (schema_object version s d) "" [] j) as (str & A & B);
    [apply object_finite|now apply object_nums|exact W|].
  exists str. unfold schema_text. rewrite G. cbn [gbind]. rewrite A. split; [reflexivity|]. split; [exact B|].
  now apply read_back.
Qed.

(** C64: schema_document_to_string gives a JSON text of the schema document of C26 and C49 to C51. *)
Theorem C64_document_text : forall e tn n t schema d, machine_type e t -> schema_document e tn n t = GOk schema d ->
  exists str, schema_document_to_string (written print) e tn n t = GOk (Some (true, str)) d /\ json_text str schema /\
    string_to_document nearest str = (schema, true).
Proof.
  intros e tn n t schema d M G. unfold schema_document in G. destruct (gen e tn n true t []) as [s d0| |] eqn:E; cbn [gbind] in G; try discriminate.
  injection G as <- <-. exact (text_of (Some schema_version) e tn n t s d0 M E).
Qed.

(** C64: schema_to_string gives one of the same document without the version. *)
Theorem C64_schema_text : forall e tn n t schema d, machine_type e t -> schema_document e tn n t = GOk schema d ->
  exists version members str, schema = JObj (("$schema", version) :: members) /\
    schema_to_string (written print) e tn n t = GOk (Some (true, str)) d /\ json_text str (JObj members) /\ string_to_document nearest str = (JObj members, true).
Proof.
  intros e tn n t schema d M G. unfold schema_document in G. destruct (gen e tn n true t []) as [s d0| |] eqn:E; cbn [gbind] in G; try discriminate.
  injection G as <- <-. do 2 eexists. destruct (text_of None e tn n t s d0 M E) as (str & A & B & C). exists str. split; [reflexivity|]. exact (conj A (conj B C)).
Qed.

(** C64: there is no text without a schema document. *)
Theorem C64_only : forall e tn n t d r, schema_document_to_string (written print) e tn n t = GOk r d \/ schema_to_string (written print) e tn n t = GOk r d ->
  exists schema, schema_document e tn n t = GOk schema d.
Proof.
  intros e tn n t d r. unfold schema_document_to_string, schema_to_string, schema_text, schema_document.
  destruct (gen e tn n true t []) as [s d0| |]; cbn [gbind]; intros [E|E]; try discriminate; injection E as _ <-; eauto.
Qed.

(** C64: with C26, from text to text: the text of the schema is read as a document that accepts
    the document that the text of the value is read as. *)
Theorem C64_text_accepts : forall e tn t v n schema d, real_classes e -> (0 < tick e)%Z -> named e -> iterates e ->
  type_names tn -> zero_blind e -> schematic_classes e -> schematic t = true -> real_ints t = true ->
  holds e t v -> simple e t v -> NoDup (addresses v) -> machine_type e t -> TextSpec.numbers faithful v -> finite v = true ->
  schema_document e tn n t = GOk schema d ->
  exists text text' j, schema_document_to_string (written print) e tn n t = GOk (Some (true, text)) d /\
    write_to_string (written print) e t v "" = Some (true, text') /\
    string_to_document nearest text = (schema, true) /\ string_to_document nearest text' = (j, true) /\ accepts schema j.
Proof.
  intros e tn t v n schema d Rc Tk Nm It Ty Zb Ec Et Ri Hv S Nd M Nu Fi G.
  destruct (C26_schema_accepts e tn t v n schema d Rc Tk Nm It Ty Zb Ec Et Ri Hv S Nd G) as (tab & j & Sj & A).
  destruct (C64_document_text e tn n t schema d M G) as (text & T1 & _ & T2).
  destruct (C37_finite_text print nearest e t v "" tab j Fi Nu Sj) as (text' & W & J). exists text, text', j. repeat (split; [assumption|]). split; [|exact A].
  now apply read_back.
Qed.
End Texts.
Print Assumptions C64_document_text.
Print Assumptions C64_schema_text.
Print Assumptions C64_only.
Print Assumptions C64_text_accepts.

(** The text of the schema of a list of points with an optional name. *)
Definition ex_points : env := {|
  classes := [{| c_members := [{| m_name := "x"; m_kind := MRequired; m_ty := TInt int32 |}; {| m_name := "name"; m_kind := MOptional; m_ty := TString |}];
                 c_root := 2; c_default := []; c_value := [] |}];
  tick := 1000000000; endian := Base64Model.little; after := fun _ => []; less := fun _ _ _ => false; iteration := fun keys => seq 0 (List.length keys) |}.

Definition quote_marks (s : string) : string :=
  string_of_list_ascii (map (fun c => if Ascii.eqb c "'"%char then """"%char else c) (list_ascii_of_string s)).

Example C64_example : machine_type ex_points (TVector (TClass 0)) /\
  exists d, schema_document_to_string (written no_print) ex_points (fun _ => "5Point") 9 (TVector (TClass 0)) = GOk (Some (true, quote_marks
    ("{'$schema':'https://json-schema.org/draft/2020-12/schema','definitions':{'5Point':{'type':'object','properties':{'x':{'type':'integer'," ++
    "'minimum':-2147483648,'maximum':2147483647},'name':{'type':'string'}},'required':['x'],'additionalProperties':false}}," ++
    "'type':'array','items':{'$ref':'#/definitions/5Point'}}"))) d /\
  schema_to_string (written no_print) ex_points (fun _ => "5Point") 9 TBool = GOk (Some (true, quote_marks "{'type':'boolean'}")) [].
Proof.
  split.
  - intros u R. remember (TVector (TClass 0)) as t eqn:E.
    assert (W : forall u, In u [TVector (TClass 0); TClass 0; TInt int32; TString] -> machine_size u) by (intros w I; cbn in I; repeat destruct I as [<-|I]; cbn; try contradiction; auto; split; discriminate).
    apply W. clear W. revert E. apply Operators_Properties.clos_rt_rt1n in R. induction R as [t|u w t S R IH]; intros ->; [now left|].
    specialize (IH eq_refl). cbn in IH. repeat destruct IH as [<-|IH]; cbn in S; intuition (subst; cbn; auto).
  - eexists. split; vm_compute; reflexivity.
Qed.

(** C64: the numbers in the object that is written are in the range of the member variables that
    hold them, and its variants hold alternatives that have these member variables. *)
Theorem C64_variables : forall version e tn n t s d, machine_type e t -> gen e tn n true t [] = GOk s d ->
  fits schema_env (schema_type s) (schema_object version s d).
Proof. intros version e tn n t s d M G. destruct (SchemaFits.gen_nums e tn n true t M [] s d (Forall_nil _) G). now apply SchemaFits.object_fits. Qed.
Print Assumptions C64_variables.

Example C64_variables_example :
  let signed := {| width := 64; is_signed := true |} in let unsigned := {| width := 64; is_signed := false |} in
  let s := SArray None (Some [SSigned (- 2 ^ 63) (2 ^ 63 - 1); SUnsigned (2 ^ 64 - 1)]) None (Some 2) (Some 2) in
  gen ex_points (fun _ => "") 9 true (TPair (TInt signed) (TInt unsigned)) [] = GOk s [] /\
  schema_object None s [] = VObj [VNone; VNone; VStr "array"; VNone;
    VSome (VList [VPtr (VVariant 2 (VObj [VStr "integer"; VInt (- 2 ^ 63); VInt (2 ^ 63 - 1)])); VPtr (VVariant 3 (VObj [VStr "integer"; VInt 0; VInt (2 ^ 64 - 1)]))]);
    VNone; VSome (VInt 2); VSome (VInt 2)] /\
  (* the two kinds of integers cannot stand for each other *)
  ~ fits schema_env schema_node (VVariant 3 (VObj [VStr "integer"; VInt (- 2 ^ 63); VInt (2 ^ 63 - 1)])) /\
  ~ fits schema_env schema_node (VVariant 2 (VObj [VStr "integer"; VInt 0; VInt (2 ^ 64 - 1)])).
Proof.
  cbn zeta. split; [reflexivity|]. split; [reflexivity|].
  split; intros H; inversion H as [| | | | | | |ts i u x N F|]; subst; cbn in N; injection N as <-; inversion F as [| | | | | | | |? ? G]; subst; cbn in G;
    inversion G as [|? ? ? ? _ G1]; subst; inversion G1 as [|? ? ? ? [A _] G2]; subst; inversion G2 as [|? ? ? ? [B _] _]; subst.
  - assert (X := A ltac:(discriminate)). inversion X as [| |? ? R| | | | | |]; subst. unfold in_range, tmin in R. cbn in R. destruct R as [R _]. now apply R.
  - assert (X := B ltac:(discriminate)). inversion X as [| |? ? R| | | | | |]; subst. unfold in_range, tmax in R. cbn in R. destruct R as [_ R]. discriminate R.
Qed.
