(** C66 for the types that the other theorems are about: the hypotheses that those have on types are what the compiler asks
    for. *)
From Coq Require Import List Bool Arith ZArith String Relations.
From Verif Require Import NumericModel EnumModel Types SchemaGenSpec.
From Verif Require SupportModel SupportSpec SupportProof SupportProps SupportLink.
Import SupportModel SupportSpec SupportLink SupportProps.
Import ListNotations.
Local Open Scope list_scope.

(** Programs that write values of a type of Types.v compile. *)
Theorem C66_modelled_output : forall p names e o t c,
  declares p names e -> output o -> spelled p names t c -> compiles p o c.
Proof. intros p names e o t c D O S. apply SupportProof.supported_compiles. eapply output_modelled; eassumption. Qed.
Print Assumptions C66_modelled_output.

(** There is a schema exactly for the types that the theorems on schemas are about (C49). *)
Theorem C66_modelled_schema : forall p names e t c,
  well_formed p -> declares p names e -> spelled p names t c ->
  (compiles p Schema c <-> forall u, reachable e u t -> SchemaGenSpec.supported e u).
Proof. intros p names e t c W D S. rewrite C66_exactly by exact W. eapply schema_modelled; eassumption. Qed.
Print Assumptions C66_modelled_schema.

(** Programs that read values compile if there are no pointers that own nothing, the alternatives of variants are different
    and the elements of arrays can be copied. *)
Theorem C66_modelled_read : forall p names e t c,
  declares p names e -> spelled p names t c -> (forall u, reachable e u t -> readable p names u) ->
  compiles p Deserialize c.
Proof. intros p names e t c D S R. apply SupportProof.supported_compiles. eapply read_modelled; eassumption. Qed.
Print Assumptions C66_modelled_read.

(** Programs that parse values compile if there are neither variants nor pointers that own nothing, and no classes without
    member variables. *)
Theorem C66_modelled_parse : forall p names e t c,
  declares p names e -> spelled p names t c -> (forall u, reachable e u t -> parsable e u) -> compiles p Parse c.
Proof. intros p names e t c D S R. apply SupportProof.supported_compiles. eapply parse_modelled; eassumption. Qed.
Print Assumptions C66_modelled_parse.

(** The tree of [ex_program], and a class that a program may write but that has no schema. *)
Definition ex_names : enum_table := [(0%Z, "left"); (1%Z, "right")]%string.

Definition ex_class (ms : list member) : cls := {| c_members := ms; c_root := 0; c_default := []; c_value := [] |}.

Definition ex_classes : list cls :=
  [ ex_class [ {| m_name := "name"; m_kind := MRequired; m_ty := TString |};
               {| m_name := "side"; m_kind := MOptional; m_ty := TEnumStr ex_names |};
               {| m_name := "children"; m_kind := MRequired; m_ty := TVector (TClass 0) |};
               {| m_name := "others"; m_kind := MRequired; m_ty := TMap true (TShared (TClass 0)) |} ];
    ex_class [ {| m_name := "count"; m_kind := MDefault; m_ty := TInt {| width := 32; is_signed := true |} |} ] ]%string.

Definition ex_environment : env :=
  {| Types.classes := ex_classes; tick := 1; endian := Base64Model.little; after := fun _ => []; less := fun _ _ _ => false;
     iteration := fun _ => [] |}.

Definition ex_small : program :=
  {| enums := enums ex_program;
     SupportModel.classes := fun n => match n with
                             | 0 | 1 => SupportModel.classes ex_program n
                             | _ => {| persists := true; visited := []; default_constructible := true; assignable := true |}
                             end |}.

Lemma ex_declares : declares ex_small (fun _ => ex_names) ex_environment.
Proof.
  intros [|[|n]].
  - repeat split. cbn. constructor; [apply member_plain; [reflexivity|constructor]|].
    constructor; [apply member_optional; [reflexivity | apply (spelled_name ex_small (fun _ => ex_names) 0); reflexivity]|].
    constructor; [apply member_plain; [reflexivity | apply spelled_vector; constructor]|].
    constructor; [apply member_plain; [reflexivity | apply (spelled_map _ _ true); apply spelled_shared; constructor]|].
    constructor.
  - repeat split. cbn. constructor; [apply member_default; [reflexivity | apply spelled_int; reflexivity] | constructor].
  - repeat split. destruct n; cbn; constructor.
Qed.

Lemma ex_reachable : forall u, reachable ex_environment u (TClass 0) ->
  In u [TClass 0; TString; TEnumStr ex_names; TVector (TClass 0); TMap true (TShared (TClass 0)); TShared (TClass 0)].
Proof.
  intros u R. apply clos_rt_rt1n_iff in R. remember (TClass 0) as t eqn:E.
  induction R as [u|u v w R1 R2 IH]; [subst; simpl; tauto|]. specialize (IH E). subst w.
  unfold SchemaGenSpec.within in R1. cbn [In] in IH.
  destruct IH as [<-|[<-|[<-|[<-|[<-|[<-|[]]]]]]]; cbn in R1; cbn [In]; intuition.
Qed.

Example C66_modelled_example :
  (forall o, compiles ex_small o (class_ 0)) /\ compiles ex_small Write (class_ 1) /\ ~ compiles ex_small Schema (class_ 1).
Proof.
  pose proof ex_declares as D.
  assert (W : well_formed ex_small) by (intros [|n] H; simpl in H; intuition discriminate).
  assert (S : forall n, spelled ex_small (fun _ => ex_names) (TClass n) (class_ n)) by (intro; constructor).
  split; [|split].
  - intros o. destruct o.
    + apply (C66_modelled_output _ _ _ _ _ _ D (or_introl eq_refl) (S 0)).
    + apply (C66_modelled_output _ _ _ _ _ _ D (or_intror eq_refl) (S 0)).
    + apply (C66_modelled_read _ _ _ _ _ D (S 0)). intros u R. apply ex_reachable in R.
      cbn [In] in R. destruct R as [<-|[<-|[<-|[<-|[<-|[<-|[]]]]]]]; exact I.
    + apply (C66_modelled_parse _ _ _ _ _ D (S 0)). intros u R. apply ex_reachable in R.
      cbn [In] in R. destruct R as [<-|[<-|[<-|[<-|[<-|[<-|[]]]]]]]; try exact I. discriminate.
    + apply (C66_modelled_schema _ _ _ _ _ W D (S 0)). intros u R. apply ex_reachable in R.
      cbn [In] in R. destruct R as [<-|[<-|[<-|[<-|[<-|[<-|[]]]]]]]; try exact I.
      cbn. intros m M. intuition; subst; discriminate.
  - apply (C66_modelled_output _ _ _ _ _ _ D (or_intror eq_refl) (S 1)).
  - intro C. apply (C66_modelled_schema _ _ _ _ _ W D (S 1)) with (u := TClass 1) in C; [|apply rt_refl].
    cbn in C. exact (C _ (or_introl eq_refl) eq_refl).
Qed.
