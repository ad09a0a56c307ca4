(** Properties C49 and C50: the types that have a schema, and the references in it. *)
From Coq Require Import List Arith ZArith NArith Ascii String Bool Lia Relations.
From Verif Require Import Base Json NumericModel NumericSpec Types SchemaModel SchemaSpec SchemaProof DeserializeProps SchemaProps SchemaGenSpec SchemaGenProof.
Import ListNotations.
Local Open Scope string_scope.
Local Open Scope list_scope.

(** C49: a type has a schema exactly if it is supported all the way down and ends there. *)
Theorem C49_has_schema : forall e tn t, (exists n schema d, schema_document e tn n t = GOk schema d) <-> describable e t.
Proof.
  intros e tn t. split.
  - intros (n & schema & d & G). unfold schema_document in G. destruct (gen e tn n true t []) as [s d0| |] eqn:E; try discriminate. exact (gen_describable e tn _ _ _ _ _ _ E).
  - intros D. destruct (describable_answers e tn t D) as (n & A). destruct (A true []) as (s & d & E). exists n. eexists. exists d. unfold schema_document. rewrite E. reflexivity.
Qed.
Print Assumptions C49_has_schema.

(** There is one schema: more stack does not change it. *)
Theorem C49_one_schema : forall e tn t n schema d, schema_document e tn n t = GOk schema d ->
  (forall m, n <= m -> schema_document e tn m t = GOk schema d) /\
  forall m schema' d', schema_document e tn m t = GOk schema' d' -> schema' = schema /\ d' = d.
Proof.
  intros e tn t n schema d G.
  assert (M : forall n schema d, schema_document e tn n t = GOk schema d -> forall m, n <= m -> schema_document e tn m t = GOk schema d).
  { clear. intros n schema d G m L. unfold schema_document in *. destruct (gen e tn n true t []) as [s d0| |] eqn:E; try discriminate. now rewrite (gen_more e tn n m true t [] s d0 E L). }
  split; [now apply M|]. intros m schema' d' G'. apply M with (m := n + m) in G; [|lia]. apply M with (m := n + m) in G'; [|lia]. rewrite G in G'. injection G' as <- <-. auto.
Qed.
Print Assumptions C49_one_schema.

(** A type somewhere within itself has no schema, and neither have the types around it: if the
    program compiles at all, the generator calls itself until the stack is exhausted. *)
Theorem C49_recursive : forall e tn t u, reachable e u t -> deep_within e u u ->
  ~ describable e t /\
  ((forall w, reachable e w t -> supported e w) -> forall n, schema_document e tn n t = GDeep).
Proof.
  intros e tn t u R C. assert (N : ~ describable e t) by (intros D; exact (describable_not_recursive e t u D R C)). split; [exact N|].
  intros Su n. unfold schema_document. destruct (gen e tn n true t []) as [s d0| |] eqn:E; [|reflexivity|].
  - destruct (N (gen_describable e tn _ _ _ _ _ _ E)).
  - destruct (supported_valid e tn n true t [] Su E).
Qed.
Print Assumptions C49_recursive.

(** Nothing else can be in the way: supported types without a cycle have a schema. *)
Theorem C49_acyclic : forall e t, describable e t <-> (forall u, reachable e u t -> supported e u) /\ forall u, reachable e u t -> ~ deep_within e u u.
Proof.
  intros e t. split.
  - intros D. split; [|intros u R; exact (describable_not_recursive e t u D R)]. intros u R. now destruct (describable_within e u t R D).
  - intros [Su Ac]. apply (acyclic_describable e (List.length (classes e)) [] t); auto; [cbn; lia|constructor|intros v []|intros v []].
Qed.
Print Assumptions C49_acyclic.

(** The first member of the document says which version of JSON Schema it is written in, and there is no other such
    member. *)
Theorem C49_dialect : forall e tn n t schema d, schema_document e tn n t = GOk schema d ->
  exists kws, schema = JObj (("$schema", JStr "https://json-schema.org/draft/2020-12/schema") :: kws) /\
    forall k x, In (k, x) kws -> k <> "$schema".
Proof.
  intros e tn n t schema d G. unfold schema_document in G. destruct (gen e tn n true t []) as [s d0| |]; try discriminate.
  cbn [gbind] in G. injection G as <- <-. eexists. split; [reflexivity|]. intros k x I. apply in_app_or in I. destruct I as [I|I].
  - destruct d0; [destruct I|]. destruct I as [I|[]]. injection I as <- _. discriminate.
  - intros ->. revert I. clear.
    assert (O : forall A (k : string) (f : A -> json) o x, In ("$schema", x) (opt k f o) -> k = "$schema").
    { intros A k f [a|] y I; [|destruct I]. destruct I as [I|[]]. injection I as I _. exact I. }
    destruct s; cbn [render members_of]; intros I; repeat (destruct I as [I|I]; [discriminate I|]); try (destruct I; fail);
      repeat (apply in_app_or in I; destruct I as [I|I]); apply O in I; discriminate I.
Qed.
Print Assumptions C49_dialect.

(** A tree, and a class around it. *)
Definition ex_node : cls := {|
  c_members := [{| m_name := "label"; m_kind := MRequired; m_ty := TString |};
                {| m_name := "children"; m_kind := MRequired; m_ty := TVector (TUnique (TClass 0)) |}];
  c_root := 2; c_default := [VStr ""; VList []]; c_value := [VStr ""; VList []] |}.
Definition ex_forest : cls := {|
  c_members := [{| m_name := "count"; m_kind := MRequired; m_ty := TInt int32 |}; {| m_name := "trees"; m_kind := MOptional; m_ty := TMap true (TClass 0) |}];
  c_root := 2; c_default := []; c_value := [] |}.
Definition ex_trees : env := {| classes := [ex_node; ex_forest]; tick := 1; endian := Base64Model.little; after := fun _ => []; less := fun _ _ _ => false;
  iteration := fun keys => seq 0 (List.length keys) |}.

Example C49_example : describable ex_music (TClass 1) /\ schema_document ex_music ex_names 4 (TClass 1) = GDeep /\
  (exists d, schema_document ex_music ex_names 9 (TClass 1) = GOk ex_music_schema d) /\
  reachable ex_trees (TClass 0) (TClass 1) /\ deep_within ex_trees (TClass 0) (TClass 0) /\ (forall w, reachable ex_trees w (TClass 1) -> supported ex_trees w) /\
  schema_document ex_trees ex_names 1000 (TClass 1) = GDeep /\
  schema_document ex_trees ex_names 9 (TVector (TPtr TBool)) = GInvalid.
Proof.
  split; [|split; [|split; [|split; [|split; [|split; [|split]]]]]]; try (vm_compute; reflexivity).
  - apply (proj1 (C49_has_schema ex_music ex_names (TClass 1))). exists 9. eexists. eexists. vm_compute. reflexivity.
  - eexists. vm_compute. reflexivity.
  - apply (rt_trans _ _ _ (TMap true (TClass 0))); apply rt_step; cbn; auto.
  - apply (t_trans _ _ _ (TUnique (TClass 0))); [apply t_step; cbn; auto|]. apply (t_trans _ _ _ (TVector (TUnique (TClass 0)))); apply t_step; cbn; auto.
  - assert (Q : forall w, reachable ex_trees w (TClass 1) -> In w [TClass 1; TInt int32; TMap true (TClass 0); TClass 0; TString; TVector (TUnique (TClass 0)); TUnique (TClass 0)]).
    { intros w R. apply clos_rt_rt1n in R.
      assert (H : forall x y, clos_refl_trans_1n ty (within ex_trees) x y -> In y [TClass 1; TInt int32; TMap true (TClass 0); TClass 0; TString; TVector (TUnique (TClass 0)); TUnique (TClass 0)] ->
        In x [TClass 1; TInt int32; TMap true (TClass 0); TClass 0; TString; TVector (TUnique (TClass 0)); TUnique (TClass 0)]).
      { clear. intros x y R. induction R as [x|x y z W R IH]; intros I; [exact I|]. specialize (IH I). clear I R z.
        repeat (destruct IH as [<-|IH]; [cbn in W; cbn; tauto|]). destruct IH. }
      apply (H _ _ R). now left. }
    intros w R. apply Q in R. repeat (destruct R as [<-|R]; [cbn; try exact I; intros m K; repeat (destruct K as [<-|K]; [discriminate|]); destruct K|]). destruct R.
Qed.

(** C50: every reference in a schema document refers to one of its definitions. *)
Theorem C50_references_resolve : forall e tn n t schema d ref, type_names tn -> schema_document e tn n t = GOk schema d -> refers schema ref ->
  exists name s, ref = ("#/definitions/" ++ name)%string /\ resolve schema ref = Some s /\ defines schema name s.
Proof. intros e tn n t schema d ref [Inj Ord] G R. exact (ref_resolves e tn Inj Ord n t schema d ref G R). Qed.
Print Assumptions C50_references_resolve.

(** A definition is the schema of the class with this name, without the heading. *)
Theorem C50_definitions : forall e tn n t schema d name s, type_names tn -> schema_document e tn n t = GOk schema d -> defines schema name s ->
  exists c kws m d' head, name = tn c /\ s = JObj kws /\ schema_document e tn m (TClass c) = GOk (JObj (head ++ kws)) d' /\
    forall k x, In (k, x) head -> In k ["$schema"; "definitions"].
Proof.
  intros e tn n t schema d name s [Inj Ord] G D. destruct (definition_used e tn Inj n t schema d name s G D) as (_ & c & kws & m & d' & head & A & B & C).
  destruct (document_parts e tn Inj _ _ _ _ C) as (sc & Gs & _ & Es). destruct (document_parts e tn Inj _ _ _ _ G) as (s0 & Gs0 & St & Es0).
  exists c, kws, m, d', head. split; [exact A|]. split; [exact B|]. split; [exact C|]. intros k x I.
  apply (document_defines s0 d _ _ _ Es0) in D. destruct D as (sd & Id & Ed).
  destruct (con_class _ _ _ (st_con _ _ _ _ _ St) name sd) as (c' & m' & d1 & X & Gc); [apply sorted_find; [apply St|exact Id]|].
  rewrite A in X. apply Inj in X. subst c'. assert (sd = sc) by (eapply gen_unique; [exact Gc|exact Gs]). subst sd.
  destruct (render_members sc) as (ks & Ek & _). rewrite Ek in *. rewrite B in Ed. injection Ed as <-. injection Es as Es. cbn [members_of] in Es.
  rewrite app_comm_cons in Es. apply app_inv_tail in Es. subst head. destruct I as [I|I]; [injection I as <- <-; now left|].
  destruct d'; [destruct I|]. destruct I as [I|[]]. injection I as <- <-. right. now left.
Qed.
Print Assumptions C50_definitions.

(** Definitions have different names, and each of them is referred to. *)
Theorem C50_no_other_definitions : forall e tn n t kws d, type_names tn -> schema_document e tn n t = GOk (JObj kws) d ->
  (forall l, In ("definitions", JObj l) kws -> NoDup (map fst l)) /\
  forall name s, defines (JObj kws) name s -> refers (JObj kws) ("#/definitions/" ++ name)%string.
Proof.
  intros e tn n t kws d [Inj Ord] G. split.
  - intros l I. eapply (definition_once e tn Inj n t); [exact G|reflexivity|exact I].
  - intros name s D. apply (definition_used e tn Inj n t _ d name s G D).
Qed.
Print Assumptions C50_no_other_definitions.

Example C50_example : (exists n d, schema_document ex_music ex_names n (TClass 1) = GOk ex_music_schema d) /\
  refers ex_music_schema "#/definitions/5Track" /\ resolve ex_music_schema "#/definitions/5Track" = Some ex_track_schema /\ defines ex_music_schema "5Track" ex_track_schema /\
  (exists n, schema_document ex_music ex_names n (TClass 0) = GOk (JObj (("$schema", JStr "https://json-schema.org/draft/2020-12/schema") :: members_of ex_track_schema)) []).
Proof.
  split; [exists 9; eexists; vm_compute; reflexivity|]. split; [|split; [vm_compute; reflexivity|split]].
  - exists [("$ref", JStr "#/definitions/5Track")]. split; [|now left]. eapply sub_member; [do 3 right; left; reflexivity|now left|do 4 right; left; reflexivity|constructor].
  - eexists. eexists. split; [reflexivity|]. split; [right; left; reflexivity|]. now left.
  - exists 9. vm_compute. reflexivity.
Qed.

(** Pointers are transparent: the class they point to is not among the definitions but repeated
    at every place. *)
Theorem C50_pointers_repeat : forall e tn n t u kws d, t = TUnique u \/ t = TShared u -> schema_document e tn n t = GOk kws d ->
  exists m, schema_document e tn m u = GOk kws d.
Proof.
  intros e tn n t u kws d T G. destruct n as [|n]; [discriminate G|]. exists n. unfold schema_document in *.
  destruct T as [-> | ->]; cbn [gen] in G; (destruct (context_aware u); [exact G|discriminate G]).
Qed.
Print Assumptions C50_pointers_repeat.
