(** C66: which types the library supports. *)
From Coq Require Import List Bool Arith String.
From Verif Require Import SupportModel SupportSpec SupportSelect SupportProof.
Import ListNotations.

(** At no type does the compiler find two specializations of which neither is better. *)
Theorem C66_unambiguous : forall p o t, select p o t <> Ambiguous.
Proof. intros p o t. apply (asked_pick p o t). Qed.
Print Assumptions C66_unambiguous.

(** A use of an operation compiles for exactly the types of the documented list. *)
Theorem C66_exactly : forall p o t, well_formed p -> (compiles p o t <-> supported p o t).
Proof.
  intros p o t W. split; [apply compiles_supported; exact W | apply supported_compiles].
Qed.
Print Assumptions C66_exactly.

(** A type is supported if it has a supported shape and all of its parts are supported. *)
Lemma supported_all : forall p o t,
  supported_shape p o t -> (forall u, part_of p o t u -> supported p o u) -> supported p o t.
Proof.
  intros p o t S P u W.
  assert (G : u = t \/ exists v, part_of p o t v /\ within p o v u).
  { induction W as [|u v W IH Q]; [left; reflexivity|].
    right. destruct IH as [->|(w & A & B)]; [exists v; split; [exact Q | constructor] | exists w; split; [exact A|]].
    exact (within_part _ _ _ _ _ B Q). }
  destruct G as [->|(v & A & B)]; [exact S | exact (P v A u B)].
Qed.

Lemma within_same : forall p o o' t u,
  (forall a b, part_of p o a b -> part_of p o' a b) -> within p o t u -> within p o' t u.
Proof.
  intros p o o' t u P W. induction W as [|u v W IH Q]; [constructor|]. exact (within_part _ _ _ _ _ IH (P _ _ Q)).
Qed.

Lemma part_change : forall p o o' a b,
  o <> Parse -> o' <> Parse -> part_of p o a b -> part_of p o' a b.
Proof.
  intros p o o' a b N N' Q. destruct Q.
  - apply part_element; assumption.
  - apply part_item. intro E. contradiction.
  - apply part_value; assumption.
  - apply part_first.
  - apply part_second.
  - eapply part_component; eassumption.
  - replace (held o m) with (held o' m); [apply part_member; assumption|].
    destruct m as [[] [g us]]; [reflexivity|]. destruct g; try reflexivity. destruct us as [|u [|v us]]; try reflexivity.
    destruct o, o'; try reflexivity; contradiction.
Qed.

Lemma output_swap : forall o, output o -> o <> Parse /\ o <> Schema /\ o <> Deserialize.
Proof. intros o [->| ->]; repeat split; discriminate. Qed.

Lemma outputs_alike : forall p o o' t, output o -> output o' -> supported p o t -> supported p o' t.
Proof.
  intros p o o' t O O' S u W. pose proof (output_swap o O) as (A1 & A2 & A3). pose proof (output_swap o' O') as (B1 & B2 & B3).
  assert (H : supported_shape p o u) by (apply S; refine (within_same p o' o t u _ W); intros; eapply part_change; eauto).
  assert (I : ~ input o') by (intros [E|E]; congruence).
  inversion H; subst; try (exfalso; congruence).
  - apply shape_simple; assumption.
  - apply shape_view; assumption.
  - apply shape_literal; assumption.
  - apply shape_enum. match goal with X : enum_supported _ _ |- _ => inversion X; subst end.
    + apply named_output; assumption.
    + exfalso. match goal with X : input _ |- _ => destruct X; congruence end.
    + apply numeric; assumption.
    + apply boolean; [left|]; assumption.
    + congruence.
  - apply shape_container; [assumption | intro; contradiction].
  - apply shape_array. intro; contradiction.
  - apply shape_map; [assumption | intro; contradiction].
  - apply shape_literal_map; assumption.
  - apply shape_pair.
  - apply shape_tuple.
  - apply shape_variant; [assumption | intro; contradiction].
  - apply shape_smart; [assumption | intro; contradiction | intro; contradiction].
  - apply shape_raw; assumption.
  - apply shape_class; [assumption | intro; contradiction ..].
Qed.

(** Both ways of writing support the same types. *)
Theorem C66_same : forall p t, well_formed p -> (compiles p Serialize t <-> compiles p Write t).
Proof.
  intros p t W. rewrite !C66_exactly by exact W.
  split; apply outputs_alike; (left; reflexivity) || (right; reflexivity).
Qed.
Print Assumptions C66_same.

Lemma read_written : forall p t,
  (forall n, from_string (enums p n) = true -> to_string (enums p n) = true) ->
  supported p Deserialize t -> supported p Serialize t.
Proof.
  intros p t N S u W.
  assert (H : supported_shape p Deserialize u)
    by (apply S; refine (within_same p Serialize Deserialize t u _ W); intros; eapply part_change; eauto; discriminate).
  assert (O : output Serialize) by (left; reflexivity).
  assert (I : ~ input Serialize) by (intros [E|E]; discriminate).
  inversion H; subst; try (match goal with X : output Deserialize |- _ => destruct X; discriminate end).
  - apply shape_simple; assumption.
  - apply shape_enum. match goal with X : enum_supported _ _ |- _ => inversion X; subst end.
    + exfalso. match goal with X : output _ |- _ => destruct X; discriminate end.
    + apply named_output; [exact O|]. apply N. assumption.
    + apply numeric; [discriminate | assumption].
    + apply boolean; [left; exact O | assumption].
  - apply shape_container; [assumption | intro; contradiction].
  - apply shape_array. discriminate.
  - apply shape_map; [assumption | intro; contradiction].
  - apply shape_pair.
  - apply shape_tuple.
  - apply shape_variant; discriminate.
  - apply shape_smart; [assumption | intro; contradiction | discriminate].
  - apply shape_class; [assumption | discriminate ..].
Qed.

(** What can be read from a document can be written. *)
Theorem C66_read_written : forall p t, well_formed p ->
  (forall n, from_string (enums p n) = true -> to_string (enums p n) = true) ->
  compiles p Deserialize t -> compiles p Serialize t.
Proof.
  intros p t W N. rewrite !C66_exactly by exact W. apply read_written. exact N.
Qed.
Print Assumptions C66_read_written.

Lemma parsed_read : forall p t, plain p t -> supported p Parse t -> supported p Deserialize t.
Proof.
  intros p t (O & A & M) S.
  assert (P : forall u, within p Deserialize t u ->
    supported p Parse u /\ within p Parse t u /\ (forall v, u <> Ty OptionalT [v])).
  { intros u W. induction W as [|u v W (IS & IW & IO) Q].
    - split; [exact S | split; [constructor | exact O]].
    - assert (G : (part_of p Parse u v /\ forall w, v <> Ty OptionalT [w]) \/
                  exists n, u = Ty (ClassT n) [] /\ In (false, Ty OptionalT [v]) (visited (classes p n)) /\
                            forall w, v <> Ty OptionalT [w]).
      { inversion Q; subst.
        - left. assert (part_of p Parse (Ty g [v]) v) by (apply part_element; assumption).
          split; [assumption|]. intros w ->. destruct (M _ _ IW H0) as (n & E & _). discriminate.
        - left. assert (part_of p Parse (Ty ArrayT [v; n]) v).
          { apply part_item. intros _. apply (A v n IW). }
          split; [assumption|]. intros w ->. destruct (M _ _ IW H0) as (n' & E & _). discriminate.
        - left. assert (part_of p Parse (Ty g [k; v]) v) by (apply part_value; assumption).
          split; [assumption|]. intros w ->. destruct (M _ _ IW H0) as (n & E & _). discriminate.
        - left. assert (part_of p Parse (Ty PairT [v; b]) v) by apply part_first.
          split; [assumption|]. intros w ->. destruct (M _ _ IW H) as (n & E & _). discriminate.
        - left. assert (part_of p Parse (Ty PairT [a; v]) v) by apply part_second.
          split; [assumption|]. intros w ->. destruct (M _ _ IW H) as (n & E & _). discriminate.
        - left. assert (part_of p Parse (Ty g us) v) by (eapply part_component; eassumption).
          split; [assumption|]. intros w ->. destruct (M _ _ IW H1) as (n & E & _). inversion E; subst.
          simpl in H. intuition discriminate.
        - assert (K : part_of p Parse (Ty (ClassT n) []) (snd m)).
          { replace (snd m) with (held Parse m); [apply part_member; assumption|].
            destruct m as [[] [g us]]; [reflexivity|]. destruct g; try reflexivity. destruct us as [|x [|y us]]; reflexivity. }
          assert (D : (held Deserialize m = snd m /\ (fst m = false -> forall w, snd m <> Ty OptionalT [w])) \/
                      m = (false, Ty OptionalT [held Deserialize m])).
          { destruct m as [[] [g us]]; [left; split; [reflexivity | discriminate]|].
            destruct g; try (left; split; [reflexivity | intros _ w; discriminate]).
            destruct us as [|x [|y us]]; try (left; split; [reflexivity | intros _ w; discriminate]).
            right. reflexivity. }
          destruct D as [(D & F)|D].
          + left. rewrite D. split; [exact K|]. intros w E.
            destruct (M _ _ IW (eq_ind _ (fun x => part_of p Parse (Ty (ClassT n) []) x) K _ E)) as (n' & E' & G).
            injection E' as <-. destruct m as [[] x]; cbn in *; subst x.
            * exact (G H).
            * exact (F eq_refl w eq_refl).
          + right. exists n. rewrite D in H at 1. split; [reflexivity | split; [exact H|]].
            intros w E. rewrite D in K. cbn [snd] in K. rewrite E in K.
            assert (IW' : within p Parse t (Ty OptionalT [Ty OptionalT [w]])) by exact (within_part _ _ _ _ _ IW K).
            destruct (M _ w IW') as (n' & E' & _); [apply part_element; simpl; tauto | discriminate]. }
      destruct G as [(Q' & E)|(n & -> & I & E)].
      + split; [exact (supported_part _ _ _ _ IS Q') | split; [exact (within_part _ _ _ _ _ IW Q') | exact E]].
      + assert (Q1 : part_of p Parse (Ty (ClassT n) []) (Ty OptionalT [v])).
        { change (Ty OptionalT [v]) with (held Parse (false, Ty OptionalT [v])). apply part_member. exact I. }
        assert (Q2 : part_of p Parse (Ty OptionalT [v]) v) by (apply part_element; simpl; tauto).
        split; [exact (supported_part _ _ _ _ (supported_part _ _ _ _ IS Q1) Q2) | split; [|exact E]].
        exact (within_part _ _ _ _ _ (within_part _ _ _ _ _ IW Q1) Q2). }
  intros u W. destruct (P u W) as (SU & WU & NU). pose proof (supported_itself _ _ _ SU) as H.
  assert (I : input Parse) by (right; reflexivity).
  inversion H; subst; try (match goal with X : output Parse |- _ => destruct X; discriminate end).
  - apply shape_simple; assumption.
  - apply shape_enum. match goal with X : enum_supported _ _ |- _ => inversion X; subst end.
    + exfalso. match goal with X : output _ |- _ => destruct X; discriminate end.
    + apply named_input; [left; reflexivity | assumption].
    + apply numeric; [discriminate | assumption].
    + exfalso. match goal with X : output _ \/ _ |- _ => destruct X as [[X|X]|X]; discriminate end.
  - apply shape_container; [assumption | intros _; auto].
  - apply shape_array. intros _. destruct (A _ _ WU) as (X & Y & _). split; assumption.
  - apply shape_map; [assumption | intros _; auto].
  - apply shape_pair.
  - apply shape_tuple.
  - contradiction.
  - apply shape_smart; [assumption | intros _; auto | discriminate].
  - exfalso. exact (NU _ eq_refl).
  - apply shape_class; [assumption | | discriminate ..].
    intros _ w V.
    assert (Q1 : part_of p Parse (Ty (ClassT n) []) (Ty OptionalT [w])).
    { change (Ty OptionalT [w]) with (held Parse (false, Ty OptionalT [w])). apply part_member. exact V. }
    pose proof (supported_itself _ _ _ (supported_part _ _ _ _ SU Q1)) as X. inversion X; subst; try assumption.
    + simpl in *. intuition discriminate.
    + simpl in *. intuition discriminate.
    + simpl in *. intuition discriminate.
Qed.

(** What can be parsed can be read from a document, provided that optionals are member variables, elements of arrays can be
    copied and no array is empty. *)
Theorem C66_parsed_read : forall p t, well_formed p -> plain p t -> compiles p Parse t -> compiles p Deserialize t.
Proof.
  intros p t W P. rewrite !C66_exactly by exact W. apply parsed_read. exact P.
Qed.
Print Assumptions C66_parsed_read.

(** * The limits *)

Lemma compiles_of : forall p o t, well_formed p -> compiles p o t -> supported_shape p o t.
Proof. intros p o t W C. apply supported_itself. apply C66_exactly; assumption. Qed.

Ltac shapes H := inversion H; subst; simpl in *; try (intuition discriminate).

(** Views of strings can be written and nothing else. *)
Theorem C66_views : forall p o, well_formed p -> (compiles p o string_view <-> output o).
Proof.
  intros p o W. split.
  - intro C. pose proof (compiles_of _ _ _ W C) as H. shapes H; assumption.
  - intro O. apply C66_exactly; [exact W|]. apply supported_all; [apply shape_view; exact O|].
    intros u Q. inversion Q; subst; simpl in *; intuition discriminate.
Qed.
Print Assumptions C66_views.

(** Pointers that own nothing can be written and nothing else. *)
Theorem C66_pointers : forall p o t, well_formed p -> (compiles p o (pointer t) <-> output o /\ compiles p o t).
Proof.
  intros p o t W. rewrite !C66_exactly by exact W. split.
  - intro S. split.
    + pose proof (supported_itself _ _ _ S) as H. shapes H; assumption.
    + apply (supported_part _ _ _ _ S). apply part_element. simpl. tauto.
  - intros (O & S). apply supported_all; [apply shape_raw; exact O|].
    intros u Q. inversion Q; subst; try exact S. simpl in *. intuition discriminate.
Qed.
Print Assumptions C66_pointers.

(** Variants cannot be parsed. *)
Theorem C66_variants : forall p t ts, well_formed p -> within p Parse t (variant ts) -> ~ compiles p Parse t.
Proof.
  intros p t ts W I C. apply C66_exactly in C; [|exact W]. pose proof (C _ I) as H. unfold variant in H. shapes H; congruence.
Qed.
Print Assumptions C66_variants.

(** Nothing that has a member variable with a default somewhere has a schema. *)
Theorem C66_defaults_schema : forall p t n u, well_formed p ->
  within p Schema t (class_ n) -> In (true, u) (visited (classes p n)) -> ~ compiles p Schema t.
Proof.
  intros p t n u W I V C. apply C66_exactly in C; [|exact W]. pose proof (C _ I) as H. unfold class_ in H. shapes H.
  match goal with X : Schema = Schema -> _ /\ _ |- _ => destruct (X eq_refl) as (_ & F) end.
  specialize (F _ V). discriminate.
Qed.
Print Assumptions C66_defaults_schema.

(** A pointer has a schema if it points to something made of arrays and objects. *)
Theorem C66_pointer_schema : forall p t, well_formed p ->
  (compiles p Schema (unique_ptr t) <-> compiles p Schema t /\ structured p t).
Proof.
  intros p t W. rewrite !C66_exactly by exact W. split.
  - intro S. split; [apply (supported_part _ _ _ _ S); apply part_element; simpl; tauto|].
    pose proof (supported_itself _ _ _ S) as H. shapes H; auto.
  - intros (S & T). apply supported_all.
    + apply shape_smart; [simpl; tauto | intros [E|E]; discriminate | intros _; exact T].
    + intros u Q. inversion Q; subst; try exact S. simpl in *. intuition discriminate.
Qed.
Print Assumptions C66_pointer_schema.

(** An optional that is not a member variable can only be parsed. *)
Theorem C66_optionals : forall p o t, well_formed p ->
  (compiles p o (optional t) <-> o = Parse /\ defaults p t = true /\ compiles p Parse t).
Proof.
  intros p o t W. split.
  - intro C. pose proof (compiles_of _ _ _ W C) as H. shapes H. split; [reflexivity | split; [assumption|]].
    apply C66_exactly; [exact W|]. apply C66_exactly in C; [|exact W]. apply (supported_part _ _ _ _ C).
    apply part_element. simpl. tauto.
  - intros (-> & D & C). apply C66_exactly; [exact W|]. apply C66_exactly in C; [|exact W]. apply supported_all.
    + apply shape_optional. exact D.
    + intros u Q. inversion Q; subst; try exact C. simpl in *. intuition discriminate.
Qed.
Print Assumptions C66_optionals.

Definition place_of (f : finding) : string := match f with Selected s => place s | _ => "" end.

(** A vector of pairs with a string is written by the specializations for dictionaries (objects) and read by those for
    vectors (arrays). *)
Theorem C66_dictionaries : forall p t,
  map (fun o => place_of (select p o (vector (pair_ string_ t)))) [Serialize; Write; Deserialize; Parse; Schema] =
  ["serialize_map.hpp:53"; "write_map.hpp:51"; "deserialize_vector.hpp:11"; "parse_vector.hpp:225"; "schema.hpp:542"]%string.
Proof. reflexivity. Qed.
Print Assumptions C66_dictionaries.

(** * An example *)

(** Enumerations: [enum Side { ... }] with names, [enum Flag : bool { ... }] without.  Classes: 0 is a tree with a name, an
    optional [Side], children and a map of shared trees; 1 has a member variable with a default; 2 has no member
    variables; 3 has a variant and a pointer that owns nothing. *)
Definition ex_program : program :=
  {| enums := fun n => match n with
                       | 0 => {| to_string := true; from_string := true; underlying := AInt |}
                       | _ => {| to_string := false; from_string := false; underlying := ABool |}
                       end;
     classes := fun n =>
       let declared ms := {| persists := true; visited := ms; default_constructible := true; assignable := true |} in
       match n with
       | 0 => declared [(false, string_); (false, optional (enum 0)); (false, vector (class_ 0));
                        (false, map_ string_ (shared_ptr (class_ 0)))]
       | 1 => declared [(true, arithmetic AInt)]
       | 2 => declared []
       | _ => declared [(false, variant [arithmetic AInt; string_]); (false, pointer (class_ 0))]
       end |}.

Lemma ex_well_formed : well_formed ex_program.
Proof. intros [|n] H; simpl in H; intuition discriminate. Qed.

Definition ex_tree : list cxx :=
  [class_ 0; string_; optional (enum 0); enum 0; vector (class_ 0); map_ string_ (shared_ptr (class_ 0));
   shared_ptr (class_ 0)].

Lemma ex_supported : forall o t, In t ex_tree -> t <> optional (enum 0) \/ o = Parse -> supported ex_program o t.
Proof.
  intros o t I X. apply (supported_by _ _ (fun t => In t ex_tree /\ (t <> optional (enum 0) \/ o = Parse))); [| |now split].
  - clear t I X. intros t (I & X). simpl in I. destruct I as [<-|[<-|[<-|[<-|[<-|[<-|[<-|[]]]]]]]].
    + apply shape_class; try reflexivity.
      * intros _ u V. simpl in V. intuition; match goal with E : _ = _ |- _ => inversion E; subst; reflexivity end.
      * discriminate.
      * intros _. split; [reflexivity|]. intros m V. simpl in V. intuition; subst; reflexivity.
    + apply shape_simple. simpl. tauto.
    + destruct X as [X| ->]; [congruence|]. apply shape_optional. reflexivity.
    + apply shape_enum. destruct o; [apply named_output|apply named_output|apply named_input|apply named_input|apply described];
        try reflexivity; (left; reflexivity) || (right; reflexivity).
    + apply shape_container; [simpl; tauto | reflexivity].
    + apply shape_map; [simpl; tauto | reflexivity].
    + apply shape_smart; [simpl; tauto | reflexivity |]. intros _. apply structured_class. reflexivity.
  - clear t I X. intros t v (I & X) Q. simpl in I.
    destruct I as [<-|[<-|[<-|[<-|[<-|[<-|[<-|[]]]]]]]]; inversion Q; subst;
      try (split; [simpl; tauto | left; discriminate]); try (simpl in *; intuition discriminate).
    match goal with V : In ?m _ |- _ => simpl in V; destruct V as [<-|[<-|[<-|[<-|[]]]]] end;
      destruct o; simpl; (split; [tauto | (left; discriminate) || (right; reflexivity)]).
Qed.

(** Everything can be done with a tree; the limits are limits. *)
Example C66_example :
  (forall o, compiles ex_program o (vector (class_ 0))) /\
  compiles ex_program Parse (class_ 1) /\ ~ compiles ex_program Schema (class_ 1) /\
  compiles ex_program Deserialize (class_ 2) /\ ~ compiles ex_program Parse (class_ 2) /\
  compiles ex_program Write (class_ 3) /\ ~ compiles ex_program Deserialize (class_ 3) /\
  compiles ex_program Deserialize (enum 1) /\ ~ compiles ex_program Parse (enum 1).
Proof.
  pose proof ex_well_formed as W.
  assert (I : forall o, supported ex_program o (arithmetic AInt)) by (intro; apply supported_arithmetic; simpl; tauto).
  repeat match goal with |- _ /\ _ => split end.
  - intro o. apply C66_exactly; [exact W|]. apply ex_supported; [simpl; tauto | left; discriminate].
  - apply C66_exactly; [exact W|]. apply supported_all; [apply shape_class; try reflexivity; discriminate|].
    intros u Q. inversion Q; subst; try (simpl in *; intuition discriminate).
    match goal with V : In ?m _ |- _ => simpl in V; destruct V as [<-|[]] end. apply I.
  - apply (C66_defaults_schema _ _ 1 (arithmetic AInt)); [exact W | constructor | simpl; tauto].
  - apply C66_exactly; [exact W|]. apply supported_all; [apply shape_class; try reflexivity; [intros _ u []|discriminate..]|].
    intros u Q. inversion Q; subst; simpl in *; intuition discriminate.
  - intro C. apply compiles_of in C; [|exact W]. unfold class_ in C. inversion C; subst; simpl in *; try (intuition discriminate).
  - apply C66_exactly; [exact W|]. apply supported_all; [apply shape_class; try reflexivity; discriminate|].
    intros u Q. inversion Q; subst; try (simpl in *; intuition discriminate).
    match goal with V : In ?m _ |- _ => simpl in V; destruct V as [<-|[<-|[]]] end.
    + apply supported_all; [apply shape_variant; discriminate|]. clear Q.
      intros u Q. inversion Q; subst; simpl in *; try (intuition discriminate).
      match goal with V : _ \/ _ \/ False |- _ => destruct V as [<-|[<-|[]]] end; [apply I | apply supported_simple; simpl; tauto].
    + apply C66_exactly; [exact W|]. apply C66_pointers; [exact W|]. split; [right; reflexivity|].
      apply C66_exactly; [exact W|]. apply ex_supported; [simpl; tauto | left; discriminate].
  - intro C. apply C66_exactly in C; [|exact W].
    assert (D : supported ex_program Deserialize (pointer (class_ 0))).
    { apply (supported_part _ _ _ _ C).
      change (pointer (class_ 0)) with (held Deserialize (false, pointer (class_ 0))). apply part_member. simpl. tauto. }
    apply C66_exactly in D; [|exact W]. apply C66_pointers in D; [|exact W]. destruct D as ([E|E] & _); discriminate.
  - apply C66_exactly; [exact W|]. apply supported_all.
    + apply shape_enum. apply boolean; [right|]; reflexivity.
    + intros u Q. inversion Q; subst; simpl in *; intuition discriminate.
  - intro C. apply compiles_of in C; [|exact W]. unfold enum in C. inversion C; subst; simpl in *; try (intuition discriminate).
    match goal with X : enum_supported _ _ |- _ => inversion X; subst; unfold output, input in *; simpl in *; intuition discriminate end.
Qed.

(** Some types can be written and parsed and not be deserialized, so the condition above is needed. *)
Theorem C66_parsed_read_refuted :
  exists t, compiles ex_program Parse t /\ compiles ex_program Serialize t /\ ~ compiles ex_program Deserialize t.
Proof.
  pose proof ex_well_formed as W. exists (array (unique_ptr (arithmetic AInt)) 2).
  assert (I : forall o, supported ex_program o (arithmetic AInt)) by (intro; apply supported_arithmetic; simpl; tauto).
  assert (U : forall o, o <> Schema -> supported ex_program o (unique_ptr (arithmetic AInt))).
  { intros o N. apply supported_all; [apply shape_smart; [simpl; tauto | reflexivity | congruence]|].
    intros u Q. inversion Q; subst; [apply I | simpl in *; intuition discriminate]. }
  assert (A : forall o, o <> Schema -> o <> Deserialize -> supported ex_program o (array (unique_ptr (arithmetic AInt)) 2)).
  { intros o N D. apply supported_all; [apply shape_array; congruence|].
    intros u Q. inversion Q; subst; (apply U; exact N) || (simpl in *; intuition discriminate). }
  repeat split.
  - apply C66_exactly; [exact W | apply A; discriminate].
  - apply C66_exactly; [exact W | apply A; discriminate].
  - intro C. apply compiles_of in C; [|exact W]. inversion C; subst; simpl in *; try (intuition discriminate).
Qed.
Print Assumptions C66_parsed_read_refuted.
