(** The instantiations of a type are those of its parts. *)
From Coq Require Import List Bool Arith.
From Verif Require Import SupportModel SupportSpec SupportSelect.
Import ListNotations.

Definition fine (p : program) (o : operation) (t : cxx) : Prop :=
  exists ns, pick p o t = Some ns /\ forallb (met p o) ns = true.

Lemma instantiates_fine : forall p o t, instantiates p o t <-> fine p o t.
Proof.
  intros p o t. destruct (asked_pick p o t) as [A _]. unfold asked in A. unfold instantiates, fine. rewrite <- A. split.
  - intros (s & -> & M). eauto.
  - intros (ns & E & M). destruct (select p o t) as [|s|]; try discriminate. injection E as <-. eauto.
Qed.

Definition leads_to (p : program) (o : operation) (t v : cxx) : Prop := exists ns, pick p o t = Some ns /\ In (Use v) ns.

Lemma caused_leads : forall p o t v, caused p o t v <-> t = v \/ exists u, caused p o t u /\ leads_to p o u v.
Proof.
  intros p o t v. split.
  - intros C. destruct C as [|u v s C E I]; [now left|right]. exists u. split; [exact C|].
    destruct (asked_pick p o u) as [A _]. unfold asked in A. rewrite E in A. exists (body s p u). now rewrite <- A.
  - intros [->|(u & C & ns & E & I)]; [constructor|].
    destruct (asked_pick p o u) as [A _]. unfold asked in A. rewrite E in A.
    destruct (select p o u) as [|s|] eqn:S'; try discriminate. injection A as <-. eapply caused_next; eauto.
Qed.

Lemma caused_trans : forall p o t u v, leads_to p o t u -> caused p o u v -> caused p o t v.
Proof.
  intros p o t u v L C. induction C as [|v w s C IH E I].
  - apply caused_leads. right. exists t. split; [constructor|exact L].
  - eapply caused_next; eauto.
Qed.

Lemma compiles_fine : forall p o t, compiles p o t -> fine p o t.
Proof. intros p o t C. apply instantiates_fine, C. constructor. Qed.

Lemma compiles_leads : forall p o t v, compiles p o t -> leads_to p o t v -> compiles p o v.
Proof. intros p o t v C L w D. apply C. eapply caused_trans; eauto. Qed.

Lemma compiles_by : forall p o (X : cxx -> Prop),
  (forall t, X t -> fine p o t) -> (forall t v, X t -> leads_to p o t v -> X v) -> forall t, X t -> compiles p o t.
Proof.
  intros p o X F L t H u C. apply instantiates_fine, F. clear F.
  induction C as [|u v s C IH E I]; [exact H|]. apply (L u); [exact IH|].
  destruct (asked_pick p o u) as [A _]. unfold asked in A. rewrite E in A. exists (body s p u). now rewrite <- A.
Qed.

Lemma within_trans : forall p o t u v, part_of p o t u -> within p o u v -> within p o t v.
Proof.
  intros p o t u v P W. induction W as [|v w W IH Q].
  - eapply within_part; [constructor|exact P].
  - eapply within_part; eauto.
Qed.

Lemma supported_part : forall p o t u, supported p o t -> part_of p o t u -> supported p o u.
Proof. intros p o t u H P v W. apply H. eapply within_trans; eauto. Qed.

Lemma supported_itself : forall p o t, supported p o t -> supported_shape p o t.
Proof. intros p o t H. apply H. constructor. Qed.

Lemma supported_by : forall p o (X : cxx -> Prop),
  (forall t, X t -> supported_shape p o t) -> (forall t v, X t -> part_of p o t v -> X v) -> forall t, X t -> supported p o t.
Proof.
  intros p o X F L t H u C. apply F. clear F. induction C as [|u v C IH E]; [exact H|]. eapply L; eauto.
Qed.

(** * Compiling types are supported *)

Lemma fine_needs : forall p o t ns, fine p o t -> pick p o t = Some ns -> forallb (met p o) ns = true.
Proof. intros p o t ns (ns' & E & M) E'. congruence. Qed.

Lemma structured_context : forall p t, pick_context p t = true -> (forall u, t <> Ty PtrT [u]) -> structured p t.
Proof.
  intros p [g us] C N.
  destruct g as [a| | | | | | | | | | | | | | | | | | | | | | |]; try discriminate; cbn in C.
  - destruct us; [|discriminate]. now constructor.
  - destruct us as [|u [|]]; try discriminate. now destruct (N u).
  - destruct us as [|u [|]]; try discriminate. apply structured_pointer. cbn. tauto.
  - destruct us as [|u [|]]; try discriminate. apply structured_pointer. cbn. tauto.
  - destruct us as [|u [|v [|w us]]]; try discriminate. constructor.
  - destruct us as [|u [|w us]]; try discriminate; [|destruct u as [h l]; destruct h; try discriminate; destruct l; discriminate].
    apply structured_vector. intros ->. discriminate.
  - destruct us as [|u [|]]; try discriminate. constructor.
  - destruct us as [|[h l] [|v [|w us]]]; try discriminate; destruct h; try discriminate; destruct l; try discriminate.
    apply structured_map. cbn. tauto.
  - destruct us as [|[h l] [|v [|w us]]]; try discriminate; destruct h; try discriminate; destruct l; try discriminate.
    apply structured_map. cbn. tauto.
  - destruct us as [|u [|v [|w us]]]; try discriminate. constructor.
  - apply structured_items. cbn. tauto.
  - apply structured_items. cbn. tauto.
Qed.

Lemma context_structured : forall p t, structured p t -> pick_context p t = true.
Proof.
  intros p t C. destruct C as [u N|u|u n|a b|g us I|g u I|g u I|n P]; cbn; try reflexivity.
  - destruct u as [h l]; destruct h; try reflexivity. destruct l; [now destruct N|reflexivity].
  - destruct I as [<-|[<-|[]]]; reflexivity.
  - destruct I as [<-|[<-|[]]]; reflexivity.
  - destruct I as [<-|[<-|[]]]; reflexivity.
  - exact P.
Qed.

Lemma once_distinct : forall us, forallb (fun u => Nat.eqb (count_occ cxx_eq_dec us u) 1) us = true <-> NoDup us.
Proof.
  intros us. rewrite forallb_forall, (NoDup_count_occ' cxx_eq_dec). split; intros H u I; specialize (H u I).
  - now apply Nat.eqb_eq.
  - now apply Nat.eqb_eq.
Qed.

Lemma out_cases : forall o, outputs o = true -> output o.
Proof. intros []; try discriminate; intros _; unfold output; tauto. Qed.

Lemma scanned_integer : forall a, scanned a = true -> In a integers.
Proof. intros []; try discriminate; intros _; cbn; tauto. Qed.

Lemma arithmetic_fine : forall p o a, o <> Schema -> fine p o (arithmetic a) ->
  In a (ABool :: integers ++ [AFloat; ADouble]).
Proof.
  intros p o a N (ns & E & _). destruct o; try congruence; destruct a; try discriminate; cbn; tauto.
Qed.

Lemma underlying_integral : forall p o n, well_formed p -> o <> Schema -> fine p o (arithmetic (underlying (enums p n))) ->
  underlying (enums p n) = ABool \/ In (underlying (enums p n)) integers.
Proof.
  intros p o n W N F. pose proof (arithmetic_fine _ _ _ N F) as I. specialize (W n).
  destruct (underlying (enums p n)); cbn in *; intuition (try discriminate).
Qed.

Lemma forallb_flat_map : forall {A B} (f : B -> bool) (g : A -> list B) l,
  forallb f (flat_map g l) = true -> forall x, In x l -> forallb f (g x) = true.
Proof.
  intros A B f g l H x I. rewrite forallb_forall in H |- *. intros y J. apply H, in_flat_map. eauto.
Qed.

Lemma contextual_structured : forall p u, met p Schema (Contextual u) = true -> fine p Schema u -> structured p u.
Proof.
  intros p u M F. rewrite met_context in M. apply structured_context; [exact M|]. intros v ->.
  destruct F as (ns & E & B). injection E as <-. discriminate.
Qed.

Ltac tidy E M :=
  (reflexivity || injection E as <-); cbn in M |- *; rewrite ?andb_true_r in M; rewrite ?andb_true_r; (exact M || reflexivity).

(** A type that compiles is of a supported shape. *)
Lemma compiles_shape : forall p o t, well_formed p -> compiles p o t -> supported_shape p o t.
Proof.
  intros p o [g us] W C. pose proof (compiles_fine _ _ _ C) as (ns & E & M).
  assert (L : forall v, In (Use v) ns -> compiles p o v).
  { intros v I. apply (compiles_leads p o (Ty g us)); [exact C|]. now exists ns. }
  clear C. destruct g as [a| | | | | | |n|n| | | | | | | | | | | | | |n|n].
  - (* arithmetic *)
    destruct us; [|discriminate]. destruct a, o; try discriminate;
      (apply shape_simple; cbn; tauto) || (apply shape_wide; cbn; tauto).
  - destruct us; [|discriminate]. apply shape_simple. cbn. tauto.
  - destruct us; [|discriminate]. apply shape_simple. cbn. tauto.
  - destruct us; [|discriminate]. cbn in E. destruct (outputs o) eqn:O; [|discriminate]. apply shape_view. now apply out_cases.
  - destruct us; [|discriminate]. apply shape_simple. cbn. tauto.
  - destruct us; [|discriminate]. apply shape_simple. cbn. tauto.
  - destruct us; [|discriminate]. apply shape_simple. cbn. tauto.
  - (* enumerations *)
    destruct us; [|discriminate]. apply shape_enum. injection E as <-. cbn -[enum_output enum_input enum_parse] in *.
    destruct o; [| | | |apply described].
    + unfold enum_output in L. cbn in L. destruct (to_string (enums p n)) eqn:T; [apply named_output; [now left|exact T]|].
      destruct (underlying_integral p Serialize n W) as [B|I]; [discriminate|apply compiles_fine, L; now left| |].
      * apply boolean; [left; now left|exact B].
      * apply numeric; [discriminate|exact I].
    + unfold enum_output in L. cbn in L. destruct (to_string (enums p n)) eqn:T; [apply named_output; [now right|exact T]|].
      destruct (underlying_integral p Write n W) as [B|I]; [discriminate|apply compiles_fine, L; now left| |].
      * apply boolean; [left; now right|exact B].
      * apply numeric; [discriminate|exact I].
    + unfold enum_input in L. cbn in L. destruct (from_string (enums p n)) eqn:T; [apply named_input; [now left|exact T]|].
      destruct (underlying_integral p Deserialize n W) as [B|I]; [discriminate|apply compiles_fine, L; now left| |].
      * apply boolean; [now right|exact B].
      * apply numeric; [discriminate|exact I].
    + unfold enum_parse in M. cbn in M. destruct (from_string (enums p n)) eqn:T; [apply named_input; [now right|exact T]|].
      cbn in M. rewrite andb_true_r in M. apply numeric; [discriminate|now apply scanned_integer].
  - (* classes *)
    destruct us; [|discriminate]. cbn -[class_output class_input class_parse class_schema] in E.
    destruct (persists (classes p n)) eqn:P; [|discriminate]. injection E as <-. apply shape_class; [exact P| | |].
    + intros -> u I. unfold class_input in M. cbn in M. pose proof (forallb_flat_map _ _ _ M _ I) as D.
      cbn in D. now rewrite andb_true_r in D.
    + intros -> Z. unfold class_parse in M. cbn in M. rewrite Z in M. discriminate.
    + intros ->. unfold class_schema in M. cbn in M. apply andb_true_iff in M. destruct M as [D M]. split; [exact D|].
      intros [[] u] I; [|reflexivity]. pose proof (forallb_flat_map _ _ _ M _ I) as F. discriminate.
  - (* raw pointers *)
    destruct us as [|u [|]]; try discriminate. cbn in E. destruct (outputs o) eqn:O.
    + apply shape_raw. now apply out_cases.
    + injection E as <-. discriminate.
  - (* unique_ptr *)
    destruct us as [|u [|]]; try discriminate. injection E as <-. rewrite forallb_forall in M.
    apply shape_smart; [cbn; tauto| |].
    + intros [->| ->]; exact (M (Defaults u) (or_introl eq_refl)).
    + intros ->. apply contextual_structured; [exact (M (Contextual u) (or_intror (or_introl eq_refl)))|].
      apply compiles_fine, L. now left.
  - (* shared_ptr *)
    destruct us as [|u [|]]; try discriminate. injection E as <-. rewrite forallb_forall in M.
    apply shape_smart; [cbn; tauto| |].
    + intros [->| ->]; exact (M (Defaults u) (or_introl eq_refl)).
    + intros ->. apply contextual_structured; [exact (M (Contextual u) (or_intror (or_introl eq_refl)))|].
      apply compiles_fine, L. now left.
  - (* optional *)
    destruct us as [|u [|]]; try discriminate. destruct o; try discriminate. injection E as <-.
    apply shape_optional. cbn in M. now rewrite andb_true_r in M.
  - (* char[N] *)
    destruct us as [|[[[]| | | | | | | | | | | | | | | | | | | | | | |] [|]] [|m [|]]]; try discriminate. cbn in E.
    destruct (outputs o) eqn:O; [|discriminate]. apply shape_literal. now apply out_cases.
  - (* array *)
    destruct us as [|u [|m [|]]]; try discriminate. apply shape_array. intros ->. injection E as <-. cbn in M.
    rewrite andb_true_r in M. now apply andb_true_iff in M.
  - (* vector *)
    assert (D : forall v, us = [v] -> input o -> defaults p v = true).
    { intros v -> [->| ->]; destruct v as [h l]; destruct h; try tidy E M.
      all: destruct l as [|[[] []] [|? []]]; tidy E M. }
    destruct us as [|u [|w us]]; [discriminate| |].
    + apply shape_container; [cbn; tauto|]. now apply D.
    + exfalso. cbn in E. destruct u as [h l]; destruct h; try discriminate; destruct l as [|[[] []] [|? []]]; discriminate.
  - (* set *)
    destruct us as [|u [|]]; try discriminate. injection E as <-. apply shape_container; [cbn; tauto|].
    intros [->| ->]; cbn in M; now rewrite andb_true_r in M.
  - (* map *)
    destruct us as [|[h l] [|u [|w us]]]; try discriminate; destruct h; try discriminate; destruct l; try discriminate; cbn in E.
    + injection E as <-. apply shape_map; [cbn; tauto|]. intros [->| ->]; cbn in M; now rewrite andb_true_r in M.
    + destruct (outputs o) eqn:O; [|discriminate]. apply shape_literal_map; [cbn; tauto|now apply out_cases].
  - (* unordered_map *)
    destruct us as [|[h l] [|u [|w us]]]; try discriminate; destruct h; try discriminate; destruct l; try discriminate; cbn in E.
    + injection E as <-. apply shape_map; [cbn; tauto|]. intros [->| ->]; cbn in M; now rewrite andb_true_r in M.
    + destruct (outputs o) eqn:O; [|discriminate]. apply shape_literal_map; [cbn; tauto|now apply out_cases].
  - destruct us as [|u [|v [|]]]; try discriminate. apply shape_pair.
  - apply shape_tuple.
  - (* variant *)
    apply shape_variant; [intros ->; discriminate|]. intros ->. injection E as <-. unfold variant_input in M. cbn in M. split.
    + apply once_distinct, forallb_forall. intros u I. pose proof (forallb_flat_map _ _ _ M _ I) as F. cbn in F.
      rewrite andb_true_r in F. now apply andb_true_iff in F.
    + intros u I. pose proof (forallb_flat_map _ _ _ M _ I) as F. cbn in F. now apply andb_true_iff in F.
  - discriminate.
  - discriminate.
Qed.

(** * Parts of compiling types compile *)

Lemma caused_first : forall p o t w, caused p o t w -> t = w \/ exists v, leads_to p o t v /\ caused p o v w.
Proof.
  intros p o t w C. induction C as [|u w s C IH E I]; [now left|right].
  assert (L : leads_to p o u w).
  { destruct (asked_pick p o u) as [A _]. unfold asked in A. rewrite E in A. exists (body s p u). now rewrite <- A. }
  destruct IH as [<-|(v & L' & C')].
  - exists w. split; [exact L|constructor].
  - exists v. split; [exact L'|]. eapply caused_next; eauto.
Qed.

Lemma compiles_intro : forall p o t, fine p o t -> (forall v, leads_to p o t v -> compiles p o v) -> compiles p o t.
Proof.
  intros p o t F H w C. destruct (caused_first _ _ _ _ C) as [<-|(v & L & C')].
  - now apply instantiates_fine.
  - exact (H v L w C').
Qed.

Lemma leads_use : forall p o t ns v, pick p o t = Some ns -> leads_to p o t v -> In (Use v) ns.
Proof. intros p o t ns v E (ns' & E' & I). congruence. Qed.

Lemma compiles_nothing : forall p o t, pick p o t = Some [] -> compiles p o t.
Proof.
  intros p o t E. apply compiles_intro; [now exists []|]. intros v L. destruct (leads_use _ _ _ _ _ E L).
Qed.

Lemma compiles_arithmetic : forall p o a, In a (ABool :: integers ++ [AFloat; ADouble]) -> compiles p o (arithmetic a).
Proof. intros p o a I. apply compiles_nothing. cbn in I. repeat (destruct I as [<-|I]; [now destruct o|]). destruct I. Qed.

Lemma compiles_string : forall p o, compiles p o string_.
Proof. intros p o. now apply compiles_nothing. Qed.

Lemma compiles_view : forall p o, output o -> compiles p o string_view.
Proof. intros p o [->| ->]; now apply compiles_nothing. Qed.

Lemma compiles_byte : forall p o, compiles p o byte.
Proof.
  intros p o. apply compiles_intro; [destruct o; eexists; split; reflexivity|].
  intros v (ns & E & L). destruct o; injection E as <-; cbn in L;
    (now destruct L) || (destruct L as [L|[]]; discriminate || (injection L as <-; apply compiles_arithmetic; cbn; tauto)).
Qed.

Lemma vector_pick : forall p o u ns, pick p o (Ty VectorT [u]) = Some ns ->
  In (Use u) ns \/ u = byte \/ output o /\ exists k v, u = Ty PairT [k; v] /\ (k = string_ \/ k = string_view) /\ ns = [Use v].
Proof.
  intros p o [h l] ns E. destruct h.
  all: try (left; injection E as <-; destruct o; cbn; tauto).
  - destruct l; [right; left; reflexivity|left; injection E as <-; destruct o; cbn; tauto].
  - destruct l as [|k l]; [left; injection E as <-; destruct o; cbn; tauto|].
    destruct l as [|v l]; [left; cbn in E; destruct k as [[] []]; injection E as <-; destruct o; cbn; tauto|].
    destruct l as [|w l]; [|left; cbn in E; destruct k as [[] []]; injection E as <-; destruct o; cbn; tauto].
    destruct k as [g m].
    assert (G : g = StringT \/ g = ViewT \/ g <> StringT /\ g <> ViewT)
      by (destruct g; auto; right; right; split; discriminate).
    destruct G as [->|[->|[N N']]].
    + destruct m; [|left; injection E as <-; destruct o; cbn; tauto].
      injection E as <-. destruct o; [right; right|right; right|left|left|left]; cbn; try tauto.
      * split; [now left|]. exists string_, v. auto.
      * split; [now right|]. exists string_, v. auto.
    + destruct m; [|left; injection E as <-; destruct o; cbn; tauto].
      injection E as <-. destruct o; [right; right|right; right|left|left|left]; cbn; try tauto.
      * split; [now left|]. exists string_view, v. auto.
      * split; [now right|]. exists string_view, v. auto.
    + left. destruct g; try congruence; injection E as <-; destruct o; cbn; tauto.
Qed.

Lemma compiles_pair : forall p o a b, compiles p o a -> compiles p o b -> compiles p o (Ty PairT [a; b]).
Proof.
  intros p o a b A B. apply compiles_intro; [eexists; split; reflexivity|].
  intros v (ns & E & L). injection E as <-. cbn in L. destruct L as [L|[L|[]]]; injection L as <-; assumption.
Qed.

Lemma member_use : forall o p n m, In m (visited (classes p n)) -> fine p o (Ty (ClassT n) []) ->
  leads_to p o (Ty (ClassT n) []) (held o m).
Proof.
  intros o p n m I (ns & E & M). exists ns. split; [exact E|]. cbn -[class_output class_input class_parse class_schema] in E.
  destruct (persists (classes p n)); [|discriminate]. injection E as <-. destruct o.
  - unfold class_output. cbn [class_of]. apply in_flat_map. exists m. split; [exact I|].
    destruct m as [[] [[] [|? []]]]; cbn; tauto.
  - unfold class_output. cbn [class_of]. apply in_flat_map. exists m. split; [exact I|].
    destruct m as [[] [[] [|? []]]]; cbn; tauto.
  - unfold class_input. cbn [class_of]. apply in_flat_map. exists m. split; [exact I|].
    destruct m as [[] [[] [|? []]]]; cbn; tauto.
  - unfold class_parse. cbn [class_of]. destruct (visited (classes p n)) as [|m' ms] eqn:V; [destruct I|].
    apply in_map_iff. exists m. split; [|exact I]. destruct m as [[] [[] [|? []]]]; reflexivity.
  - unfold class_schema in *. cbn [class_of] in *. right. apply in_flat_map. exists m. split; [exact I|].
    destruct m as [[] u].
    + cbn [forallb] in M. apply andb_true_iff in M. destruct M as [_ M].
      pose proof (forallb_flat_map _ _ _ M _ I) as F. discriminate.
    + destruct u as [[] [|? []]]; cbn; tauto.
Qed.

Lemma compiles_part : forall p o t v, compiles p o t -> part_of p o t v -> compiles p o v.
Proof.
  intros p o t v C P. pose proof (compiles_fine _ _ _ C) as F. destruct F as (ns & E & M).
  assert (L : forall w, In (Use w) ns -> compiles p o w).
  { intros w I. apply (compiles_leads p o t); [exact C|]. now exists ns. }
  destruct P as [g u I|u n Z|g k u I|a b|a b|g us u I J|n m I].
  - cbn in I. destruct I as [<-|I]; [|destruct I as [<-|[<-|[<-|[<-|[<-|[]]]]]]].
    + destruct (vector_pick _ _ _ _ E) as [H|[->|(O & k & v & -> & K & ->)]].
      * now apply L.
      * apply compiles_byte.
      * apply compiles_pair; [|apply L; now left]. destruct K as [->| ->]; [apply compiles_string|now apply compiles_view].
    + injection E as <-. apply L. destruct o; cbn; tauto.
    + injection E as <-. apply L. destruct o; cbn; tauto.
    + injection E as <-. apply L. destruct o; cbn; tauto.
    + cbn in E. destruct (outputs o); injection E as <-; [apply L; now left|discriminate].
    + destruct o; try discriminate. injection E as <-. apply L. cbn. tauto.
  - injection E as <-. apply L. destruct o; try (cbn; tauto).
    unfold array_parse. destruct n as [h l]. specialize (Z eq_refl l). destruct h; try (now left). destruct n; [congruence|now left].
  - destruct I as [<-|[<-|[]]]; destruct k as [h l]; destruct h; try discriminate; destruct l; try discriminate; cbn in E.
    + injection E as <-. apply L. destruct o; cbn; tauto.
    + destruct (outputs o); [|discriminate]. injection E as <-. apply L. cbn; tauto.
    + injection E as <-. apply L. destruct o; cbn; tauto.
    + destruct (outputs o); [|discriminate]. injection E as <-. apply L. cbn; tauto.
  - injection E as <-. apply L. now left.
  - injection E as <-. apply L. right. now left.
  - cbn in I. destruct I as [<-|[<-|[]]].
    + injection E as <-. apply L. now apply in_map.
    + cbn -[variant_input] in E. assert (H : In (Use u) ns); [|now apply L].
      destruct o; try discriminate; injection E as <-; try now apply in_map.
      unfold variant_input. cbn [listed_types]. apply in_flat_map. exists u. split; [exact J|]. cbn. tauto.
  - eapply compiles_leads; [exact C|]. apply member_use; [exact I|]. now apply compiles_fine.
Qed.

Lemma compiles_supported : forall p o t, well_formed p -> compiles p o t -> supported p o t.
Proof.
  intros p o t W. apply (supported_by p o (compiles p o)).
  - intros u. now apply compiles_shape.
  - intros u v. apply compiles_part.
Qed.

(** * Supported types compile *)

Lemma supported_simple : forall p o t, In t simple_types -> supported p o t.
Proof.
  intros p o t I. apply (supported_by p o (fun u => In u simple_types)); [| |exact I].
  - intros u. apply shape_simple.
  - intros u v J P. cbn in J. repeat (destruct J as [J|J]; [subst u; now inversion P|]). destruct J.
Qed.

Lemma supported_arithmetic : forall p o a, In a (ABool :: integers ++ [AFloat; ADouble]) -> supported p o (arithmetic a).
Proof. intros p o a I. apply supported_simple. right. apply in_or_app. left. now apply in_map. Qed.

Lemma supported_view : forall p o, output o -> supported p o string_view.
Proof.
  intros p o O. apply (supported_by p o (fun u => u = string_view)); [| |reflexivity].
  - intros u ->. now apply shape_view.
  - intros u v -> P. inversion P; cbn in *; intuition discriminate.
Qed.

Lemma integer_arithmetic : forall a, In a integers -> In a (ABool :: integers ++ [AFloat; ADouble]).
Proof. intros a I. right. apply in_or_app. now left. Qed.

Lemma integer_scanned : forall a, In a integers -> scanned a = true.
Proof. intros a I. cbn in I. repeat (destruct I as [<-|I]; [reflexivity|]). destruct I. Qed.

(** What a supported type asks for is met. *)
Definition granted (p : program) (o : operation) (t : cxx) : Prop :=
  exists ns, pick p o t = Some ns /\ Forall (fun n => met p o n = true) ns /\ forall v, In (Use v) ns -> supported p o v.

Lemma granted_enum : forall p o n, enum_supported (enums p n) o -> granted p o (Ty (EnumT n) []).
Proof.
  intros p o n H. unfold granted. eexists. split; [reflexivity|]. cbn -[enum_output enum_input enum_parse].
  destruct H as [o O T|o O T|o N I|o O B|].
  - destruct O as [->| ->]; unfold enum_output; cbn; rewrite T; (split; [repeat constructor|]);
      intros v [H|[]]; injection H as <-; apply supported_view; [now left|now right].
  - destruct O as [->| ->]; unfold enum_input, enum_parse; cbn; rewrite T; (split; [constructor|]); intros v [].
  - apply integer_scanned in I as C. apply integer_arithmetic in I. destruct o; [| | | |congruence].
    + unfold enum_output; cbn. split; [repeat constructor|]. intros v [H|[]]. injection H as <-.
      destruct (to_string (enums p n)); [apply supported_view; now left|now apply supported_arithmetic].
    + unfold enum_output; cbn. split; [repeat constructor|]. intros v [H|[]]. injection H as <-.
      destruct (to_string (enums p n)); [apply supported_view; now right|now apply supported_arithmetic].
    + unfold enum_input; cbn. destruct (from_string (enums p n)); (split; [repeat constructor|]); [intros v []|].
      intros v [H|[]]. injection H as <-. now apply supported_arithmetic.
    + unfold enum_parse; cbn. destruct (from_string (enums p n)); (split; [repeat constructor; exact C|]); [intros v []|].
      intros v [H|[]]. discriminate.
  - assert (A : In (underlying (enums p n)) (ABool :: integers ++ [AFloat; ADouble])) by (left; now rewrite B).
    destruct O as [[->| ->]| ->].
    + unfold enum_output; cbn. split; [repeat constructor|]. intros v [H|[]]. injection H as <-.
      destruct (to_string (enums p n)); [apply supported_view; now left|now apply supported_arithmetic].
    + unfold enum_output; cbn. split; [repeat constructor|]. intros v [H|[]]. injection H as <-.
      destruct (to_string (enums p n)); [apply supported_view; now right|now apply supported_arithmetic].
    + unfold enum_input; cbn. destruct (from_string (enums p n)); (split; [repeat constructor|]); [intros v []|].
      intros v [H|[]]. injection H as <-. now apply supported_arithmetic.
  - split; [constructor|]. intros v [].
Qed.

Lemma structured_met : forall p u, structured p u -> met p Schema (Contextual u) = true.
Proof. intros p u H. rewrite met_context. now apply context_structured. Qed.

Lemma granted_use : forall p o t u, pick p o t = Some [Use u] -> supported p o u -> granted p o t.
Proof.
  intros p o t u E S'. exists [Use u]. split; [exact E|]. split; [repeat constructor|]. intros v [H|[]]. now injection H as <-.
Qed.

Lemma granted_make : forall p o t u, pick p o t = Some [Defaults u; Use u] -> defaults p u = true -> supported p o u -> granted p o t.
Proof.
  intros p o t u E D S'. exists [Defaults u; Use u]. split; [exact E|].
  split; [repeat constructor; exact D|]. intros v [H|[H|[]]]; [discriminate|]. now injection H as <-.
Qed.

Lemma granted_nothing : forall p o t, pick p o t = Some [] -> granted p o t.
Proof. intros p o t E. exists []. split; [exact E|]. split; [constructor|]. intros v []. Qed.

Lemma granted_uses : forall p o t us, pick p o t = Some (map Use us) -> (forall u, In u us -> supported p o u) -> granted p o t.
Proof.
  intros p o t us E H. exists (map Use us). split; [exact E|]. split.
  - apply Forall_forall. intros n I. apply in_map_iff in I. destruct I as (u & <- & _). reflexivity.
  - intros v I. apply in_map_iff in I. destruct I as (u & Q & J). injection Q as <-. now apply H.
Qed.

Lemma vector_grant : forall p o u, (input o -> defaults p u = true) -> supported p o (Ty VectorT [u]) ->
  granted p o (Ty VectorT [u]).
Proof.
  intros p o u D H.
  assert (P : supported p o u) by (apply (supported_part p o _ _ H), part_element; cbn; tauto).
  destruct (pick p o (Ty VectorT [u])) as [ns|] eqn:E.
  2: { exfalso. clear -E. destruct u as [h l]; destruct h; try discriminate; destruct l as [|[[] []] [|? []]]; discriminate. }
  assert (G : ns = [] \/ ns = [Use u] /\ ~ input o \/ ns = [Defaults u; Use u] /\ input o \/
              exists k v, u = Ty PairT [k; v] /\ ns = [Use v]).
  { clear -E. destruct u as [h l]. unfold input. destruct h.
    all: try (right; injection E as <-; destruct o; intuition congruence).
    - destruct l; injection E as <-; [now left|]. right. destruct o; intuition congruence.
    - destruct l as [|k [|v [|w l]]].
      + right; injection E as <-; destruct o; intuition congruence.
      + cbn in E. destruct k as [[] []]; right; injection E as <-; destruct o; intuition congruence.
      + cbn in E. destruct k as [[] []]; right; injection E as <-; destruct o; try (intuition congruence);
          (right; right; eexists; eexists; split; reflexivity).
      + cbn in E. destruct k as [[] []]; right; injection E as <-; destruct o; intuition congruence. }
  destruct G as [->|[[-> _]|[[-> I]|(k & v & -> & ->)]]].
  - now apply granted_nothing.
  - now apply (granted_use _ _ _ u).
  - apply (granted_make _ _ _ u); auto.
  - apply (granted_use _ _ _ v); [exact E|]. apply (supported_part p o _ _ P), part_second.
Qed.

Lemma supported_granted : forall p o t, supported p o t -> granted p o t.
Proof.
  intros p o t H. pose proof (supported_itself _ _ _ H) as Q.
  assert (P : forall v, part_of p o t v -> supported p o v) by (intros v; now apply supported_part).
  destruct Q as [o t I|t I|o O|o n O|o n En|o g u G D|o u n D|o g u G D|o g u G O|o a b|o us|o us N D|o g u G D C|o u O|u D
                |o n Per D F C].
  - cbn in I. repeat (destruct I as [I|I]; [subst t; try (apply granted_nothing; now destruct o)|]); [|destruct I].
    exists (match o with Serialize | Write => enum_output p byte | Deserialize => enum_input p byte
                    | Parse => enum_parse p byte | Schema => [] end).
    split; [reflexivity|]. split; [destruct o; repeat constructor|]. intros v I.
    destruct o; cbn in I; (now destruct I) ||
      (destruct I as [I|[]]; discriminate || (injection I as <-; apply supported_arithmetic; cbn; tauto)).
  - cbn in I. repeat (destruct I as [I|I]; [subst t; now apply granted_nothing|]). destruct I.
  - apply granted_nothing. now destruct O as [->| ->].
  - apply granted_nothing. now destruct O as [->| ->].
  - now apply granted_enum.
  - destruct G as [<-|[<-|[]]]; [now apply vector_grant|].
    assert (V : supported p o u) by (apply P, part_element; cbn; tauto).
    destruct o; (now apply (granted_use _ _ _ u)) || (apply (granted_make _ _ _ u); [reflexivity|apply D|exact V]);
      [now left|now right].
  - (* array *)
    assert (V : (o = Parse -> forall l, n <> Ty (Size 0) l) -> supported p o u) by (intros Z; apply P, part_item; exact Z).
    destruct o; try (apply (granted_use _ _ _ u); [reflexivity|apply V; discriminate]).
    + destruct (D eq_refl) as [D1 D2]. exists [Defaults u; Use u; Copies u]. split; [reflexivity|].
      split; [repeat constructor; assumption|]. intros v [I|[I|[I|[]]]]; try discriminate. injection I as <-. now apply V.
    + assert (Z : (exists l, n = Ty (Size 0) l) \/ forall l, n <> Ty (Size 0) l).
      { destruct n as [h l]. destruct h as [| | | | | | | | | | | | | | | | | | | | | |k|]; try (right; discriminate).
        destruct k; [left; eauto|right; discriminate]. }
      destruct Z as [[l ->]|Z]; [now apply granted_nothing|]. apply (granted_use _ _ _ u); [|now apply V].
      cbn -[array_parse]. unfold array_parse. destruct n as [h l]. destruct h; try reflexivity. destruct n; [|reflexivity].
      now destruct (Z l).
  - assert (V : supported p o u) by (apply P, part_value; exact G).
    destruct G as [<-|[<-|[]]]; destruct o; (now apply (granted_use _ _ _ u)) ||
      (apply (granted_make _ _ _ u); [reflexivity|apply D|exact V]); (now left) || now right.
  - assert (V : supported p o u) by (apply P, part_value; exact G).
    destruct G as [<-|[<-|[]]]; destruct O as [->| ->]; now apply (granted_use _ _ _ u).
  - apply (granted_uses _ _ _ [a; b]); [reflexivity|]. intros u [<-|[<-|[]]]; apply P; [apply part_first|apply part_second].
  - apply (granted_uses _ _ _ us); [reflexivity|]. intros u I. apply P, part_component; [cbn; tauto|exact I].
  - (* variant *)
    assert (V : forall u, In u us -> supported p o u) by (intros u I; apply P, part_component; [cbn; tauto|exact I]).
    destruct o; try (now apply (granted_uses _ _ _ us)).
    destruct (D eq_refl) as [D1 D2]. exists (variant_input p (Ty VariantT us)). split; [reflexivity|].
    unfold variant_input. cbn [listed_types]. split.
    + apply Forall_forall. intros n I. apply in_flat_map in I. destruct I as (u & I & J).
      apply once_distinct in D1. rewrite forallb_forall in D1. specialize (D1 u I).
      destruct J as [<-|[<-|[<-|[]]]]; [now apply D2|reflexivity|exact D1].
    + intros v I. apply in_flat_map in I. destruct I as (u & I & J). destruct J as [J|[J|[J|[]]]]; try discriminate.
      injection J as <-. now apply V.
  - (* smart pointers *)
    assert (V : supported p o u) by (apply P, part_element; cbn in G |- *; tauto).
    destruct o.
    + apply (granted_use _ _ _ u); [|exact V]. now destruct G as [<-|[<-|[]]].
    + apply (granted_use _ _ _ u); [|exact V]. now destruct G as [<-|[<-|[]]].
    + apply (granted_make _ _ _ u); [|apply D; now left|exact V]. now destruct G as [<-|[<-|[]]].
    + apply (granted_make _ _ _ u); [|apply D; now right|exact V]. now destruct G as [<-|[<-|[]]].
    + exists [Use u; Contextual u]. split; [now destruct G as [<-|[<-|[]]]|].
      split; [constructor; [reflexivity|constructor; [|constructor]]; apply structured_met; now apply C|].
      intros v [I|[I|[]]]; [|discriminate]. now injection I as <-.
  - apply (granted_use _ _ _ u); [now destruct O as [->| ->]|]. apply P, part_element. cbn. tauto.
  - apply (granted_make _ _ _ u); [reflexivity|exact D|]. apply P, part_element. cbn. tauto.
  - (* classes *)
    assert (V : forall m, In m (visited (classes p n)) -> supported p o (held o m)) by (intros m I; now apply P, part_member).
    unfold granted. eexists. split; [cbn -[class_output class_input class_parse class_schema]; rewrite Per; reflexivity|].
    destruct o.
    + unfold class_output. cbn [class_of]. split.
      * apply Forall_forall. intros x I. apply in_flat_map in I. destruct I as (m & I & J).
        destruct m as [[] [[] [|? []]]]; cbn in J; destruct J as [<-|[]]; reflexivity.
      * intros v I. apply in_flat_map in I. destruct I as (m & I & J). specialize (V m I).
        destruct m as [[] [[] [|? []]]]; cbn in J; destruct J as [J|[]]; injection J as <-; exact V.
    + unfold class_output. cbn [class_of]. split.
      * apply Forall_forall. intros x I. apply in_flat_map in I. destruct I as (m & I & J).
        destruct m as [[] [[] [|? []]]]; cbn in J; destruct J as [<-|[]]; reflexivity.
      * intros v I. apply in_flat_map in I. destruct I as (m & I & J). specialize (V m I).
        destruct m as [[] [[] [|? []]]]; cbn in J; destruct J as [J|[]]; injection J as <-; exact V.
    + unfold class_input. cbn [class_of]. split.
      * apply Forall_forall. intros x I. apply in_flat_map in I. destruct I as (m & I & J).
        assert (Hm : (exists u, m = (false, Ty OptionalT [u])) \/ member_input m = [Use (snd m)])
          by (destruct m as [[] [[] [|? []]]]; eauto).
        destruct Hm as [[u ->]|Hm].
        -- destruct J as [<-|[<-|[]]]; [now apply (D eq_refl)|reflexivity].
        -- rewrite Hm in J. destruct J as [<-|[]]. reflexivity.
      * intros v I. apply in_flat_map in I. destruct I as (m & I & J). specialize (V m I).
        destruct m as [[] [[] [|? []]]]; cbn in J; destruct J as [J|J]; try discriminate; try (injection J as <-; exact V);
          try (now destruct J); destruct J as [J|[]]; injection J as <-; exact V.
    + unfold class_parse. cbn [class_of]. specialize (F eq_refl). destruct (visited (classes p n)) as [|m' ms] eqn:Vis; [congruence|].
      split.
      * apply Forall_forall. intros x I. apply in_map_iff in I. destruct I as (m & <- & _). reflexivity.
      * intros v I. apply in_map_iff in I. destruct I as (m & J & I). injection J as <-. specialize (V m I).
        destruct m as [[] [[] [|? []]]]; exact V.
    + destruct (C eq_refl) as [C1 C2]. unfold class_schema. cbn [class_of]. split.
      * constructor; [exact C1|]. apply Forall_forall. intros x I. apply in_flat_map in I. destruct I as (m & I & J).
        specialize (C2 m I). destruct m as [[] u]; [discriminate|].
        destruct u as [[] [|? []]]; cbn in J; destruct J as [<-|[]]; reflexivity.
      * intros v [I|I]; [discriminate|]. apply in_flat_map in I. destruct I as (m & I & J). specialize (V m I). specialize (C2 m I).
        destruct m as [[] u]; [discriminate|]. destruct u as [[] [|? []]]; cbn in J; destruct J as [J|[]]; injection J as <-; exact V.
Qed.

Lemma supported_compiles : forall p o t, supported p o t -> compiles p o t.
Proof.
  intros p o. apply (compiles_by p o (supported p o)).
  - intros t H. destruct (supported_granted _ _ _ H) as (ns & E & F & _). exists ns. split; [exact E|].
    apply forallb_forall. now apply Forall_forall.
  - intros t v H (ns & E & I). destruct (supported_granted _ _ _ H) as (ns' & E' & _ & G). apply G. congruence.
Qed.
