(** Property C75: which object graphs have the same document. *)
From Coq Require Import List Arith ZArith NArith Ascii String Bool Lia Permutation.
From Verif Require Import Base Float NumericModel NumericSpec Json PathModel PathSpec Types SerializeModel DeserializeModel
  DenoteSpec RoundSpec DocSpec GraphSpec GraphProof WriteSpec WriteModel WriteProps TextModel TextSpec ParseSpec TextProps DeserializeProps RoundProps GraphProps IsomorphProof.
Import ListNotations.
Local Open Scope string_scope.
Local Open Scope list_scope.

(** C75: the document does not depend on the addresses of shared objects, only on which of
    them are equal; nor does it depend on them whether there is a document at all. No
    condition on the types and values. *)
Theorem C75_addresses : forall e r t v, distinct r v ->
  match serialize_to_document e t v, serialize_to_document e t (rename r v) with
  | SOk _ j, SOk _ j' => j = j'
  | SFail _, SFail _ | SUndef, SUndef => True
  | _, _ => False
  end.
Proof. exact renamed_document. Qed.
Print Assumptions C75_addresses.

(** C75: the same of the text. *)
Theorem C75_text : forall render e r t v str, finite v = true -> distinct r v ->
  write_to_string render e t (rename r v) str = write_to_string render e t v str.
Proof.
  intros render e r t v str F D. pose proof (C18_same_text render e t v str F) as H. pose proof (C18_same_text render e t (rename r v) str) as H'.
  rewrite finite_renamed in H'. specialize (H' F). pose proof (renamed_document e r t v D) as R.
  destruct (serialize_to_document e t v) as [tab j|x|], (serialize_to_document e t (rename r v)) as [tab' j'|x'|]; try contradiction; congruence.
Qed.
Print Assumptions C75_text.

(** C75: two graphs that can be read back have the same document only if one is the other at
    other addresses: with the same values and the same sharing. *)
Theorem C75_document : forall e H H' T T' t v w, real_classes e -> (0 < tick e)%Z -> named e -> iterates e -> GraphSpec.printable e ->
  real_ints t = true -> holds e t v -> graph e H T t v -> holds e t w -> graph e H' T' t w ->
  ((exists tab tab' j, serialize_to_document e t v = SOk tab j /\ serialize_to_document e t w = SOk tab' j) <-> exists r, distinct r v /\ w = rename r v).
Proof.
  intros e H H' T T' t v w R K N I P RI Hv Gv Hw Gw. split.
  - intros (tab & tab' & j & Sv & Sw).
    destruct (C24_sharing e H T t v R K N I P RI Hv Gv) as (tv & jv & hv & Ev & _ & r & D & Dv & _).
    destruct (C24_sharing e H' T' t w R K N I P RI Hw Gw) as (tw & jw & hw & Ew & _ & r' & D' & Dw & _).
    assert (jv = j) by congruence. assert (jw = j) by congruence. subst jv jw. apply (same_graph r r' v w D D'). congruence.
  - intros (r & D & ->). destruct (C24_sharing e H T t v R K N I P RI Hv Gv) as (tv & jv & hv & Ev & _).
    pose proof (renamed_document e r t v D) as M. rewrite Ev in M. destruct (serialize_to_document e t (rename r v)) as [tab' j'|x|] eqn:E; try contradiction.
    subst j'. now exists tv, tab', jv.
Qed.
Print Assumptions C75_document.

(** C75: the same of texts: such graphs are written alike exactly if they are the same up to
    addresses. [print] and [nearest] say how doubles are printed and read. *)
Theorem C75_same_text : forall print nearest e H H' T T' t v w str, real_classes e -> (0 < tick e)%Z -> named e -> iterates e -> GraphSpec.printable e ->
  real_ints t = true -> holds e t v -> graph e H T t v -> holds e t w -> graph e H' T' t w ->
  finite v = true -> finite w = true -> numbers (faithful print nearest) v -> numbers (faithful print nearest) w ->
  (write_to_string (written print) e t v str = write_to_string (written print) e t w str <-> exists r, distinct r v /\ w = rename r v).
Proof.
  intros print nearest e H H' T T' t v w str R K N I P RI Hv Gv Hw Gw Fv Fw Nv Nw. split; [|intros (r & D & ->); symmetry; now apply C75_text].
  intros E. apply (C75_document e H H' T T' t v w); auto.
  destruct (C24_sharing e H T t v R K N I P RI Hv Gv) as (tv & jv & hv & Ev & _). destruct (C24_sharing e H' T' t w R K N I P RI Hw Gw) as (tw & jw & hw & Ew & _).
  destruct (C37_finite_text print nearest e t v str tv jv Fv Nv Ev) as (s & Ws & Js). destruct (C37_finite_text print nearest e t w str tw jw Fw Nw Ew) as (s' & Ws' & Js').
  exists tv, tw, jv. split; [exact Ev|]. rewrite Ew. f_equal. apply (C37_unambiguous nearest s'); [exact Js'|]. rewrite Ws, Ws' in E. injection E as <-. exact Js.
Qed.
Print Assumptions C75_same_text.

(** The diamond of C24 at other addresses, without the sharing, and with more of it. *)
Definition ex_moved (a : nat) : nat := match a with 7 => 1 | 4 => 7 | 9 => 4 | _ => 9 end.
Definition ex_split : val :=
  VObj [VStr "a"; VList [VShared 7 (VObj [VStr "b"; VList [VShared 4 ex_leaf]]); VShared 9 (VObj [VStr "c"; VList [VShared 6 ex_leaf; VShared 5 ex_leaf]])]].
Definition ex_joined : val :=
  VObj [VStr "a"; VList [VShared 7 (VObj [VStr "b"; VList [VShared 4 ex_leaf]]); VShared 9 (VObj [VStr "c"; VList [VShared 4 ex_leaf; VShared 4 ex_leaf]])]].

Example C75_example : distinct ex_moved ex_diamond /\
  (exists tab, serialize_to_document ex_graph (TClass 0) (rename ex_moved ex_diamond) = SOk tab ex_diamond_document) /\
  (exists tab j, serialize_to_document ex_graph (TClass 0) ex_split = SOk tab j /\ j <> ex_diamond_document) /\
  (exists tab j, serialize_to_document ex_graph (TClass 0) ex_joined = SOk tab j /\ j <> ex_diamond_document) /\
  ex_joined = rename (fun a => if Nat.eqb a 5 then 4 else a) ex_diamond.
Proof.
  split; [|split; [|split; [|split; [|reflexivity]]]].
  - intros a b. cbn. intros Ia Ib. repeat (destruct Ia as [<-|Ia]; [repeat (destruct Ib as [<-|Ib]; [cbn; (reflexivity || discriminate)|]); destruct Ib|]). destruct Ia.
  - eexists. vm_compute. reflexivity.
  - eexists. eexists. split; [vm_compute; reflexivity|discriminate].
  - eexists. eexists. split; [vm_compute; reflexivity|discriminate].
Qed.

(** C75: with other names it is false: references do not escape slashes, so that a reference
    to a member whose name has a slash is also one to the element below another member. Two
    graphs with different sharing have the same document. *)
Definition ex_slashes : cls := {|
  c_members := [{| m_name := "a"; m_kind := MRequired; m_ty := TMap true (TShared TBool) |};
                {| m_name := "a/b"; m_kind := MRequired; m_ty := TShared TBool |};
                {| m_name := "c"; m_kind := MRequired; m_ty := TShared TBool |}];
  c_root := 2; c_default := [VMap []; VNull; VNull]; c_value := [VMap []; VNull; VNull] |}.
Definition ex_slash : env := {|
  classes := [ex_slashes]; tick := 1000000000; endian := Base64Model.little; after := fun _ => []; less := fun _ _ _ => false;
  iteration := fun keys => seq 0 (List.length keys) |}.

Theorem C75_slash_refuted : exists e t v w tab tab' j, real_classes e /\ named e /\ iterates e /\ real_ints t = true /\ holds e t v /\ holds e t w /\
  serialize_to_document e t v = SOk tab j /\ serialize_to_document e t w = SOk tab' j /\ forall r, distinct r v -> w <> rename r v.
Proof.
  exists ex_slash, (TClass 0), (VObj [VMap [("b", VShared 3 (VBool true))]; VShared 4 (VBool true); VShared 3 (VBool true)]),
    (VObj [VMap [("b", VShared 3 (VBool true))]; VShared 4 (VBool true); VShared 4 (VBool true)]).
  eexists. eexists. eexists.
  split; [intros c; by_node c; reflexivity|].
  split; [intros c; by_node c; cbn; repeat (constructor; [cbn; intuition discriminate|]); constructor|].
  split; [intros keys; cbn; apply Permutation_refl|]. split; [reflexivity|].
  split; [repeat first [(apply member_held; [discriminate|]) | (apply holds_class; cbn [c_members class_of classes ex_slash nth ex_slashes]) | constructor]|].
  split; [repeat first [(apply member_held; [discriminate|]) | (apply holds_class; cbn [c_members class_of classes ex_slash nth ex_slashes]) | constructor]|].
  split; [vm_compute; reflexivity|]. split; [vm_compute; reflexivity|].
  intros r D E. cbn in E. injection E as E1 E2 E3. assert (3 = 4) by congruence. discriminate.
Qed.
Print Assumptions C75_slash_refuted.
