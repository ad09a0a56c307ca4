(** References to shared objects, in both forms of a JSON pointer. *)
From Coq Require Import List Arith ZArith NArith Ascii String Bool Lia Relations.
From Verif Require Import Base NumericModel Json Types RefsModel PathModel SerializeModel DeserializeModel DenoteProof DenoteFacts SchemaGenSpec TextSpec FragmentSpec FragmentProof
  RespellSpec FragmentRead FragmentTarget DeserializeProps.
From Verif Require GraphProof.
Import ListNotations.
Local Open Scope string_scope.
Local Open Scope list_scope.

Lemma table_eqb_true : forall a b, table_eqb a b = true -> a = b.
Proof.
  induction a as [|[x s] a IH]; intros [|[y u] b] H; cbn in H; try discriminate; [reflexivity|].
  apply andb_true_iff in H as [H H3]. apply andb_true_iff in H as [H1 H2]. apply Z.eqb_eq in H1. apply String.eqb_eq in H2. apply IH in H3. congruence.
Qed.

Lemma ity_eqb_true : forall a b, ity_eqb a b = true -> a = b.
Proof.
  intros [w s] [w' s'] H. unfold ity_eqb in H. cbn in H. apply andb_true_iff in H as [H1 H2]. apply Z.eqb_eq in H1. apply eqb_prop in H2. congruence.
Qed.

Lemma ty_eqb_true : forall a b, ty_eqb a b = true -> a = b.
Proof.
  induction a using ty_ind'; intros y E; destruct y; cbn in E; try discriminate E; try reflexivity;
    try (apply ity_eqb_true in E; congruence); try (apply table_eqb_true in E; congruence);
    try (apply andb_true_iff in E as [E1 E2]);
    try (apply Nat.eqb_eq in E; congruence); try (apply Nat.eqb_eq in E1); try (apply eqb_prop in E1); try (f_equal; auto; fail).
  all: f_equal; match type of E with _ ?x = true => revert x E end; induction H as [|u us A F IH]; intros [|w ws] E; try discriminate E; try reflexivity; apply andb_true_iff in E as [E1 E2]; f_equal; [now apply A|now apply IH].
Qed.

(** The outcome of a reference. *)
Lemma ref_outcome : forall e root l s exc t old ctx loc st, find_member l "$ref" = Some (JStr s) ->
  deser e root (JObj l) exc (TShared t) old ctx loc st = read_ref root t (JStr s) old st.
Proof. intros e root l s exc t old ctx loc st F. rewrite deser_unfold. cbn [deser_step]. now rewrite F. Qed.

Lemma outcomes : forall root t s old st, handy root ->
  let r := read_ref root t (JStr s) old st in
  (~ (exists ns, refers (list_ascii_of_string s) ns)) /\ r = DUndef \/
  exists ns, refers (list_ascii_of_string s) ns /\
    ((forall place x, arrives root ns place x -> ref_get place_eqb (objects st) place = None) /\ r = DRet false st old \/
     exists place x o, arrives root ns place x /\ ref_get place_eqb (objects st) place = Some o /\
       (o_type o = t /\ r = DRet true st (VShared (o_address o) (o_content o)) \/ o_type o <> t /\ r = DUndef)).
Proof.
  intros root t s old st M. unfold read_ref. destruct (parse_reference (list_ascii_of_string s)) as [ts|] eqn:P.
  - right. apply parse_reference_exactly in P as (ns & R & ->). exists ns. split; [exact R|].
    destruct (pointer_get root (map make_token ns)) as [[place y]|] eqn:G.
    + apply get_arrives in G; [|exact M]. destruct (ref_get place_eqb (objects st) place) as [o|] eqn:Q.
      * right. exists place, y, o. repeat (split; [assumption|]). destruct (ty_eqb (o_type o) t) eqn:T; [left; apply ty_eqb_true in T; auto|right].
        split; [|reflexivity]. intros E. rewrite E, GraphProof.ty_eqb_refl in T. discriminate.
      * left. split; [|reflexivity]. intros p x A. apply get_arrives in A, G; try exact M. congruence.
    + left. split; [|reflexivity]. intros p x A. apply get_arrives in A; [congruence|exact M].
  - left. split; [|reflexivity]. now apply parse_reference_malformed.
Qed.

Lemma arrives_once : forall root ns p x q y, handy root -> arrives root ns p x -> arrives root ns q y -> p = q.
Proof. intros root ns p x q y M A B. apply get_arrives in A, B; try exact M. congruence. Qed.

(** C74: a text is a reference in one way at most. *)
Theorem C74_one : forall s ns ns', refers s ns -> refers s ns' -> ns = ns'.
Proof. exact refers_one. Qed.
Print Assumptions C74_one.

(** C74: an object with a reference is read as the shared object that has been read at the place
    the reference leads to, and in no other case... *)
Theorem C74_target : forall e root l s exc t old ctx loc st st' v, handy root -> find_member l "$ref" = Some (JStr s) ->
  deser e root (JObj l) exc (TShared t) old ctx loc st = DRet true st' v <->
  st' = st /\ exists ns place x o, refers (list_ascii_of_string s) ns /\ arrives root ns place x /\
    ref_get place_eqb (objects st) place = Some o /\ o_type o = t /\ v = VShared (o_address o) (o_content o).
Proof.
  intros e root l s exc t old ctx loc st st' v M F. rewrite (ref_outcome _ _ _ _ _ _ _ _ _ _ F).
  destruct (outcomes root t s old st M) as [[N ->]|(ns & R & [[H ->]|(p & x & o & A & G & [[T ->]|[T ->]])])]; split; try discriminate.
  - intros (_ & ns & p & x & o & R & _). destruct N. now exists ns.
  - intros (_ & ns' & p & x & o & R' & A & G & _). rewrite (C74_one _ _ _ R' R) in A. rewrite (H _ _ A) in G. discriminate.
  - intros E. injection E as <- <-. split; [reflexivity|]. exists ns, p, x, o. auto.
  - intros (-> & ns' & q & y & o' & R' & B & G' & T' & ->). rewrite (C74_one _ _ _ R' R) in B. rewrite <- (arrives_once _ _ _ _ _ _ M A B) in G'. congruence.
  - intros (_ & ns' & q & y & o' & R' & B & G' & T' & _). rewrite (C74_one _ _ _ R' R) in B. rewrite <- (arrives_once _ _ _ _ _ _ M A B) in G'. congruence.
Qed.
Print Assumptions C74_target.

(** C74: ... it fails quietly, and the pointer stays as it is, exactly if no shared object has
    been read there... *)
Theorem C74_unresolved : forall e root l s exc t old ctx loc st st' v, handy root -> find_member l "$ref" = Some (JStr s) ->
  deser e root (JObj l) exc (TShared t) old ctx loc st = DRet false st' v <->
  st' = st /\ v = old /\ exists ns, refers (list_ascii_of_string s) ns /\
    forall place x, arrives root ns place x -> ref_get place_eqb (objects st) place = None.
Proof.
  intros e root l s exc t old ctx loc st st' v M F. rewrite (ref_outcome _ _ _ _ _ _ _ _ _ _ F).
  destruct (outcomes root t s old st M) as [[N ->]|(ns & R & [[H ->]|(p & x & o & A & G & [[T ->]|[T ->]])])]; split; try discriminate.
  - intros (_ & _ & ns & R & _). destruct N. now exists ns.
  - intros E. injection E as <- <-. eauto.
  - intros (-> & -> & _). reflexivity.
  - intros (_ & _ & ns' & R' & H). rewrite <- (C74_one _ _ _ R R') in H. rewrite (H _ _ A) in G. discriminate.
  - intros (_ & _ & ns' & R' & H). rewrite <- (C74_one _ _ _ R R') in H. rewrite (H _ _ A) in G. discriminate.
Qed.
Print Assumptions C74_unresolved.

(** C74: ... and it is undefined exactly if the text is no reference or leads to an object of
    another type. *)
Theorem C74_undefined : forall e root l s exc t old ctx loc st, handy root -> find_member l "$ref" = Some (JStr s) ->
  deser e root (JObj l) exc (TShared t) old ctx loc st = DUndef <->
  ~ (exists ns, refers (list_ascii_of_string s) ns) \/
  exists ns place x o, refers (list_ascii_of_string s) ns /\ arrives root ns place x /\ ref_get place_eqb (objects st) place = Some o /\ o_type o <> t.
Proof.
  intros e root l s exc t old ctx loc st M F. rewrite (ref_outcome _ _ _ _ _ _ _ _ _ _ F).
  destruct (outcomes root t s old st M) as [[N ->]|(ns & R & [[H ->]|(p & x & o & A & G & [[T ->]|[T ->]])])]; split; try discriminate; auto.
  - intros [N|(ns' & p & x & o & R' & A & G & _)]; [destruct N; eauto|]. rewrite (C74_one _ _ _ R' R) in A. rewrite (H _ _ A) in G. discriminate.
  - intros [N|(ns' & q & y & o' & R' & B & G' & T')]; [destruct N; eauto|]. rewrite (C74_one _ _ _ R' R) in B. rewrite <- (arrives_once _ _ _ _ _ _ M A B) in G'. congruence.
  - intros _. right. exists ns, p, x, o. auto.
Qed.
Print Assumptions C74_undefined.

(** C74: the form of the references in a document does not matter, for every type that does
    not read them as strings. *)
Theorem C74_document : forall e t j j' obj, refs_only e t -> respelled "" j j' -> deserialize e t j obj = deserialize e t j' obj.
Proof.
  intros e t j j' obj O R. unfold deserialize. apply (deser_alike e t j j' R O j j' "" R t); [apply rt_refl|discriminate].
Qed.
Print Assumptions C74_document.

Theorem C74_document_throws : forall e t j j', refs_only e t -> respelled "" j j' -> deserialize_throw e t j = deserialize_throw e t j'.
Proof.
  intros e t j j' O R. unfold deserialize_throw. rewrite (deser_alike e t j j' R O j j' "" R t); [reflexivity|apply rt_refl|discriminate].
Qed.
Print Assumptions C74_document_throws.

(** C74: references in a URI fragment are not those of RFC 6901: a slash that is encoded
    belongs to a name, and a digit that is encoded after a tilde is refused. *)
Definition chars (s : string) : list ascii := list_ascii_of_string s.

Lemma a_percent : forall h l a b, hex_value h a -> hex_value l b -> percent ["%"%char; h; l] (byte (16 * a + b)).
Proof. intros h l a b H L. exists h, l, a, b. auto. Qed.

Lemma decoded_plain : forall d, ~ In "%"%char d -> decoded d d.
Proof. induction d as [|c d IH]; intros H; [constructor|]. apply decoded_char; [intros ->; apply H; now left|]. apply IH. intros I. apply H. now right. Qed.

Theorem C74_rfc_refuted :
  (exists s ns ns', rfc_refers (chars s) ns /\ refers (chars s) ns' /\ ns <> ns') /\
  exists s ns, rfc_refers (chars s) ns /\ (forall ns', ~ refers (chars s) ns') /\
    forall e root exc t old ctx loc st, deser e root (JObj [("$ref", JStr s)]) exc (TShared t) old ctx loc st = DUndef.
Proof.
  split.
  - exists "#/a%2Fb", [chars "a"; chars "b"], [chars "a/b"]. split; [|split; [|discriminate]].
    + exists (chars "/a%2Fb"), (chars "/a/b"). split; [reflexivity|]. split.
      * apply decoded_char; [discriminate|]. apply decoded_char; [discriminate|].
        apply (decoded_byte ["%"; "2"; "F"]%char "/"%char); [|apply decoded_plain; cbn; intuition discriminate].
        exists "2"%char, "F"%char, 2%Z, 15%Z. split; [|split; [|split; reflexivity]]; unfold hex_value; [change (code "2") with 50%Z|change (code "F") with 70%Z]; lia.
      * apply (steps_more plain (chars "a") (chars "a") (chars "/b")); [apply plain_char; try discriminate; constructor|].
        apply (steps_more plain (chars "b") (chars "b") []); [apply plain_char; try discriminate; constructor|constructor].
    + pose proof (parse_reference_exactly (chars "#/a%2Fb") (map make_token [chars "a/b"])) as [H _]. destruct H as (ns & R & E); [vm_compute; reflexivity|].
      apply tokens_names in E. now subst ns.
  - assert (N : forall ns', ~ refers (chars "#/~%30") ns').
    { intros ns' R. assert (P : parse_reference (chars "#/~%30") = None) by (vm_compute; reflexivity). apply parse_reference_malformed in P. apply P. now exists ns'. }
    exists "#/~%30", [chars "~"]. split; [|split; [exact N|]].
    + exists (chars "/~%30"), (chars "/~0"). split; [reflexivity|]. split.
      * do 2 (apply decoded_char; [discriminate|]). apply (decoded_byte ["%"; "3"; "0"]%char "0"%char); [|constructor].
        exists "3"%char, "0"%char, 3%Z, 0%Z. split; [|split; [|split; reflexivity]]; unfold hex_value; [change (code "3") with 51%Z|change (code "0") with 48%Z]; lia.
      * apply (steps_more plain (chars "~0") (chars "~") []); [apply plain_tilde; constructor|constructor].
    + intros. rewrite (ref_outcome _ _ _ "#/~%30") by reflexivity. reflexivity.
Qed.
Print Assumptions C74_rfc_refuted.

(** C74: with arrays that are larger still, an index that is out of range may lead to an
    element (the check for overflow in rapidjson::Pointer misses some). *)
Lemma nth_repeat : forall A (x : A) n k, k < n -> nth_error (repeat x n) k = Some x.
Proof. intros A x n. induction n as [|n IH]; intros [|k] H; try lia; cbn; [reflexivity|]. apply IH. lia. Qed.

Lemma wrapped : forall e n exc t ctx loc st old o, (705032704 < n)%N -> o_type o = t -> ref_get place_eqb (objects st) [N.to_nat 705032704] = Some o ->
  deser e (JArr (repeat JNull (N.to_nat n))) (JObj [("$ref", JStr "/5000000000")]) exc (TShared t) old ctx loc st = DRet true st (VShared (o_address o) (o_content o)).
Proof.
  intros e n exc t ctx loc st old o H T G. rewrite (ref_outcome _ _ _ "/5000000000") by reflexivity. unfold read_ref.
  assert (P : parse_reference (list_ascii_of_string "/5000000000") = Some [{| tok_name := chars "5000000000"; tok_index := Some 705032704%N |}]) by (vm_compute; reflexivity).
  rewrite P. clear P. revert G H. generalize 705032704%N. intros k G H. cbn [pointer_get tok_index]. rewrite repeat_length, N2Nat.id.
  destruct (N.leb_spec n k); [lia|]. rewrite nth_repeat by lia. rewrite G, T, GraphProof.ty_eqb_refl. reflexivity.
Qed.

Lemma not_there : forall n place x, (n <= 705032705)%N -> ~ arrives (JArr (repeat JNull (N.to_nat n))) [chars "5000000000"] place x.
Proof.
  intros n place x H A. assert (V : digits_value 0 (chars "5000000000") = 5000000000%Z) by reflexivity. revert A V. generalize (chars "5000000000"). intros w A V.
  inversion A as [|? k ? ? ? ? ? E I D _|]; subst.
  assert (K : k < List.length (repeat JNull (N.to_nat n))) by (apply nth_error_Some; congruence). rewrite repeat_length in K. lia.
Qed.

Theorem C74_index_refuted : exists root s ns, refers (chars s) ns /\ (forall place x, ~ arrives root ns place x) /\
  forall e exc t, exists st, forall old ctx loc, exists v, deser e root (JObj [("$ref", JStr s)]) exc (TShared t) old ctx loc st = DRet true st v.
Proof.
  exists (JArr (repeat JNull (N.to_nat 705032705))), "/5000000000", [chars "5000000000"]. split; [|split].
  - pose proof (parse_reference_exactly (chars "/5000000000") (map make_token [chars "5000000000"])) as [H _]. destruct H as (ns & R & E); [vm_compute; reflexivity|].
    apply tokens_names in E. now subst ns.
  - intros place x. apply not_there. lia.
  - intros e exc t. exists {| next_address := 1; objects := [([N.to_nat 705032704], {| o_type := t; o_address := 0; o_content := VNull |})] |}. intros old ctx loc. eexists.
    apply (wrapped e 705032705 exc t ctx loc _ old {| o_type := t; o_address := 0; o_content := VNull |}); [lia|reflexivity|]. cbn [objects ref_get]. unfold place_eqb.
    destruct (list_eq_dec Nat.eq_dec [N.to_nat 705032704] [N.to_nat 705032704]) as [_|N]; [reflexivity|now destruct N].
Qed.
Print Assumptions C74_index_refuted.

(** ** Examples *)

(** The names of some texts; the accent is the bytes C3 A9. *)
Definition names_of (s : string) : option (list string) := option_map (map (fun t => string_of_list_ascii (tok_name t))) (parse_reference (chars s)).

Example C74_example :
  names_of "#/%C3%A9/0" = names_of "/é/0" /\ names_of "#/a~1b/%7e0" = names_of "/a~1b/~0" /\ names_of "#" = Some [] /\ names_of "" = Some [] /\
  names_of "#/a%2Fb" = Some ["a/b"] /\ names_of "#/%C3" = None /\ names_of "#/%" = None /\ names_of "#a" = None /\ names_of "#/é" = None /\ names_of "#/a b" = None /\ names_of "a" = None.
Proof. repeat split; vm_compute; reflexivity. Qed.

Definition ex_pair (ref : string) : json := JObj [("n", JInt 1); ("a", JStr "x"); ("b", JObj [("$ref", JStr ref)])].

Lemma ex_only : refs_only ex_all (TClass 3).
Proof.
  assert (W : forall u t, reachable ex_all u t -> forall v, v = t -> In v [TClass 3; TInt int32; TShared TString; TString] -> In u [TClass 3; TInt int32; TShared TString; TString]).
  { intros u t R. induction R as [u t S|u|u w t R1 IH1 R2 IH2]; intros v -> I; [|exact I|].
    - cbn in I. destruct I as [<-|[<-|[<-|[<-|[]]]]]; cbn in S; intuition (subst; cbn; auto).
    - eapply IH1; [reflexivity|]. eapply IH2; [reflexivity|exact I]. }
  split.
  - intros o u R. eapply W in R; [|reflexivity|now left]. cbn in R. intuition discriminate.
  - intros c m R. eapply W in R; [|reflexivity|now left]. cbn in R. destruct R as [E|R]; [|intuition discriminate]. injection E as <-. cbn. intuition (subst; discriminate).
Qed.

Example C74_document_example :
  deserialize_throw ex_all (TClass 3) (ex_pair "/a") = Returned (VObj [VInt 1; VShared 0 (VStr "x"); VShared 0 (VStr "x")]) /\
  deserialize_throw ex_all (TClass 3) (ex_pair "#/%61") = deserialize_throw ex_all (TClass 3) (ex_pair "/a") /\
  deserialize_throw ex_all (TClass 3) (ex_pair "#/c") = Returned (VObj [VInt 1; VShared 0 (VStr "x"); VPtrNull]) /\
  deserialize_throw ex_all (TClass 3) (ex_pair "#/%6") = TUndef.
Proof.
  split; [vm_compute; reflexivity|]. split; [|split; vm_compute; reflexivity]. apply C74_document_throws; [exact ex_only|].
  assert (R : forall s, names_of s = Some ["a"] -> refers (chars s) [chars "a"]).
  { intros s H. unfold names_of in H. destruct (parse_reference (chars s)) as [ts|] eqn:P; [|discriminate]. apply parse_reference_exactly in P as (ns & R & ->). cbn in H.
    rewrite map_map in H. cbn in H. destruct ns as [|n [|? ?]]; try discriminate H. injection H as H. apply (f_equal list_ascii_of_string) in H.
    rewrite list_ascii_of_string_of_list_ascii in H. now rewrite H in R. }
  apply respelled_object. constructor; [split; [reflexivity|constructor]|]. constructor; [split; [reflexivity|constructor]|]. constructor; [|constructor]. split; [reflexivity|].
  apply respelled_object. constructor; [|constructor]. split; [reflexivity|]. apply (respelled_ref _ _ [chars "a"]); apply R; vm_compute; reflexivity.
Qed.

Example C74_target_example :
  arrives (ex_pair "#/a") [chars "a"] [1] (JStr "x") /\ arrives (JArr [JNull; JArr [JBool true]]) [chars "1"; chars "0"] [1; 0] (JBool true) /\ handy (ex_pair "#/a").
Proof.
  split; [|split].
  - apply (arrives_member [("n", JInt 1)] "a" (JStr "x")); [cbn; intuition discriminate|constructor].
  - apply arrives_element with (JArr [JBool true]); [reflexivity| |reflexivity|].
    { repeat split; try discriminate. repeat constructor; vm_compute; discriminate. }
    apply arrives_element with (JBool true); [reflexivity| |reflexivity|constructor]. repeat split; try discriminate. repeat constructor; vm_compute; discriminate.
  - apply handy_object. repeat constructor; try discriminate.
Qed.
