(** What the schema accepts can be read, with variants and shared pointers. *)
From Coq Require Import List Arith ZArith NArith Ascii String Bool Lia Relations.
From Verif Require Import Base Float NumericModel NumericSpec EnumModel RefsModel Json PathModel Types DeserializeModel SerializeModel DenoteSpec DocSpec RoundSpec DenoteProof DenoteFacts
  SchemaModel SchemaSpec SchemaProof SchemaGenSpec SchemaReadSpec SchemaReadProof SafetySpec SafetyProof CulpritSpec.
Import ListNotations.
Local Open Scope string_scope.
Local Open Scope nat_scope.

Lemma no_refs_inside : forall j, no_refs j = true -> forall l, inside (JObj l) j -> find_member l "$ref" = None.
Proof.
  intros j N l I. revert N. induction I as [|x js In I IH|k x js In I IH]; intros N.
  - cbn in N. destruct (find_member l "$ref"); [discriminate|reflexivity].
  - apply IH. cbn in N. rewrite forallb_forall in N. now apply N.
  - apply IH. cbn in N. apply andb_true_iff in N. destruct N as [_ N]. rewrite forallb_forall in N. exact (N (k, x) In).
Qed.

Lemma how_many_some : forall A (f : A -> option bool) l n, how_many (map f l) = Some (S n) -> exists x, In x l /\ f x = Some true.
Proof.
  intros A f l. induction l as [|x l IH]; intros n H; [discriminate|]. unfold how_many in *. cbn in H.
  destruct (f x) as [[|]|] eqn:E; [exists x; split; [now left|exact E]| |discriminate].
  destruct (fold_right _ (Some 0) (map f l)) as [k|]; [|discriminate]. injection H as ->. destruct (IH n eq_refl) as (y & I & Y). exists y. split; [now right|exact Y].
Qed.

Lemma length_is : forall n l, at_most (JNat n) (JInt (Z.of_nat (List.length l))) = true -> at_most (JInt (Z.of_nat (@List.length json l))) (JNat n) = true -> List.length l = n.
Proof. intros n l A B. apply at_most_int in A, B. lia. Qed.

Section All.
Variable e : env.
Variable T : ty.
Variable doc : json.
Hypothesis Hsafe : ~ late e T doc /\ ~ astray e T doc /\ ~ uncompiled e T.

Notation known := (known e T).

Definition wins (f : reader) : Prop := forall old ctx loc st, known st -> exists st' v, f old ctx loc st = DRet true st' v /\ known st'.
Definition returns (f : reader) : Prop := forall old ctx loc st, known st -> exists ok st' v, f old ctx loc st = DRet ok st' v /\ known st'.

Lemma alternative_returns : forall j t, inside j doc -> reachable e t T -> returns (deser e doc j false t).
Proof.
  intros j t I R old ctx loc st K. pose proof (deser_safe e T doc j I t R false old ctx loc st K) as S.
  pose proof (no_throw e doc j t old ctx loc st) as N. destruct Hsafe as (A & B & C).
  destruct (deser e doc j false t old ctx loc st) as [ok st' v|why p| |]; cbn in S; [eauto|now destruct (N why p)|tauto|tauto].
Qed.

Lemma items_win : forall init add fs, Forall wins fs -> forall k acc ctx loc st, known st ->
  exists st' v, read_items init add fs k acc ctx loc st = DRet true st' v /\ known st'.
Proof.
  intros init add fs F. induction F as [|f fs A F IH]; intros k acc ctx loc st K; cbn; [eauto|].
  destruct (A init (at_index ctx (N.of_nat k)) (loc ++ [k])%list st K) as (s & x & -> & K'). now apply IH.
Qed.

Lemma entries_win : forall init fs, Forall (fun p : string * reader => wins (snd p)) fs -> forall k acc ctx loc st, known st ->
  exists st' v, read_entries init fs k acc ctx loc st = DRet true st' v /\ known st'.
Proof.
  intros init fs F. induction F as [|[n f] fs A F IH]; intros k acc ctx loc st K; cbn; [eauto|].
  destruct (A init (at_name ctx n) (loc ++ [k])%list st K) as (s & x & E & K'). cbn in E. rewrite E. now apply IH.
Qed.

Lemma tuple_wins : forall fs, Forall wins fs -> forall k olds ctx loc st, known st ->
  exists l st', read_tuple fs k olds ctx loc st = (true, l, None, st') /\ known st'.
Proof.
  intros fs F. induction F as [|f fs A F IH]; intros k olds ctx loc st K; cbn [read_tuple]; [eauto|].
  destruct (A (hd VIndet olds) (at_index ctx (N.of_nat k)) (loc ++ [k])%list st K) as (s & x & -> & K').
  destruct (IH (S k) (tl olds) ctx loc s K') as (l & s' & -> & K2). eauto.
Qed.

Lemma variant_wins : forall fs, Forall (fun p : val * reader => returns (snd p)) fs -> Exists (fun p : val * reader => wins (snd p)) fs ->
  forall i ctx loc st, known st -> exists n x st', read_variant fs i ctx loc st = (Some (n, x), None, st') /\ known st'.
Proof.
  intros fs F. induction F as [|[init f] fs A F IH]; intros X i ctx loc st K; [inversion X|]. cbn [read_variant].
  destruct (A init ctx loc st K) as (ok & s & x & E & K'). cbn in E. rewrite E. destruct ok; [eauto|].
  inversion X as [p q W|p q W]; subst; [|now apply IH]. destruct (W init ctx loc st K) as (s2 & x2 & E2 & _). cbn in E2. congruence.
Qed.

Lemma members_win : forall exc fs ms,
  (forall m, In m ms -> match find_fun fs 0 (m_name m) with Some (_, f) => wins (f exc (m_ty m)) | None => m_kind m = MOptional end) ->
  forall r olds ctx loc st, known st ->
  exists l st', read_members e exc fs ms r true true olds ctx loc st = (true, l, None, st') /\ known st'.
Proof.
  intros exc fs ms. induction ms as [|m ms IH]; intros F r olds ctx loc st K; [cbn; eauto|]. cbn [read_members].
  assert (A : exists st' v, read_member e exc fs m true (hd VIndet olds) ctx loc st = DRet true st' v /\ known st').
  { unfold read_member. specialize (F m (or_introl eq_refl)). destruct (find_fun fs 0 (m_name m)) as [[k f]|].
    - destruct (m_kind m); [apply F; exact K|apply F; exact K|].
      destruct (F (dinit e (m_ty m)) (at_name ctx (m_name m)) (loc ++ [k])%list st K) as (s & x & -> & K'). eauto.
    - rewrite F. eauto. }
  destruct A as (s & x & -> & K'). specialize (IH (fun m I => F m (or_intror I))).
  destruct r; match goal with |- context [read_members e exc fs ms ?r true true ?o ctx loc s] => destruct (IH r o ctx loc s K') as (l & s' & -> & K2) end; eauto.
Qed.

Variable tn : nat -> string.
Variable D : definitions.
Variable root : json.
Hypothesis Hdef : forall c s, def_find D (tn c) = Some s -> described e tn D true (TClass c) s.
Hypothesis Hroot : forall c s, def_find D (tn c) = Some s -> resolve root ("#/definitions/" ++ tn c) = Some (render s).
Hypothesis Htime : ~ reachable e TTime T /\ ~ reachable e TDate T.
Hypothesis Hreal : real_classes e.
Hypothesis Htick : (0 < tick e)%Z.
Hypothesis Hnames : named e.
Hypothesis Hrefs : forall l u, reachable e (TShared u) T -> inside (JObj l) doc -> find_member l "$ref" = None.

Ltac keywords V :=
  rewrite validate_members in V; cbn [map fst snd] in V; apply all_of_true in V;
  repeat match type of V with
  | Forall _ (_ :: _) => let K := fresh "K" in let T := fresh "T" in pose proof (Forall_inv V) as K; pose proof (Forall_inv_tail V) as T; clear V; rename T into V; cbn beta in K
  end; clear V.

Lemma scalar_wins : forall t s m j exc, scalar_schema t = Some s -> reachable e t T -> real_ints t = true ->
  validate (S m) root (render s) j = Some true -> whole_as_integers j = true -> wins (deser e doc j exc t).
Proof.
  intros t s m j exc Sc R W V Wh old ctx loc st K.
  assert (Ti : timeless t = true) by (destruct Htime; destruct t; try discriminate Sc; try reflexivity; contradiction).
  destruct (scalar_read e tn D root Hdef Hroot t s m j Sc Ti V Wh old) as (v & Dv).
  exists st, v. split; [|exact K]. apply (scalar_complete e doc Htick j t W); [|exact Dv]. destruct t; try discriminate Sc; exact I.
Qed.

Lemma accepted_wins : forall m t i s j exc, described e tn D i t s -> reachable e t T -> inside j doc -> real_ints t = true ->
  validate m root (render s) j = Some true -> whole_as_integers j = true -> wins (deser e doc j exc t).
Proof.
  induction m as [|m IH]; [discriminate|].
  assert (List1 : forall t s l exc, described e tn D false t s -> reachable e t T -> inside (JArr l) doc -> real_ints t = true -> whole_as_integers (JArr l) = true ->
    all_of (map (validate m root (render s)) l) = Some true -> Forall wins (map (fun f => f exc t) (map (deser e doc) l))).
  { intros t s l exc Ds R I W Wh V. rewrite map_map. apply Forall_forall. intros f F. apply in_map_iff in F. destruct F as (j & <- & J).
    eapply IH; eauto; [exact (element_inside doc _ _ J I)|exact (all_map _ _ _ V j J)|now apply (whole_item l)]. }
  assert (Parts : forall ts ss l exc, Forall2 (described e tn D false) ts ss -> (forall t, In t ts -> reachable e t T) -> inside (JArr l) doc -> forallb real_ints ts = true ->
    whole_as_integers (JArr l) = true -> List.length l = List.length ts ->
    all_of (pairwise (validate m root) (map render ss) l) = Some true ->
    exists fs, apply_types (map (fun f => f exc) (map (deser e doc) l)) ts = Some fs /\ Forall wins fs).
  { intros ts ss l exc F R I W Wh L V. apply pairwise_parts in V; [|rewrite map_length, L; clear -F; induction F; cbn; auto].
    assert (Q : Forall2 (fun t j => wins (deser e doc j exc t)) ts l).
    { apply (described_pieces e tn D root ts ss l m F V). intros t s j It Ij Ds Vj. rewrite forallb_forall in W.
      eapply IH; eauto; [exact (element_inside doc _ _ Ij I)|now apply (whole_item l)]. }
    clear -Q. induction Q as [|t j ts l A Q IHq]; [exists []; split; [reflexivity|constructor]|]. destruct IHq as (fs & E & F).
    exists (deser e doc j exc t :: fs). split; [cbn; now rewrite E|now constructor]. }
  induction t using ty_ind'; intros i s j exc Ds R I W V Wh; inversion Ds; subst; try (eapply scalar_wins; eassumption); try discriminate;
    try (match goal with H : scalar_schema _ = Some _ |- _ => discriminate H end); intros old ctx loc st K; rewrite deser_unfold; cbn [deser_step].
  - cbn [render opt app] in V. keywords V. rewrite kw_type in K0. injection K0 as K0. destruct (is_array j K0) as (l & ->). rewrite kw_items in K1. cbn in K1.
    apply items_win; [|exact K]. eapply List1; eauto. exact (part_reachable e T t (TVector t) (or_introl eq_refl) R).
  - cbn [render opt app] in V. keywords V. rewrite kw_type in K0. injection K0 as K0. destruct (is_array j K0) as (l & ->). rewrite kw_items in K1. cbn in K1.
    rewrite kw_min in K2. rewrite kw_max in K3. injection K2 as K2. injection K3 as K3. assert (L := length_is n l K2 K3). rewrite L, Nat.eqb_refl. cbn [negb].
    assert (F : Forall wins (map (fun f => f exc t) (map (deser e doc) l))) by (eapply List1; eauto; exact (part_reachable e T t (TArray n t) (or_introl eq_refl) R)).
    unfold read_array. destruct (items_win (dinit e t) push_back _ F 0 [] ctx loc st K) as (s' & v & -> & K'). eauto.
  - cbn [render opt app] in V. keywords V. rewrite kw_type in K0. injection K0 as K0. destruct (is_array j K0) as (l & ->). rewrite kw_items in K1. cbn in K1.
    apply items_win; [|exact K]. eapply List1; eauto. exact (part_reachable e T t (TSet t) (or_introl eq_refl) R).
  - cbn [render opt app] in V. keywords V. rewrite kw_type in K0. injection K0 as K0. destruct (is_object j K0) as (l & ->). rewrite kw_additional in K1. cbn in K1.
    apply entries_win; [|exact K]. rewrite map_map. apply Forall_forall. intros f F. apply in_map_iff in F. destruct F as ([k x] & <- & J). cbn.
    eapply IH; eauto; [exact (part_reachable e T t (TMap o t) (or_introl eq_refl) R)|exact (member_inside doc _ _ _ J I)|exact (all_map _ _ _ K1 (k, x) J)|apply (whole_member l Wh k x J)].
  - cbn [render opt app] in V. keywords V. rewrite kw_type in K0. injection K0 as K0. destruct (is_array j K0) as (l & ->). rewrite kw_prefix in K1.
    rewrite kw_min in K2. rewrite kw_max in K3. injection K2 as K2. injection K3 as K3. assert (L := length_is 2 l K2 K3).
    match goal with H : Forall2 _ [t1; t2] _ |- _ => destruct (Parts _ _ l exc H) as (fs & E & F); auto end.
    + intros t It. exact (part_reachable e T t (TPair t1 t2) It R).
    + cbn in W |- *. now rewrite andb_true_r.
    + rewrite E. destruct (tuple_wins fs F 0 (parts_of old) ctx loc st K) as (vs & s' & -> & K'). cbn. eauto.
  - cbn [render opt app] in V. keywords V. rewrite kw_type in K0. injection K0 as K0. destruct (is_array j K0) as (l & ->). rewrite kw_prefix in K1.
    rewrite kw_min in K2. rewrite kw_max in K3. injection K2 as K2. injection K3 as K3. assert (L := length_is (List.length ts) l K2 K3).
    match goal with H : Forall2 _ ts _ |- _ => destruct (Parts _ _ l exc H) as (fs & E & F); auto end.
    + intros t It. exact (part_reachable e T t (TTuple ts) It R).
    + rewrite E. destruct (tuple_wins fs F 0 (parts_of old) ctx loc st K) as (vs & s' & -> & K'). cbn. eauto.
  - cbn [render] in V. keywords V. rewrite kw_one in K0. destruct (how_many _) as [n|] eqn:Hm; [|discriminate]. injection K0 as K0. destruct n as [|[|n]]; try discriminate K0.
    rewrite map_map in Hm. destruct (how_many_some _ _ _ _ Hm) as (sx & Is & Vs).
    match goal with H : Forall2 _ ts ss |- _ => rename H into F2 end.
    destruct (variant_wins (map (fun u => (dinit e u, deser e doc j false u)) ts)) with (i := 0) (ctx := ctx) (loc := loc) (st := st) as (n & x & s' & -> & K'); [| |exact K|eauto].
    + apply Forall_forall. intros p Ip. apply in_map_iff in Ip. destruct Ip as (u & <- & Iu). cbn. apply alternative_returns; [exact I|exact (part_reachable e T u (TVariant ts) Iu R)].
    + assert (Q : exists u, In u ts /\ described e tn D false u sx).
      { clear -F2 Is. induction F2 as [|u s0 ts ss A F IHF]; [destruct Is|]. destruct Is as [<-|Is]; [exists u; split; [now left|exact A]|].
        destruct (IHF Is) as (u' & Iu & Du). exists u'. split; [now right|exact Du]. }
      destruct Q as (u & Iu & Du). apply Exists_exists. exists (dinit e u, deser e doc j false u). split; [now apply (in_map (fun u => (dinit e u, deser e doc j false u)))|]. cbn.
      cbn in W. rewrite forallb_forall in W. eapply IH; eauto. exact (part_reachable e T u (TVariant ts) Iu R).
  - cbn [render opt app] in V. keywords V. rewrite kw_type in K0. injection K0 as K0. destruct (is_object j K0) as (l & ->).
    rewrite kw_properties in K1. rewrite kw_required in K2. injection K2 as K2.
    match goal with F : Forall2 _ _ props, R : forall n, In n req <-> _ |- _ => rename F into Fm; rename R into Rq end.
    destruct (members_win exc (map (fun p => (fst p, deser e doc (snd p))) l) (c_members (class_of e c))) with (r := c_root (class_of e c)) (olds := parts_of old) (ctx := ctx) (loc := loc) (st := st) as (vs & s' & -> & K'); [|exact K|cbn; eauto].
    intros x Ix. pose proof (find_fun_member _ (deser e doc) l (m_name x)) as X. destruct (find_prop _ _ _ _ _ x Fm (Hnames c) Ix) as (sx & Fx & Dx).
    destruct (find_fun _ 0 (m_name x)) as [[k f]|].
    + destruct X as (y & Fy & ->). apply find_named in Fy. assert (V := all_map _ _ _ K1 _ Fy). cbn [fst snd] in V. rewrite find_rendered, Fx in V. cbn [option_map] in V.
      eapply IH; [exact Dx| |exact (member_inside doc _ _ _ Fy I)| |exact V|exact (whole_member l Wh _ _ Fy)].
      * apply (part_reachable e T (m_ty x) (TClass c)); [|exact R]. cbn. now apply in_map.
      * pose proof (Hreal c) as Y. rewrite forallb_forall in Y. now apply Y.
    + destruct (m_kind x) eqn:Kk; [| |reflexivity]; exfalso.
      * rewrite forallb_forall in K2. assert (J : In (m_name x) req) by (apply Rq; eauto). specialize (K2 (JStr (m_name x)) (in_map JStr _ _ J)). cbn in K2.
        apply existsb_exists in K2. destruct K2 as ([k y] & Iy & Ek). apply String.eqb_eq in Ek. cbn in Ek. subst k. clear -X Iy. induction l as [|[k z] l IHl]; [destruct Iy|]. cbn in X.
        destruct (String.eqb_spec k (m_name x)) as [->|N]; [discriminate|]. destruct Iy as [Iy|Iy]; [congruence|auto].
      * clear -Fm Ix Kk. induction Fm as [|a b la lb (A & _) F IHF]; [destruct Ix|]. destruct Ix as [<-|Ix]; auto.
  - cbn [render] in V. keywords V. rewrite kw_ref in K0. match goal with H : def_find D (tn c) = Some ?x |- _ => rewrite (Hroot _ _ H) in K0;
      destruct (IH (TClass c) true x j exc (Hdef _ _ H) R I W K0 Wh old ctx loc st K) as (s' & v & E & K') end.
    rewrite deser_unfold in E. cbn [deser_step] in E. eauto.
  - match goal with H : described _ _ _ true t _ |- _ => destruct (IHt true s j exc H) with (old := vinit e t) (ctx := ctx) (loc := loc) (st := st) as (s' & v & -> & K'); auto end.
    + exact (part_reachable e T t (TUnique t) (or_introl eq_refl) R).
    + eauto.
  - assert (N : match j with JObj l => find_member l "$ref" | _ => None end = None).
    { destruct j; try reflexivity. exact (Hrefs l t R I). }
    rewrite N. match goal with H : described _ _ _ true t _ |- _ => destruct (IHt true s j exc H) with (old := vinit e t) (ctx := ctx) (loc := loc) (st := new_address st) as (s' & v & -> & K'); auto end.
    + exact (part_reachable e T t (TShared t) (or_introl eq_refl) R).
    + cbn. do 2 eexists. split; [reflexivity|]. unfold SafetyProof.known in *. cbn. unfold ref_put. rewrite Forall_forall in *.
      intros p Ip. destruct (ref_get place_eqb (objects s') loc); [auto|]. try (destruct Ip as [<-|Ip]); try (apply in_app_or in Ip; destruct Ip as [Ip|[<-|[]]]); cbn; auto.
Qed.
End All.

Theorem schema_read_all : forall e tn, (forall c c', tn c = tn c' -> c = c') -> (forall c, forallb ordinary_char (list_ascii_of_string (tn c)) = true) ->
  named e -> real_classes e -> (0 < tick e)%Z -> forall t n schema d j, real_ints t = true -> no_pointer e t -> ~ reachable e TTime t /\ ~ reachable e TDate t ->
  (forall u, ~ reachable e (TShared u) t) \/ no_refs j = true ->
  schema_document e tn n t = GOk schema d -> accepts schema j -> whole_as_integers j = true ->
  forall exc old, exists st v, deser e j j exc t old [] [] start = DRet true st v.
Proof.
  intros e tn Inj Ord Hn Hr Tk t n schema d j Ri Np Ti Sh G (k & A) W exc old. unfold schema_document in G.
  destruct (gen e tn n true t []) as [s d0| |] eqn:E; cbn [gbind] in G; try discriminate. injection G as <- <-.
  assert (S0 : def_sorted []) by constructor.
  destruct (gen_describes e tn d0 Inj n true t [] s d0 S0) as [Sd Ds]; [intros c s' F; discriminate F|exact E|intros ? ?; auto|].
  destruct (render_members s) as (kws & Rk & Nk). rewrite Rk in A. cbn [members_of] in A.
  set (head := match d0 with [] => [] | _ => [("definitions", JObj (map (fun p => (fst p, render (snd p))) d0))] end) in A.
  set (root := JObj (("$schema", JStr schema_version) :: head ++ kws)%list) in A.
  specialize (A (S k) (le_S _ _ (le_n _))). unfold root at 2 in A. rewrite validate_members in A.
  assert (Fk : forall k, k <> "$schema" -> k <> "definitions" -> find_member (("$schema", JStr schema_version) :: head ++ kws) k = find_member kws k).
  { intros k0 N1 N2. cbn [find_member]. destruct (String.eqb_spec "$schema" k0); [congruence|]. unfold head. destruct d0; [reflexivity|].
    cbn [app find_member]. destruct (String.eqb_spec "definitions" k0); [congruence|reflexivity]. }
  assert (Refs : forall l u, reachable e (TShared u) t -> inside (JObj l) j -> find_member l "$ref" = None).
  { intros l u R I. destruct Sh as [Sh|Sh]; [exfalso; exact (Sh u R)|exact (no_refs_inside j Sh l I)]. }
  assert (Safe : ~ late e t j /\ ~ astray e t j /\ ~ uncompiled e t).
  { split; [|split].
    - intros (x & _ & [[X _]|[X _]]); tauto.
    - intros [[u R] (l & x & I & F & _)]. rewrite (Refs l u R I) in F. discriminate.
    - intros [u R]. exact (Np u R). }
  destruct (accepted_wins e t j Safe tn d0 root) with (m := S k) (t := t) (i := true) (s := s) (j := j) (exc := exc) (old := old) (ctx := @nil segment) (loc := @nil nat) (st := start)
    as (st & v & X & _); auto.
  - intros c s' F. apply (ordinary_resolve _ d0); auto. unfold head. destruct d0 as [|x d0]; [discriminate F|]. reflexivity.
  - apply rt_refl.
  - constructor.
  - rewrite Rk, validate_members. apply all_map_true. intros [q x] I. cbn [fst snd].
    rewrite (keyword_siblings _ _ kws (("$schema", JStr schema_version) :: head ++ kws)); [|symmetry; apply Fk; discriminate|symmetry; apply Fk; discriminate].
    apply (all_map _ _ _ A (q, x)). right. apply in_or_app. now right.
  - constructor.
  - eauto.
Qed.
