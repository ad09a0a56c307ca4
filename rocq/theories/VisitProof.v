(** The calls that the deserializers make are those for the parts of the document. *)
From Coq Require Import Arith ZArith NArith Ascii String Bool Lia Relations List.
From Verif Require Import Base Json PathModel Types SerializeModel DeserializeModel DenoteProof SchemaGenSpec SafetySpec VisitModel VisitSpec.
Import ListNotations.

(** * Unfolding *)

Definition traced_step (e : env) (root : json) (j : json) (exc : bool) (t : ty) : treader := fun old ctx loc st =>
  let elems := match j with JArr l => map (traced e root) l | _ => [] end in
  let mems := match j with JObj l => map (fun p => (fst p, traced e root (snd p))) l | _ => [] end in
  called [(loc, t)]
  match t with
  | TVector u =>
    match j with
    | JArr _ => t_items (dinit e u) push_back (map (fun f => f exc u) elems) 0 [] ctx loc st
    | _ => (reject exc (WrongType "array") old ctx st, [])
    end
  | TSet u =>
    match j with
    | JArr _ => t_items (dinit e u) (set_insert (less e u)) (map (fun f => f exc u) elems) 0 [] ctx loc st
    | _ => (reject exc (WrongType "array") old ctx st, [])
    end
  | TArray n u =>
    match j with
    | JArr l =>
      if negb (Nat.eqb (List.length l) n) then (reject exc (WrongSize n (List.length l)) old ctx st, [])
      else t_array (dinit e u) old (map (fun f => f exc u) elems) ctx loc st
    | _ => (reject exc (WrongType "array") old ctx st, [])
    end
  | TMap _ u =>
    match j with
    | JObj _ => t_entries (dinit e u) (map (fun p => (fst p, snd p exc u)) mems) 0 [] ctx loc st
    | _ => (reject exc (WrongType "object") old ctx st, [])
    end
  | TPair a b =>
    match j with
    | JArr l =>
      match apply_types (map (fun f => f exc) elems) [a; b] with
      | None => (reject exc (WrongSize 2 (List.length l)) old ctx st, [])
      | Some fs => let (x, c) := t_tuple fs 0 (parts_of old) ctx loc st in (finish_tuple x, c)
      end
    | _ => (reject exc (WrongType "array") old ctx st, [])
    end
  | TTuple ts =>
    match j with
    | JArr l =>
      match apply_types (map (fun f => f exc) elems) ts with
      | None => (reject exc (WrongSize (List.length ts) (List.length l)) old ctx st, [])
      | Some fs => let (x, c) := t_tuple fs 0 (parts_of old) ctx loc st in (finish_tuple x, c)
      end
    | _ => (reject exc (WrongType "array") old ctx st, [])
    end
  | TVariant ts =>
    match t_variant (map (fun u => (dinit e u, traced e root j false u)) ts) 0 ctx loc st with
    | ((Some (i, x), _, st), c) => (DRet true st (VVariant i x), c)
    | ((None, Some r, _), c) => (r, c)
    | ((None, None, st), c) => (reject exc NoAlternative old ctx st, c)
    end
  | TClass c =>
    match j with
    | JObj _ =>
      let (x, calls) := t_members e exc mems (c_members (class_of e c)) (c_root (class_of e c)) true true
                          (parts_of old) ctx loc st in
      (finish_object x, calls)
    | _ => (reject exc (WrongType "object") old ctx st, [])
    end
  | TUnique u =>
    match traced e root j exc u (vinit e u) ctx loc st with
    | (DRet true st x, c) => (DRet true st (VPtr x), c)
    | (DRet false st _, c) => (DRet false st old, c)
    | x => x
    end
  | TShared u =>
    match (match j with JObj l => find_member l "$ref" | _ => None end) with
    | Some target => (read_ref root u target old st, [])
    | None =>
      let (r, c) := traced e root j exc u (vinit e u) ctx loc (new_address st) in
      (register_shared u loc (next_address st) r, c)
    end
  | TPtr _ => (DOutside, [])
  | _ => t_scalar e exc t j old ctx loc st
  end.

Lemma traced_unfold : forall e root j exc t old ctx loc st,
  traced e root j exc t old ctx loc st = traced_step e root j exc t old ctx loc st.
Proof. intros e root j exc t old ctx loc st. destruct j, t; reflexivity. Qed.

(** * The record of calls changes nothing *)

Definition erases (f : treader) (g : reader) : Prop := forall old ctx loc st, fst (f old ctx loc st) = g old ctx loc st.

Lemma items_same : forall init add fs gs, Forall2 erases fs gs -> forall k acc ctx loc st,
  fst (t_items init add fs k acc ctx loc st) = read_items init add gs k acc ctx loc st.
Proof.
  intros init add fs gs F. induction F as [|f g fs gs H F IH]; intros k acc ctx loc st; [reflexivity|]. cbn.
  rewrite <- H. destruct (f init (at_index ctx (N.of_nat k)) (loc ++ [k]) st) as [[[|] s x|why p| |] c]; cbn; auto.
Qed.

Lemma entries_same : forall init fs gs, Forall2 (fun f g => fst f = fst g /\ erases (snd f) (snd g)) fs gs -> forall k acc ctx loc st,
  fst (t_entries init fs k acc ctx loc st) = read_entries init gs k acc ctx loc st.
Proof.
  intros init fs gs F. induction F as [|[n f] [n' g] fs gs [N H] F IH]; intros k acc ctx loc st; [reflexivity|]. cbn in *. subst n'.
  rewrite <- H. destruct (f init (at_name ctx n) (loc ++ [k]) st) as [[[|] s x|why p| |] c]; cbn; auto.
Qed.

Lemma tuple_same : forall fs gs, Forall2 erases fs gs -> forall k olds ctx loc st,
  fst (t_tuple fs k olds ctx loc st) = read_tuple gs k olds ctx loc st.
Proof.
  intros fs gs F. induction F as [|f g fs gs H F IH]; intros k olds ctx loc st; [reflexivity|]. cbn.
  rewrite <- H. destruct (f (hd VIndet olds) (at_index ctx (N.of_nat k)) (loc ++ [k]) st) as [[[|] s x|why p| |] c]; cbn; auto.
  rewrite <- IH. now destruct (t_tuple fs (S k) (tl olds) ctx loc s) as [[[[b l] stop] s'] c'].
Qed.

Lemma variant_same : forall fs gs, Forall2 (fun f g => fst f = fst g /\ erases (snd f) (snd g)) fs gs -> forall i ctx loc st,
  fst (t_variant fs i ctx loc st) = read_variant gs i ctx loc st.
Proof.
  intros fs gs F. induction F as [|[n f] [n' g] fs gs [N H] F IH]; intros k ctx loc st; [reflexivity|]. cbn in *. subst n'.
  rewrite <- H. destruct (f n ctx loc st) as [[[|] s x|why p| |] c]; cbn; auto.
Qed.

Lemma find_same : forall A B (R : A -> B -> Prop) (fs : list (string * A)) (gs : list (string * B)),
  Forall2 (fun f g => fst f = fst g /\ R (snd f) (snd g)) fs gs -> forall k name,
  match find_fun fs k name, find_fun gs k name with
  | Some (i, f), Some (i', g) => i = i' /\ R f g
  | None, None => True
  | _, _ => False
  end.
Proof.
  intros A B R fs gs F. induction F as [|[n f] [n' g] fs gs [N H] F IH]; intros k name; [exact I|]. cbn in *. subst n'.
  destruct (String.eqb n name); auto. apply IH.
Qed.

Lemma members_same : forall e exc fs gs ms,
  Forall2 (fun f g => fst f = fst g /\ (forall t, erases (snd f exc t) (snd g exc t))) fs gs -> forall r seen flag olds ctx loc st,
  fst (t_members e exc fs ms r seen flag olds ctx loc st) = read_members e exc gs ms r seen flag olds ctx loc st.
Proof.
  intros e exc fs gs ms F. induction ms as [|m ms IH]; intros r seen flag olds ctx loc st; [reflexivity|]. cbn [t_members read_members].
  assert (M : fst (t_member e exc fs m flag (hd VIndet olds) ctx loc st) = read_member e exc gs m flag (hd VIndet olds) ctx loc st).
  { unfold t_member, read_member. pose proof (find_same _ _ (fun f g => forall t, erases (f exc t) (g exc t)) _ _ F 0 (m_name m)) as S.
    destruct (find_fun fs 0 (m_name m)) as [[k f]|], (find_fun gs 0 (m_name m)) as [[k' g]|]; try contradiction.
    - destruct S as [<- S]. destruct (m_kind m); try apply S. rewrite <- S.
      now destruct (f exc (m_ty m) _ _ _ _) as [[ok s x|why p| |] c].
    - now destruct (m_kind m). }
  rewrite <- M. destruct (t_member e exc fs m flag (hd VIndet olds) ctx loc st) as [[ok s x|why p| |] c]; cbn; auto.
  destruct r; rewrite <- IH;
  match goal with |- context [t_members ?a ?b ?c ?d ?e ?f ?g ?h ?i ?j ?k] => now destruct (t_members a b c d e f g h i j k) as [[[[b' l] stop] s'] c'] end.
Qed.

Lemma types_same : forall (fs : list (ty -> treader)) (gs : list (ty -> reader)), Forall2 (fun f g => forall t, erases (f t) (g t)) fs gs ->
  forall ts, match apply_types fs ts, apply_types gs ts with
             | Some a, Some b => Forall2 erases a b
             | None, None => True
             | _, _ => False
             end.
Proof.
  intros fs gs F. induction F as [|f g fs gs H F IH]; intros [|t ts]; cbn; auto.
  specialize (IH ts). destruct (apply_types fs ts), (apply_types gs ts); auto.
Qed.

Lemma map_rel : forall A B C (R : B -> C -> Prop) (f : A -> B) (g : A -> C) l, Forall (fun x => R (f x) (g x)) l -> Forall2 R (map f l) (map g l).
Proof. intros A B C R f g l H. induction H; cbn; constructor; auto. Qed.

Lemma traced_same : forall e root j exc t, erases (traced e root j exc t) (deser e root j exc t).
Proof.
  intros e root j exc t. revert t exc.
  induction j as [|b|z|f|s|l IH|l IH] using json_ind'; intros t; induction t using ty_ind'; intros exc old ctx loc st;
    rewrite traced_unfold, deser_unfold; unfold traced_step, deser_step; cbn [fst called]; try reflexivity;
    try (match goal with |- context [t_variant (map ?f ?ts)] =>
      rewrite <- (variant_same (map f ts) (map (fun u => (dinit e u, deser e root _ false u)) ts));
      [now destruct (t_variant _ _ _ _ _) as [[[[[i x]|] [r|]] s'] c]|
       apply map_rel; rewrite Forall_forall in *; intros u Iu; split; [reflexivity|]; cbn [snd]; auto] end);
    try (rewrite <- (IHt exc); now destruct (traced e root _ exc t _ _ _ _) as [[[|] ? ?|? ?| |] c]).
  - apply items_same. rewrite !map_map. apply map_rel. rewrite Forall_forall in *. auto.
  - destruct (negb _); [reflexivity|]. unfold t_array, read_array.
    rewrite <- (items_same (dinit e t) push_back (map (fun f => f exc t) (map (traced e root) l))).
    + now destruct (t_items _ _ _ _ _ _ _ _) as [[[|] ? ?|? ?| |] c].
    + rewrite !map_map. apply map_rel. rewrite Forall_forall in *. auto.
  - apply items_same. rewrite !map_map. apply map_rel. rewrite Forall_forall in *. auto.
  - pose proof (types_same (map (fun f => f exc) (map (traced e root) l)) (map (fun f => f exc) (map (deser e root) l))) as T.
    specialize (T ltac:(rewrite !map_map; apply map_rel; rewrite Forall_forall in *; auto) [t1; t2]).
    destruct (apply_types (map (fun f => f exc) (map (traced e root) l)) [t1; t2]), (apply_types _ [t1; t2]); try contradiction; [|reflexivity].
    rewrite <- (tuple_same _ _ T). now destruct (t_tuple _ _ _ _ _ _).
  - pose proof (types_same (map (fun f => f exc) (map (traced e root) l)) (map (fun f => f exc) (map (deser e root) l))) as T.
    specialize (T ltac:(rewrite !map_map; apply map_rel; rewrite Forall_forall in *; auto) ts).
    destruct (apply_types (map (fun f => f exc) (map (traced e root) l)) ts), (apply_types _ ts); try contradiction; [|reflexivity].
    rewrite <- (tuple_same _ _ T). now destruct (t_tuple _ _ _ _ _ _).
  - apply entries_same. rewrite !map_map. apply map_rel. rewrite Forall_forall in *. intros p Ip. split; [reflexivity|]. cbn. now apply IH.
  - rewrite <- (members_same e exc (map (fun p => (fst p, traced e root (snd p))) l)).
    + now destruct (t_members _ _ _ _ _ _ _ _ _ _ _).
    + apply map_rel. rewrite Forall_forall in *. intros p Ip. split; [reflexivity|]. cbn. intros t. now apply IH.
  - destruct (find_member l "$ref"); [reflexivity|].
    rewrite <- (IHt exc). now destruct (traced e root _ exc t _ _ _ _) as [[[|] ? ?|? ?| |] c].
Qed.

(** * The calls of a loop *)

(** The calls of some of the numbered deserializers, each for the part of its number. *)
Inductive pieces (loc : list nat) : list (nat * treader) -> list call -> Prop :=
| pieces_end : forall fs, pieces loc fs []
| pieces_skip : forall i f fs c, pieces loc fs c -> pieces loc ((i, f) :: fs) c
| pieces_call : forall i f fs c old ctx st, pieces loc fs c -> pieces loc ((i, f) :: fs) (snd (f old ctx (loc ++ [i]) st) ++ c).

Lemma pieces_last : forall loc i f fs old ctx st, pieces loc ((i, f) :: fs) (snd (f old ctx (loc ++ [i]) st)).
Proof. intros. rewrite <- (app_nil_r (snd _)). apply pieces_call, pieces_end. Qed.

Lemma pieces_in : forall loc fs c x, pieces loc fs c -> In x c ->
  exists i f old ctx st, In (i, f) fs /\ In x (snd (f old ctx (loc ++ [i]) st)).
Proof.
  intros loc fs c x P. induction P as [fs|i f fs c P IH|i f fs c old ctx st P IH]; intros H; [destruct H| |].
  - destruct (IH H) as (i' & f' & old & ctx & st & A & B). exists i', f', old, ctx, st. split; [now right|exact B].
  - apply in_app_or in H. destruct H as [H|H].
    + exists i, f, old, ctx, st. split; [now left|exact H].
    + destruct (IH H) as (i' & f' & old' & ctx' & st' & A & B). exists i', f', old', ctx', st'. split; [now right|exact B].
Qed.

Definition below (f : treader) : Prop := forall old ctx loc st q w, In (q, w) (snd (f old ctx loc st)) -> exists p, q = loc ++ p.
Definition once (f : treader) : Prop := forall old ctx loc st, NoDup (snd (f old ctx loc st)).

Lemma NoDup_app : forall A (l l' : list A), NoDup l -> NoDup l' -> (forall x, In x l -> ~ In x l') -> NoDup (l ++ l').
Proof.
  intros A l l' N N' D. induction N as [|x l H N IH]; cbn; [exact N'|]. constructor.
  - intros I. apply in_app_or in I. destruct I as [I|I]; [auto|]. apply (D x); [now left|exact I].
  - apply IH. intros y Iy. apply D. now right.
Qed.

Lemma pieces_once : forall loc fs c, pieces loc fs c -> NoDup (map fst fs) -> (forall i f, In (i, f) fs -> below f /\ once f) -> NoDup c.
Proof.
  intros loc fs c P. induction P as [fs|i f fs c P IH|i f fs c old ctx st P IH]; intros N H; [constructor| |];
    inversion N as [|? ? Ni N']; subst.
  - apply IH; auto. intros i' f' I'. apply (H i' f'). now right.
  - apply NoDup_app.
    + apply (H i f (or_introl eq_refl)).
    + apply IH; auto. intros i' f' I'. apply (H i' f'). now right.
    + intros [q w] A B. destruct (H i f (or_introl eq_refl)) as [Bf _]. destruct (Bf _ _ _ _ _ _ A) as [p ->].
      destruct (pieces_in _ _ _ _ P B) as (i' & f' & old' & ctx' & st' & I' & B').
      destruct (H i' f' (or_intror I')) as [Bf' _]. destruct (Bf' _ _ _ _ _ _ B') as [p' E].
      rewrite <- !app_assoc in E. apply app_inv_head in E. injection E as -> _. apply Ni. apply (in_map fst _ _ I').
Qed.

Definition at_most (n : nat) (f : treader) : Prop := forall old ctx loc st, List.length (snd (f old ctx loc st)) <= n.

Lemma pieces_length : forall loc fs c, pieces loc fs c -> forall bs, Forall2 at_most bs (map snd fs) -> List.length c <= list_sum bs.
Proof.
  intros loc fs c P. induction P as [fs|i f fs c P IH|i f fs c old ctx st P IH]; intros bs H; [cbn; lia| |];
    cbn in H; inversion H as [|b ? bs' ? A B]; subst; specialize (IH _ B); cbn.
  - unfold list_sum in IH. lia.
  - rewrite app_length. specialize (A old ctx (loc ++ [i]) st). unfold list_sum in IH. lia.
Qed.

Fixpoint numbered {A} (k : nat) (l : list A) : list (nat * A) :=
  match l with [] => [] | x :: l' => (k, x) :: numbered (S k) l' end.

Lemma numbered_snd : forall A k (l : list A), map snd (numbered k l) = l.
Proof. intros A k l. revert k. induction l as [|x l IH]; intros k; cbn; [reflexivity|]. now rewrite IH. Qed.

Lemma numbered_nth : forall A k (l : list A) i x, In (i, x) (numbered k l) -> exists n, i = k + n /\ nth_error l n = Some x.
Proof.
  intros A k l. revert k. induction l as [|y l IH]; intros k i x H; [destruct H|]. destruct H as [H|H].
  - injection H as <- <-. exists 0. split; [lia|reflexivity].
  - destruct (IH _ _ _ H) as (n & -> & E). exists (S n). split; [lia|exact E].
Qed.

Lemma numbered_once : forall A k (l : list A), NoDup (map fst (numbered k l)).
Proof.
  intros A k l. revert k. induction l as [|x l IH]; intros k; cbn; constructor; [|apply IH].
  intros H. apply in_map_iff in H. destruct H as ([i y] & E & H). cbn in E. subst i. apply numbered_nth in H. destruct H as (n & E & _). lia.
Qed.

Lemma items_pieces : forall init add fs k acc ctx loc st, pieces loc (numbered k fs) (snd (t_items init add fs k acc ctx loc st)).
Proof.
  intros init add fs. induction fs as [|f fs IH]; intros k acc ctx loc st; cbn; [constructor|].
  pose proof (pieces_last loc k f (numbered (S k) fs) init (at_index ctx (N.of_nat k)) st) as L.
  pose proof (pieces_call loc k f (numbered (S k) fs)) as P.
  destruct (f init (at_index ctx (N.of_nat k)) (loc ++ [k]) st) as [[[|] s x|why p| |] c] eqn:E; cbn in *; auto.
  specialize (P _ init (at_index ctx (N.of_nat k)) st (IH (S k) (add acc x) ctx loc s)). now rewrite E in P.
Qed.

Lemma tuple_pieces : forall fs k olds ctx loc st, pieces loc (numbered k fs) (snd (t_tuple fs k olds ctx loc st)).
Proof.
  intros fs. induction fs as [|f fs IH]; intros k olds ctx loc st; cbn; [constructor|].
  pose proof (pieces_last loc k f (numbered (S k) fs) (hd VIndet olds) (at_index ctx (N.of_nat k)) st) as L.
  pose proof (pieces_call loc k f (numbered (S k) fs)) as P.
  destruct (f (hd VIndet olds) (at_index ctx (N.of_nat k)) (loc ++ [k]) st) as [[[|] s x|why p| |] c] eqn:E; cbn in *; auto.
  specialize (P _ (hd VIndet olds) (at_index ctx (N.of_nat k)) st (IH (S k) (tl olds) ctx loc s)). rewrite E in P.
  destruct (t_tuple fs (S k) (tl olds) ctx loc s) as [[[[b l] stop] s'] c']. exact P.
Qed.

Lemma entries_pieces : forall init fs k acc ctx loc st, pieces loc (numbered k (map snd fs)) (snd (t_entries init fs k acc ctx loc st)).
Proof.
  intros init fs. induction fs as [|[n f] fs IH]; intros k acc ctx loc st; cbn; [constructor|].
  pose proof (pieces_last loc k f (numbered (S k) (map snd fs)) init (at_name ctx n) st) as L.
  pose proof (pieces_call loc k f (numbered (S k) (map snd fs))) as P.
  destruct (f init (at_name ctx n) (loc ++ [k]) st) as [[[|] s x|why p| |] c] eqn:E; cbn in *; auto.
  specialize (P _ init (at_name ctx n) st (IH (S k) (map_assign acc (c_string n) x) ctx loc s)). now rewrite E in P.
Qed.

Definition found (exc : bool) (fs : list (string * (bool -> ty -> treader))) (ms : list member) : list (nat * treader) :=
  flat_map (fun m => match find_fun fs 0 (m_name m) with Some (k, f) => [(k, f exc (m_ty m))] | None => [] end) ms.

Lemma members_pieces : forall e exc fs ms r seen flag olds ctx loc st,
  pieces loc (found exc fs ms) (snd (t_members e exc fs ms r seen flag olds ctx loc st)).
Proof.
  intros e exc fs ms. induction ms as [|m ms IH]; intros r seen flag olds ctx loc st; [constructor|]. cbn [t_members found flat_map].
  assert (R : forall r seen flag olds s, pieces loc (found exc fs ms) (snd match r with
      | 0 => t_members e exc fs ms 0 seen flag (tl olds) ctx loc s
      | S r0 => t_members e exc fs ms r0 flag flag (tl olds) ctx loc s end)) by (intros []; intros; apply IH).
  unfold t_member. destruct (find_fun fs 0 (m_name m)) as [[k f]|]; cbn [app].
  - assert (G : forall old c', let x := f exc (m_ty m) old (at_name ctx (m_name m)) (loc ++ [k]) st in
      pieces loc (found exc fs ms) c' -> pieces loc ((k, f exc (m_ty m)) :: found exc fs ms) (snd x ++ c') /\
      pieces loc ((k, f exc (m_ty m)) :: found exc fs ms) (snd x)) by (intros; split; [now apply pieces_call|apply pieces_last]).
    destruct (m_kind m);
    (match goal with |- context [f exc (m_ty m) ?o ?a ?b ?s] => specialize (G o); destruct (f exc (m_ty m) o a b s) as [[ok s' x|why p| |] c] end);
    try (apply (proj2 (G [] (pieces_end _ _))));
    specialize (R r seen ok olds s'); revert R;
    destruct (match r with 0 => _ | S r0 => _ end) as [[[[b l] stop] s''] c']; intros R; apply (proj1 (G _ R)).
  - destruct (m_kind m); [destruct exc| |]; try constructor;
    match goal with |- context [match r with 0 => t_members _ _ _ _ _ ?sn ?ok (tl ?o) _ _ ?s | S r0 => _ end] => specialize (R r sn ok o s) end;
    revert R; destruct (match r with 0 => _ | S r0 => _ end) as [[[[b l] stop] s''] c']; intros R; exact R.
Qed.

Lemma variant_calls : forall fs i ctx loc st x, In x (snd (t_variant fs i ctx loc st)) ->
  exists init f s, In (init, f) fs /\ In x (snd (f init ctx loc s)).
Proof.
  intros fs. induction fs as [|[init f] fs IH]; intros i ctx loc st x H; [destruct H|]. cbn in H.
  destruct (f init ctx loc st) as [[[|] s v|why p| |] c] eqn:E; cbn in H;
    try (exists init, f, st; split; [now left|rewrite E; exact H]).
  apply in_app_or in H. destruct H as [H|H]; [exists init, f, st; split; [now left|rewrite E; exact H]|].
  destruct (IH _ _ _ _ _ H) as (init' & f' & s' & A & B). exists init', f', s'. split; [now right|exact B].
Qed.

Lemma variant_length : forall fs bs, Forall2 (fun b f => at_most b (snd f)) bs fs -> forall i ctx loc st,
  List.length (snd (t_variant fs i ctx loc st)) <= list_sum bs.
Proof.
  intros fs bs F. induction F as [|b [init f] bs fs A F IH]; intros i ctx loc st; cbn; [lia|].
  specialize (A init ctx loc st). cbn in A. destruct (f init ctx loc st) as [[[|] s v|why p| |] c]; cbn in *; try lia.
  rewrite app_length. specialize (IH (S i) ctx loc s). unfold list_sum in IH. lia.
Qed.

(** * The calls are for parts of the document *)

Lemma first_found : forall A (g : json -> A) l name k f, find_fun (map (fun p => (fst p, g (snd p))) l) 0 name = Some (k, f) ->
  exists x, first_member l name k x /\ f = g x.
Proof.
  intros A g l name.
  assert (G : forall n k f, find_fun (map (fun p => (fst p, g (snd p))) l) n name = Some (k, f) ->
    exists i x, k = n + i /\ first_member l name i x /\ f = g x).
  { induction l as [|[a x] l IH]; intros n k f H; [discriminate|]. cbn in H. destruct (String.eqb_spec a name) as [->|N].
    - injection H as <- <-. exists 0, x. split; [lia|]. split; [|reflexivity]. split; [reflexivity|]. intros; lia.
    - destruct (IH _ _ _ H) as (i & y & -> & [F1 F2] & ->). exists (S i), y. split; [lia|]. split; [|reflexivity]. split; [exact F1|].
      intros [|i'] x' L E; cbn in E; [congruence|]. apply (F2 i' x'); [lia|exact E]. }
  intros k f H. destruct (G 0 k f H) as (i & x & -> & F). exists x. exact F.
Qed.

Definition sound (e : env) (f : treader) (j : json) (t : ty) : Prop :=
  forall old ctx loc st q w, In (q, w) (snd (f old ctx loc st)) -> exists p, q = loc ++ p /\ reads e j t p w.

Lemma nth_map : forall A B (f : A -> B) l i y, nth_error (map f l) i = Some y -> exists x, nth_error l i = Some x /\ y = f x.
Proof. intros A B f l. induction l as [|a l IH]; intros [|i] y H; try discriminate; cbn in *; [injection H as <-; eauto|auto]. Qed.

Lemma nth_apply : forall A (fs : list (ty -> A)) ts gs, apply_types fs ts = Some gs -> List.length fs = List.length ts /\
  List.length gs = List.length ts /\
  forall i g, nth_error gs i = Some g -> exists f t, nth_error fs i = Some f /\ nth_error ts i = Some t /\ g = f t.
Proof.
  intros A fs. induction fs as [|f fs IH]; intros [|t ts] gs E; try discriminate; cbn in E.
  - injection E as <-. repeat split; auto. intros [|i] g H; discriminate H.
  - destruct (apply_types fs ts) as [r|] eqn:E'; [|discriminate]. injection E as <-. destruct (IH _ _ E') as (L & L' & N). cbn.
    split; [lia|]. split; [lia|]. intros [|i] g H; cbn in H; [injection H as <-; exists f, t; auto|apply N in H; exact H].
Qed.

Lemma ref_not_found : forall l, find_member l "$ref" = None -> ~ reference (JObj l).
Proof.
  intros l H (l' & x & E & I). injection E as <-. induction l as [|[n y] l IH]; [destruct I|]. cbn in H.
  destruct (String.eqb_spec n "$ref") as [->|N]; [discriminate|]. destruct I as [I|I]; [congruence|auto].
Qed.

Section Sound.
Variable e : env.
Variable root : json.

Lemma one_piece : forall fs c loc j t q w, pieces loc fs c -> In (q, w) c ->
  (forall i f, In (i, f) fs -> exists x u, sound e f x u /\ forall p w, reads e x u p w -> reads e j t (i :: p) w) ->
  exists p, q = loc ++ p /\ reads e j t p w.
Proof.
  intros fs c loc j t q w P I H. destruct (pieces_in _ _ _ _ P I) as (i & f & old & ctx & st & Jn & B).
  destruct (H i f Jn) as (x & u & S & R). destruct (S _ _ _ _ _ _ B) as (p & -> & Q).
  exists (i :: p). split; [now rewrite <- app_assoc|auto].
Qed.

Lemma traced_sound : forall j t exc, sound e (traced e root j exc t) j t.
Proof.
  intros j. induction j as [|b|z|f|s|l IH|l IH] using json_ind'; intros t; induction t using ty_ind'; intros exc old ctx loc st q w H0;
    rewrite traced_unfold in H0; unfold traced_step, called in H0; cbn [snd] in H0; apply in_app_or in H0;
    (destruct H0 as [H0|H0]; [destruct H0 as [H0|[]]; injection H0 as <- <-; exists []; split; [now rewrite app_nil_r|constructor]|]);
    try (destruct H0; fail);
    try (destruct H0 as [H0|[]]; injection H0 as <- <-; exists []; split; [now rewrite app_nil_r|constructor]; fail);
    try (match type of H0 with context [t_variant (map ?f ?ts) 0 ctx loc st] =>
      assert (K : In (q, w) (snd (t_variant (map f ts) 0 ctx loc st))) by
        (revert H0; now destruct (t_variant (map f ts) 0 ctx loc st) as [[[[[i x]|] [r|]] s'] c]) end;
      apply variant_calls in K; destruct K as (init & f' & s' & A & B); apply in_map_iff in A; destruct A as (u & E & Iu);
      injection E as <- <-; rewrite Forall_forall in H; destruct (H u Iu false _ _ _ _ _ _ B) as (p & -> & R);
      exists p; split; [reflexivity|now apply reads_alternative with u]);
    try (match type of H0 with context [traced e root ?j exc t ?o ctx loc ?s] => specialize (IHt exc o ctx loc s q w);
        destruct (traced e root j exc t o ctx loc s) as [[[|] s' v|why p'| |] c]; cbn in H0, IHt;
        destruct (IHt H0) as (p & -> & R); exists p; (split; [reflexivity|]);
        constructor; auto; intros (l' & x' & Z & _); discriminate Z end).
  - refine (one_piece _ _ _ _ _ _ _ (items_pieces _ _ _ _ _ _ _ _) H0 _). intros i f I. apply numbered_nth in I. destruct I as (n & -> & E).
    rewrite map_map in E. apply nth_map in E. destruct E as (x & E & ->). exists x, t. split; [rewrite Forall_forall in IH; apply IH; now apply nth_error_In in E|].
    intros p w' R. now apply reads_vector with x.
  - destruct (Nat.eqb_spec (List.length l) n) as [<-|N]; [|destruct H0]. cbn [negb] in H0. unfold t_array in H0.
    assert (K : In (q, w) (snd (t_items (dinit e t) push_back (map (fun f => f exc t) (map (traced e root) l)) 0 [] ctx loc st)))
      by (revert H0; now destruct (t_items _ _ _ _ _ _ _ _) as [[[|] s' v|why p'| |] c]).
    refine (one_piece _ _ _ _ _ _ _ (items_pieces _ _ _ _ _ _ _ _) K _). intros i f I. apply numbered_nth in I. destruct I as (n & -> & E).
    rewrite map_map in E. apply nth_map in E. destruct E as (x & E & ->). exists x, t. split; [rewrite Forall_forall in IH; apply IH; now apply nth_error_In in E|].
    intros p w' R. now apply reads_array with x.
  - refine (one_piece _ _ _ _ _ _ _ (items_pieces _ _ _ _ _ _ _ _) H0 _). intros i f I. apply numbered_nth in I. destruct I as (n & -> & E).
    rewrite map_map in E. apply nth_map in E. destruct E as (x & E & ->). exists x, t. split; [rewrite Forall_forall in IH; apply IH; now apply nth_error_In in E|].
    intros p w' R. now apply reads_set with x.
  - destruct (apply_types (map (fun f => f exc) (map (traced e root) l)) [t1; t2]) as [fs|] eqn:E; [|destruct H0].
    pose proof (tuple_pieces fs 0 (parts_of old) ctx loc st) as P. destruct (t_tuple fs 0 (parts_of old) ctx loc st) as [x c]. cbn in P, H0.
    refine (one_piece _ _ _ _ _ _ _ P H0 _). intros i f I. apply numbered_nth in I. destruct I as (n & -> & En).
    apply nth_apply in E. destruct E as (L & _ & E). rewrite !map_length in L. destruct (E _ _ En) as (g & u & Eg & Eu & ->).
    rewrite map_map in Eg. apply nth_map in Eg. destruct Eg as (y & Ey & ->).
    exists y, u. split; [rewrite Forall_forall in IH; apply IH; now apply nth_error_In in Ey|].
    intros p w' R. destruct l as [|x1 [|x2 [|x3 l]]]; try discriminate L. apply reads_pair with y u; assumption.
  - destruct (apply_types (map (fun f => f exc) (map (traced e root) l)) ts) as [fs|] eqn:E; [|destruct H0].
    pose proof (tuple_pieces fs 0 (parts_of old) ctx loc st) as P. destruct (t_tuple fs 0 (parts_of old) ctx loc st) as [x c]. cbn in P, H0.
    refine (one_piece _ _ _ _ _ _ _ P H0 _). intros i f I. apply numbered_nth in I. destruct I as (n & -> & En).
    apply nth_apply in E. destruct E as (L & _ & E). rewrite !map_length in L. destruct (E _ _ En) as (g & u & Eg & Eu & ->).
    rewrite map_map in Eg. apply nth_map in Eg. destruct Eg as (y & Ey & ->).
    exists y, u. split; [rewrite Forall_forall in IH; apply IH; now apply nth_error_In in Ey|].
    intros p w' R. apply reads_tuple with y u; assumption.
  - refine (one_piece _ _ _ _ _ _ _ (entries_pieces _ _ _ _ _ _ _) H0 _). intros i f I. apply numbered_nth in I. destruct I as (n & -> & E).
    rewrite !map_map in E. apply nth_map in E. destruct E as ([key x] & E & ->). exists x, t.
    split; [rewrite Forall_forall in IH; apply (IH (key, x)); now apply nth_error_In in E|].
    intros p w' R. now apply reads_map with key x.
  - pose proof (members_pieces e exc (map (fun p => (fst p, traced e root (snd p))) l) (c_members (class_of e c)) (c_root (class_of e c)) true true (parts_of old) ctx loc st) as P.
    destruct (t_members _ _ _ _ _ _ _ _ _ _ _) as [x cs]. cbn in P, H0.
    refine (one_piece _ _ _ _ _ _ _ P H0 _). intros i f I. unfold found in I. apply in_flat_map in I. destruct I as (m & Im & I).
    destruct (find_fun _ 0 (m_name m)) as [[k g]|] eqn:E; [|destruct I]. destruct I as [I|[]]. injection I as <- <-.
    apply first_found in E. destruct E as (y & Fy & ->). exists y, (m_ty m).
    split; [rewrite Forall_forall in IH; apply (IH (m_name m, y)); apply (nth_error_In _ _ (proj1 Fy))|].
    intros p w' R. now apply reads_member with m y.
  - destruct (find_member l "$ref") eqn:E; [destruct H0|]. apply ref_not_found in E.
    match type of H0 with context [traced e root ?j exc t ?o ctx loc ?s] => specialize (IHt exc o ctx loc s q w);
        destruct (traced e root j exc t o ctx loc s) as [r c]; cbn in H0, IHt;
        destruct (IHt H0) as (p & -> & R); exists p; split; [reflexivity|] end.
    now constructor.
Qed.
End Sound.

(** * No call is made twice *)

Lemma no_variant_within : forall e u t, within e u t -> no_variant e t -> no_variant e u.
Proof. intros e u t W N ts R. apply (N ts). apply rt_trans with u; [exact R|now apply rt_step]. Qed.

Lemma no_shared_within : forall e u t, within e u t -> no_shared e t -> no_shared e u.
Proof. intros e u t W N v R. apply (N v). apply rt_trans with u; [exact R|now apply rt_step]. Qed.

Lemma not_variant : forall e ts, no_variant e (TVariant ts) -> False.
Proof. intros e ts N. apply (N ts). apply rt_refl. Qed.

Fixpoint height (t : ty) : nat := match t with TUnique u | TShared u => S (height u) | TEnumInt _ => 1 | _ => 0 end.

Lemma reads_height : forall e j t p w, reads e j t p w -> no_variant e t -> p = [] -> height w <= height t.
Proof.
  intros e j t p w R. induction R; intros N E; try discriminate; cbn; try lia.
  - now apply not_variant in N.
  - specialize (IHR (no_variant_within e u (TUnique u) (or_introl eq_refl) N) E). lia.
  - specialize (IHR (no_variant_within e u (TShared u) (or_introl eq_refl) N) E). lia.
Qed.

Lemma sound_below : forall e f j t, sound e f j t -> below f.
Proof. intros e f j t S old ctx loc st q w I. destruct (S _ _ _ _ _ _ I) as (p & E & _). eauto. Qed.

Lemma piece_deeper : forall loc fs c t, pieces loc fs c -> (forall i f, In (i, f) fs -> below f) -> ~ In (loc, t) c.
Proof.
  intros loc fs c t P B I. destruct (pieces_in _ _ _ _ P I) as (i & f & old & ctx & st & J & K).
  destruct (B _ _ J _ _ _ _ _ _ K) as [p E]. rewrite <- app_assoc in E. rewrite <- (app_nil_r loc) in E at 1. apply app_inv_head in E. discriminate E.
Qed.

Lemma first_same : forall l a b i x y, first_member l a i x -> first_member l b i y -> a = b.
Proof. intros l a b i x y [A _] [B _]. congruence. Qed.

Lemma found_once : forall exc (g : json -> bool -> ty -> treader) l ms, NoDup (map m_name ms) ->
  NoDup (map fst (found exc (map (fun p => (fst p, g (snd p))) l) ms)).
Proof.
  intros exc g l ms N. induction ms as [|m ms IH]; [constructor|]. inversion N as [|? ? Nm N']; subst. cbn.
  destruct (find_fun _ 0 (m_name m)) as [[k f]|] eqn:E; cbn; [|auto]. constructor; [|auto].
  intros I. apply in_map_iff in I. destruct I as ([k' f'] & Ek & I). cbn in Ek. subst k'. unfold found in I. apply in_flat_map in I.
  destruct I as (m' & Im & I). destruct (find_fun _ 0 (m_name m')) as [[k' f'']|] eqn:E'; [|destruct I]. destruct I as [I|[]]. injection I as -> _.
  apply first_found in E. apply first_found in E'. destruct E as (x & Fx & _), E' as (x' & Fx' & _).
  apply Nm. rewrite (first_same _ _ _ _ _ _ Fx Fx'). now apply in_map.
Qed.

Section Once.
Variable e : env.
Variable root : json.
Hypothesis distinct : distinct_members e.

Lemma once_pieces : forall loc t fs c, pieces loc fs c -> NoDup (map fst fs) -> (forall i f, In (i, f) fs -> below f /\ once f) -> NoDup ((loc, t) :: c).
Proof.
  intros loc t fs c P N H. constructor.
  - apply (piece_deeper _ _ _ _ P). intros i f I. apply (H i f I).
  - now apply (pieces_once _ _ _ P).
Qed.

Lemma traced_once : forall j t, no_variant e t -> forall exc, once (traced e root j exc t).
Proof.
  intros j. induction j as [|b|z|f|s|l IH|l IH] using json_ind'; intros t; induction t using ty_ind'; intros V exc old ctx loc st;
    try (now apply not_variant in V);
    try (pose proof (traced_sound e root) as So; assert (V' : no_variant e t) by (eapply no_variant_within; [|exact V]; now left); specialize (IHt V'));
    rewrite traced_unfold; unfold traced_step, called; cbn [snd app];
    try (repeat constructor; cbn; intuition congruence);
    try (match goal with |- context [traced e root ?j exc t ?o ctx loc ?s] => specialize (IHt exc o ctx loc s); specialize (So j t exc o ctx loc s loc);
        destruct (traced e root j exc t o ctx loc s) as [[[|] s' v|why p'| |] c]; cbn in IHt, So |- *; (constructor; [|exact IHt]);
        intros I; destruct (So _ I) as (p & E & R); rewrite <- (app_nil_r loc) in E at 1; apply app_inv_head in E;
        (apply (reads_height e _ _ _ _) in R; [cbn in R; lia|assumption|now symmetry]) end).
  - apply (once_pieces _ _ _ _ (items_pieces _ _ _ _ _ _ _ _)); [apply numbered_once|]. intros i f I. apply numbered_nth in I. destruct I as (n & -> & E).
    rewrite map_map in E. apply nth_map in E. destruct E as (x & E & ->). apply nth_error_In in E. rewrite Forall_forall in IH.
    split; [eapply sound_below, traced_sound|now apply IH].
  - destruct (negb _); [repeat constructor; easy|]. unfold t_array.
    assert (K : NoDup ((loc, TArray n t) :: snd (t_items (dinit e t) push_back (map (fun f => f exc t) (map (traced e root) l)) 0 [] ctx loc st))).
    { apply (once_pieces _ _ _ _ (items_pieces _ _ _ _ _ _ _ _)); [apply numbered_once|]. intros i f I. apply numbered_nth in I. destruct I as (k & -> & E).
      rewrite map_map in E. apply nth_map in E. destruct E as (x & E & ->). apply nth_error_In in E. rewrite Forall_forall in IH.
      split; [eapply sound_below, traced_sound|now apply IH]. }
    revert K. now destruct (t_items _ _ _ _ _ _ _ _) as [[[|] s' v|why p'| |] c].
  - apply (once_pieces _ _ _ _ (items_pieces _ _ _ _ _ _ _ _)); [apply numbered_once|]. intros i f I. apply numbered_nth in I. destruct I as (n & -> & E).
    rewrite map_map in E. apply nth_map in E. destruct E as (x & E & ->). apply nth_error_In in E. rewrite Forall_forall in IH.
    split; [eapply sound_below, traced_sound|now apply IH].
  - destruct (apply_types (map (fun f => f exc) (map (traced e root) l)) [t1; t2]) as [fs|] eqn:E; [|repeat constructor; easy].
    pose proof (tuple_pieces fs 0 (parts_of old) ctx loc st) as P. destruct (t_tuple fs 0 (parts_of old) ctx loc st) as [x c]. cbn in P |- *.
    apply (once_pieces _ _ _ _ P); [apply numbered_once|]. intros i f I. apply numbered_nth in I. destruct I as (n & -> & En).
    apply nth_apply in E. destruct E as (L & _ & E). destruct (E _ _ En) as (g & u & Eg & Eu & ->).
    rewrite map_map in Eg. apply nth_map in Eg. destruct Eg as (y & Ey & ->). apply nth_error_In in Ey, Eu. rewrite Forall_forall in IH.
    split; [eapply sound_below, traced_sound|apply IH; [exact Ey|]]. apply (no_variant_within e u (TPair t1 t2)); [exact Eu|exact V].
  - destruct (apply_types (map (fun f => f exc) (map (traced e root) l)) ts) as [fs|] eqn:E; [|repeat constructor; easy].
    pose proof (tuple_pieces fs 0 (parts_of old) ctx loc st) as P. destruct (t_tuple fs 0 (parts_of old) ctx loc st) as [x c]. cbn in P |- *.
    apply (once_pieces _ _ _ _ P); [apply numbered_once|]. intros i f I. apply numbered_nth in I. destruct I as (n & -> & En).
    apply nth_apply in E. destruct E as (L & _ & E). destruct (E _ _ En) as (g & u & Eg & Eu & ->).
    rewrite map_map in Eg. apply nth_map in Eg. destruct Eg as (y & Ey & ->). apply nth_error_In in Ey, Eu. rewrite Forall_forall in IH.
    split; [eapply sound_below, traced_sound|apply IH; [exact Ey|]]. apply (no_variant_within e u (TTuple ts)); [exact Eu|exact V].
  - apply (once_pieces _ _ _ _ (entries_pieces _ _ _ _ _ _ _)); [apply numbered_once|]. intros i f I. apply numbered_nth in I. destruct I as (n & -> & E).
    rewrite !map_map in E. apply nth_map in E. destruct E as ([key x] & E & ->). apply nth_error_In in E. rewrite Forall_forall in IH.
    split; [eapply sound_below, traced_sound|now apply (IH (key, x))].
  - pose proof (members_pieces e exc (map (fun p => (fst p, traced e root (snd p))) l) (c_members (class_of e c)) (c_root (class_of e c)) true true (parts_of old) ctx loc st) as P.
    destruct (t_members _ _ _ _ _ _ _ _ _ _ _) as [x cs]. cbn in P |- *.
    apply (once_pieces _ _ _ _ P); [apply found_once, distinct|]. intros i f I. unfold found in I. apply in_flat_map in I. destruct I as (m & Im & I).
    destruct (find_fun _ 0 (m_name m)) as [[k g]|] eqn:E; [|destruct I]. destruct I as [I|[]]. injection I as <- <-.
    apply first_found in E. destruct E as (y & Fy & ->). rewrite Forall_forall in IH.
    split; [eapply sound_below, traced_sound|]. apply (IH (m_name m, y)); [apply (nth_error_In _ _ (proj1 Fy))|].
    apply (no_variant_within e (m_ty m) (TClass c)); [cbn; now apply in_map|exact V].
  - destruct (find_member l "$ref") eqn:E; [repeat constructor; easy|].
    match goal with |- context [traced e root ?j exc t ?o ctx loc ?s] => specialize (IHt exc o ctx loc s); specialize (So j t exc o ctx loc s loc);
        destruct (traced e root j exc t o ctx loc s) as [r c]; cbn in IHt, So |- *; (constructor; [|exact IHt]);
        intros I; destruct (So _ I) as (p & E' & R); rewrite <- (app_nil_r loc) in E' at 1; apply app_inv_head in E';
        (apply (reads_height e _ _ _ _) in R; [cbn in R; lia|assumption|now symmetry]) end.
Qed.
End Once.
