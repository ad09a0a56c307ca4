(** Copies of indeterminate values. *)
From Coq Require Import List Arith ZArith NArith Ascii String Bool Lia.
From Verif Require Import Base Float NumericModel EnumModel Base64Model DatetimeModel RefsModel Json PathModel Types SerializeModel DeserializeModel
  DenoteSpec DenoteProof DenoteFacts SchemaGenSpec SafetySpec SafetyProof IndetModel IndetSpec.
Import ListNotations.

(** * What has a value may be copied *)

Ltac refute := match goal with H : byte_type _ |- _ => discriminate H | H : bare _ |- _ => now destruct H | H : owning _ |- _ => now destruct H end.

Lemma given_determinate' : forall e v t, (given e t v -> determinate e v t = true) /\ (forall y, v = VSome y -> given e t y -> determinate e v t = true).
Proof.
  intros e v. induction v as [| | | | | | | | |l IH|l IH|i v IH|l IH| |v IH| |v IH|a v IH] using val_ind'; intros t; split; try discriminate.
  all: try (intros G; destruct t; inversion G; subst; cbn in *; try reflexivity; try tauto; try congruence; fail).
  - intros G. destruct t; inversion G as [? ? B N|? ? B|? ? B| | | | |]; subst; cbn in *; try reflexivity; try tauto; try congruence. injection B as ->. reflexivity.
  - intros G. destruct t; try reflexivity; inversion G as [| | |? ? ? F|? ? x y Gx Gy|? ? F| |]; subst; cbn [determinate]; try refute.
    + apply forallb_forall. rewrite Forall_forall in *. intros x I. apply (IH _ I), (F _ I).
    + inversion IH as [|? ? P Q]; subst. inversion Q as [|? ? P' ?]; subst. rewrite (proj1 (P _) Gx), (proj1 (P' _) Gy). reflexivity.
    + clear G. induction F as [|u x us xs G1 Gs IHF]; [reflexivity|]. inversion IH as [|? ? P Q]; subst. rewrite (proj1 (P _) G1). exact (IHF Q).
  - intros G. destruct t; try reflexivity; inversion G as [| | | | | |? ? ? ? E Gx|]; subst; cbn [determinate]; try refute.
    rewrite E. now apply IH.
  - intros G. destruct t; try reflexivity; inversion G as [| | | | | | |? ? F]; subst; cbn [determinate]; try refute. clear G.
    induction F as [|m x ms xs [G1 G2] Gs IHF]; [reflexivity|]. inversion IH as [|? ? P Q]; subst. cbn [map]. rewrite (IHF Q). rewrite andb_true_r.
    destruct (m_kind m) eqn:K; [apply P, G1; congruence|apply P, G1; congruence|]. destruct (G2 eq_refl) as [->|(y & -> & Gy)]; [reflexivity|].
    exact (proj2 (P (m_ty m)) y eq_refl Gy).
  - intros G. assert (O : owning t) by (inversion G; subst; try assumption; cbn in *; try tauto; match goal with H : _ \/ _ |- _ => destruct H; [tauto|discriminate] end).
    cbn [determinate]. apply IH. now apply given_owning.
  - intros y E Gy. injection E as ->. cbn [determinate]. now apply IH.
Qed.

Lemma given_determinate : forall e v t, given e t v -> determinate e v t = true.
Proof. intros e v t. exact (proj1 (given_determinate' e v t)). Qed.

(** * Either the same, or undefined *)

Definition below (r r' : dres) : Prop := r = DUndef \/ r = r'.
Definition under (f g : reader) : Prop := forall old ctx loc st, below (f old ctx loc st) (g old ctx loc st).

Definition below4 (x y : bool * list val * option dres * dstate) : Prop :=
  let '(_, _, stop, _) := x in stop = Some DUndef \/ x = y.

Lemma below_refl : forall r, below r r.
Proof. now right. Qed.
#[local] Hint Resolve below_refl : core.

Lemma moving_under : forall e u f g, under f g -> under (moving e u f) g.
Proof.
  intros e u f g U old ctx loc st. unfold moving. destruct (U old ctx loc st) as [->|E]; [now left|]. rewrite <- E.
  destruct (f old ctx loc st) as [[] ? v| | |]; auto. destruct (determinate e v u); [now right|now left].
Qed.

Lemma items_under : forall init add fs gs, Forall2 under fs gs -> forall k acc ctx loc st,
  below (read_items init add fs k acc ctx loc st) (read_items init add gs k acc ctx loc st).
Proof.
  intros init add fs gs F. induction F as [|f g fs gs U F IH]; intros k acc ctx loc st; cbn; auto.
  destruct (U init (at_index ctx (N.of_nat k)) (loc ++ [k]) st) as [->|E]; [now left|]. rewrite <- E. destruct (f _ _ _ _) as [[] ? ?| | |]; auto.
Qed.

Lemma entries_under : forall init fs gs, Forall2 (fun p q => fst p = fst q /\ under (snd p) (snd q)) fs gs -> forall k acc ctx loc st,
  below (read_entries init fs k acc ctx loc st) (read_entries init gs k acc ctx loc st).
Proof.
  intros init fs gs F. induction F as [|[n f] [n' g] fs gs [En U] F IH]; intros k acc ctx loc st; cbn [fst snd read_entries] in *; auto; subst n'.
  destruct (U init (at_name ctx n) (loc ++ [k]) st) as [->|E]; [now left|]. rewrite <- E. destruct (f _ _ _ _) as [[] ? ?| | |]; auto.
Qed.

Lemma array_under : forall init old fs gs ctx loc st, Forall2 under fs gs ->
  below (read_array init old fs ctx loc st) (read_array init old gs ctx loc st).
Proof.
  intros init old fs gs ctx loc st F. unfold read_array. destruct (items_under init push_back fs gs F 0 [] ctx loc st) as [->| ->]; [now left|auto].
Qed.

Lemma tuple_under : forall fs gs, Forall2 under fs gs -> forall k olds ctx loc st,
  below4 (read_tuple fs k olds ctx loc st) (read_tuple gs k olds ctx loc st).
Proof.
  intros fs gs F. induction F as [|f g fs gs U F IH]; intros k olds ctx loc st; [now right|]. cbn [read_tuple].
  destruct (U (hd VIndet olds) (at_index ctx (N.of_nat k)) (loc ++ [k]) st) as [->|E]; [now left|]. rewrite <- E.
  destruct (f _ _ _ _) as [[] st' ?| | |]; try (now right). specialize (IH (S k) (tl olds) ctx loc st').
  destruct (read_tuple fs _ _ _ _ _) as [[[? ?] ?] ?], (read_tuple gs _ _ _ _ _) as [[[? ?] ?] ?]. cbn in *.
  destruct IH as [->|E']; [now left|]. injection E' as -> -> -> ->. now right.
Qed.

Lemma finish_tuple_under : forall x y, below4 x y -> below (finish_tuple x) (finish_tuple y).
Proof. intros [[[? ?] ?] ?] y [->|<-]; [now left|auto]. Qed.

Lemma finish_object_under : forall x y, below4 x y -> below (finish_object x) (finish_object y).
Proof. intros [[[? ?] ?] ?] y [->|<-]; [now left|auto]. Qed.

Lemma variant_under : forall fs gs, Forall2 (fun p q => fst p = fst q /\ under (snd p) (snd q)) fs gs -> forall i ctx loc st,
  (exists st', read_variant fs i ctx loc st = (None, Some DUndef, st')) \/ read_variant fs i ctx loc st = read_variant gs i ctx loc st.
Proof.
  intros fs gs F. induction F as [|[n f] [n' g] fs gs [En U] F IH]; intros i ctx loc st; cbn [fst snd read_variant] in *; auto; subst n'.
  destruct (U n ctx loc st) as [->|E]; [eauto|]. rewrite <- E. destruct (f _ _ _ _) as [[] ? ?| | |]; auto.
Qed.

Definition unders (F G : bool -> ty -> reader) : Prop := forall exc t, under (F exc t) (G exc t).

Lemma find_fun_pairs : forall A B (R : A -> B -> Prop) fs gs, Forall2 (fun p q => fst p = fst q /\ R (snd p) (snd q)) fs gs -> forall k name,
  match find_fun fs k name, find_fun gs k name with
  | Some (i, f), Some (i', g) => i = i' /\ R f g
  | None, None => True
  | _, _ => False
  end.
Proof.
  intros A B R fs gs F. induction F as [|[n f] [n' g] fs gs [En H] F IH]; intros k name; cbn [fst snd find_fun] in *; auto; subst n'.
  destruct (String.eqb n name); [auto|apply IH].
Qed.

Lemma member_under : forall e exc fs gs, Forall2 (fun p q => fst p = fst q /\ unders (snd p) (snd q)) fs gs -> forall m flag old ctx loc st,
  below (m_member e exc fs m flag old ctx loc st) (read_member e exc gs m flag old ctx loc st).
Proof.
  intros e exc fs gs F m flag old ctx loc st. unfold m_member, read_member. pose proof (find_fun_pairs _ _ _ fs gs F 0 (m_name m)) as P.
  destruct (find_fun fs 0 (m_name m)) as [[i f]|], (find_fun gs 0 (m_name m)) as [[i' g]|]; try tauto; [|auto].
  destruct P as [<- U]. destruct (m_kind m); try apply U.
  destruct (U exc (m_ty m) (dinit e (m_ty m)) (at_name ctx (m_name m)) (loc ++ [i]) st) as [->|E]; [now left|]. rewrite <- E.
  destruct (f _ _ _ _ _ _) as [ok st' v| | |]; auto. destruct (determinate e v (m_ty m)); [now right|now left].
Qed.

Lemma members_under : forall e exc fs gs, Forall2 (fun p q => fst p = fst q /\ unders (snd p) (snd q)) fs gs -> forall ms root seen flag olds ctx loc st,
  below4 (m_members e exc fs ms root seen flag olds ctx loc st) (read_members e exc gs ms root seen flag olds ctx loc st).
Proof.
  intros e exc fs gs F. induction ms as [|m ms IH]; intros root seen flag olds ctx loc st; [now right|]. cbn [m_members read_members].
  destruct (member_under e exc fs gs F m flag (hd VIndet olds) ctx loc st) as [->|E]; [now left|]. rewrite <- E.
  destruct (m_member _ _ _ _ _ _ _ _ _) as [ok st' x| | |]; try (now right).
  destruct root as [|r]; [specialize (IH 0 seen ok (tl olds) ctx loc st')|specialize (IH r ok ok (tl olds) ctx loc st')].
  all: destruct (m_members _ _ _ _ _ _ _ _ _ _ _) as [[[? ?] ?] ?], (read_members _ _ _ _ _ _ _ _ _ _ _) as [[[? ?] ?] ?]; cbn in *;
    destruct IH as [->|E']; [now left|injection E' as -> -> -> ->; now right].
Qed.

Lemma applied_pairs : forall (Fs Gs : list (bool -> ty -> reader)), Forall2 unders Fs Gs -> forall exc ts,
  match apply_types (map (fun f => f exc) Fs) ts, apply_types (map (fun f => f exc) Gs) ts with
  | Some fs, Some gs => Forall2 under fs gs
  | None, None => True
  | _, _ => False
  end.
Proof.
  intros Fs Gs F exc. induction F as [|f g Fs Gs U F IH]; intros [|t ts]; cbn; auto.
  specialize (IH ts). destruct (apply_types _ ts), (apply_types _ ts); try tauto. constructor; auto.
Qed.

(** One level. *)
Definition mdeser_step (e : env) (root : json) (j : json) (exc : bool) (t : ty) : reader := fun old ctx loc st =>
  let elems := match j with JArr l => map (mdeser e root) l | _ => [] end in
  let mems := match j with JObj l => map (fun p => (fst p, mdeser e root (snd p))) l | _ => [] end in
  match t with
  | TVector u =>
    match j with
    | JArr _ => read_items (dinit e u) push_back (map (fun f => moving e u (f exc u)) elems) 0 [] ctx loc st
    | _ => reject exc (WrongType "array") old ctx st
    end
  | TSet u =>
    match j with
    | JArr _ => read_items (dinit e u) (set_insert (less e u)) (map (fun f => moving e u (f exc u)) elems) 0 [] ctx loc st
    | _ => reject exc (WrongType "array") old ctx st
    end
  | TArray n u =>
    match j with
    | JArr l =>
      if negb (Nat.eqb (List.length l) n) then reject exc (WrongSize n (List.length l)) old ctx st
      else read_array (dinit e u) old (map (fun f => moving e u (f exc u)) elems) ctx loc st
    | _ => reject exc (WrongType "array") old ctx st
    end
  | TMap _ u =>
    match j with
    | JObj _ => read_entries (dinit e u) (map (fun p => (fst p, moving e u (snd p exc u))) mems) 0 [] ctx loc st
    | _ => reject exc (WrongType "object") old ctx st
    end
  | TPair a b =>
    match j with
    | JArr l =>
      match apply_types (map (fun f => f exc) elems) [a; b] with
      | None => reject exc (WrongSize 2 (List.length l)) old ctx st
      | Some fs => finish_tuple (read_tuple fs 0 (parts_of old) ctx loc st)
      end
    | _ => reject exc (WrongType "array") old ctx st
    end
  | TTuple ts =>
    match j with
    | JArr l =>
      match apply_types (map (fun f => f exc) elems) ts with
      | None => reject exc (WrongSize (List.length ts) (List.length l)) old ctx st
      | Some fs => finish_tuple (read_tuple fs 0 (parts_of old) ctx loc st)
      end
    | _ => reject exc (WrongType "array") old ctx st
    end
  | TVariant ts =>
    match read_variant (map (fun u => (dinit e u, moving e u (mdeser e root j false u))) ts) 0 ctx loc st with
    | (Some (i, x), _, st) => DRet true st (VVariant i x)
    | (None, Some r, _) => r
    | (None, None, st) => reject exc NoAlternative old ctx st
    end
  | TClass c =>
    match j with
    | JObj _ =>
      finish_object (m_members e exc mems (c_members (class_of e c)) (c_root (class_of e c)) true true
                       (parts_of old) ctx loc st)
    | _ => reject exc (WrongType "object") old ctx st
    end
  | TUnique u =>
    match mdeser e root j exc u (vinit e u) ctx loc st with
    | DRet true st x => DRet true st (VPtr x)
    | DRet false st _ => DRet false st old
    | r => r
    end
  | TShared u =>
    match (match j with JObj l => find_member l "$ref" | _ => None end) with
    | Some target => read_ref root u target old st
    | None => register_shared u loc (next_address st) (mdeser e root j exc u (vinit e u) ctx loc (new_address st))
    end
  | TPtr _ => DOutside
  | _ => read_scalar e exc t j old ctx loc st
  end.

Lemma mdeser_unfold : forall e root j exc t old ctx loc st,
  mdeser e root j exc t old ctx loc st = mdeser_step e root j exc t old ctx loc st.
Proof. intros e root j exc t old ctx loc st. destruct j, t; reflexivity. Qed.

Lemma mdeser_under : forall e root j, unders (mdeser e root j) (deser e root j).
Proof.
  intros e root. assert (Main : forall j
    (Fa : Forall2 unders (match j with JArr l => map (mdeser e root) l | _ => [] end) (match j with JArr l => map (deser e root) l | _ => [] end))
    (Fo : Forall2 (fun p q => fst p = fst q /\ unders (snd p) (snd q)) (match j with JObj l => map (fun p => (fst p, mdeser e root (snd p))) l | _ => [] end)
            (match j with JObj l => map (fun p => (fst p, deser e root (snd p))) l | _ => [] end)), unders (mdeser e root j) (deser e root j)).
  { intros j Fa Fo exc t. revert exc.
    assert (M : forall exc u, Forall2 under (map (fun f => moving e u (f exc u)) (match j with JArr l => map (mdeser e root) l | _ => [] end))
                                (map (fun f => f exc u) (match j with JArr l => map (deser e root) l | _ => [] end))).
    { intros exc u. clear - Fa. induction Fa as [|f g fs gs U Fa IH]; constructor; auto. apply moving_under, U. }
    induction t as [| | | | | | | | | | |u IHt|n u IHt|u IHt|o u IHt|a b IHa IHb|ts IHts|ts IHts|c|u IHt|u IHt|u IHt] using ty_ind'; intros exc old ctx loc st;
      rewrite deser_unfold, mdeser_unfold; cbn [deser_step mdeser_step]; auto.
    - destruct j; auto. apply items_under, M.
    - destruct j; auto. destruct (negb _); auto. apply array_under, M.
    - destruct j; auto. apply items_under, M.
    - destruct j; auto. apply entries_under. clear - Fo. induction Fo as [|p q fs gs [E U] Fo IH]; constructor; auto. split; [exact E|]. apply moving_under, U.
    - destruct j; auto. pose proof (applied_pairs _ _ Fa exc [a; b]) as Q. destruct (apply_types _ _), (apply_types _ _); try tauto; auto. apply finish_tuple_under, tuple_under, Q.
    - destruct j; auto. pose proof (applied_pairs _ _ Fa exc ts) as Q. destruct (apply_types _ _), (apply_types _ _); try tauto; auto. apply finish_tuple_under, tuple_under, Q.
    - match goal with |- below match read_variant ?fs _ _ _ _ with _ => _ end match read_variant ?gs _ _ _ _ with _ => _ end =>
        destruct (variant_under fs gs) with (i := 0) (ctx := ctx) (loc := loc) (st := st) as [[st' ->]| ->]; [|now left|auto] end.
      clear - IHts. induction IHts as [|u ts U F IH]; constructor; auto. split; [reflexivity|]. apply moving_under, U.
    - destruct j; auto. apply finish_object_under, members_under, Fo.
    - destruct (IHt exc (vinit e u) ctx loc st) as [->| ->]; [now left|auto].
    - destruct (match j with JObj l => find_member l "$ref" | _ => None end); auto.
      destruct (IHt exc (vinit e u) ctx loc (new_address st)) as [->| ->]; [now left|auto]. }
  induction j as [|b|z|f|s|l IH|l IH] using json_ind'; apply Main; try constructor.
  - induction IH; constructor; auto.
  - induction IH; constructor; auto.
Qed.
