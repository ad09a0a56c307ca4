(** The documents of values can be printed. *)
From Coq Require Import List Arith ZArith NArith Ascii String Bool Lia.
From Verif Require Import Base Float Json Types PathModel SerializeModel WriteSpec TextSpec.
Import ListNotations.

Section Printable.
Variable e : env.
Variable double : fl -> Prop.

Notation good := (printable double).
Definition sound (f : sfun json) : Prop := forall ctx tab tab' j, f ctx tab = SOk tab' j -> good j.

Lemma smap_inv : forall A B (f : A -> B) x tab b, smap f x = SOk tab b -> exists a, x = SOk tab a /\ b = f a.
Proof. intros A B f [tab' a|tab'|] tab b H; try discriminate. injection H as <- <-. eauto. Qed.

Lemma seq_sound : forall at_ fs, Forall sound fs -> forall k tab tab' js, ser_seq at_ k fs tab = SOk tab' js -> Forall good js.
Proof.
  intros at_ fs H. induction H as [|f fs Hf _ IH]; intros k tab tab' js E; cbn [ser_seq] in E. { injection E as _ <-. constructor. }
  destruct (f (at_ k) tab) as [tab1 a|?|] eqn:Ef; try discriminate. cbn [sbind] in E. apply smap_inv in E as (js' & E & ->).
  constructor; [eapply Hf; exact Ef|eapply IH; exact E].
Qed.

Lemma entries_sound : forall ctx fs, Forall (fun p => sound (snd p)) fs -> forall tab tab' l, ser_entries ctx fs tab = SOk tab' l ->
  Forall (fun p => good (snd p)) l.
Proof.
  intros ctx fs H. induction H as [|[k f] fs Hf _ IH]; intros tab tab' l E; cbn [ser_entries] in E. { injection E as _ <-. constructor. }
  cbn [snd] in Hf. destruct (f _ tab) as [tab1 a|?|] eqn:Ef; try discriminate. cbn [sbind] in E. apply smap_inv in E as (l' & E & ->).
  constructor; [eapply Hf; exact Ef|eapply IH; exact E].
Qed.

Definition msound (f : mfun json) : Prop := match f with MPlain g | MPresent g => forall t, sound (g t) | MAbsent => True end.

Lemma members_sound : forall ctx ms fs, Forall msound fs -> forall tab tab' l, ser_members ctx ms fs tab = SOk tab' l -> Forall (fun p => good (snd p)) l.
Proof.
  intros ctx ms. induction ms as [|m ms IH]; intros fs H tab tab' l E.
  - destruct fs; [|discriminate]. injection E as _ <-. constructor.
  - destruct fs as [|f fs]; [discriminate|]. inversion H as [|? ? Hf Hfs]; subst. cbn [ser_members] in E.
    destruct (to_write m f) as [[g|]|] eqn:W; [|now apply (IH fs Hfs tab tab')|discriminate].
    assert (Hg : sound g). { unfold to_write in W. destruct (m_kind m), f; try discriminate; injection W as <-; apply Hf. }
    destruct (g _ tab) as [tab1 a|tab1|] eqn:Eg; [|now apply (IH fs Hfs tab1 tab')|discriminate].
    apply smap_inv in E as (l' & E & ->). constructor; [eapply Hg; exact Eg|now apply (IH fs Hfs tab1 tab')].
Qed.

Lemma numbers_list : forall l, fold_right (fun x P => numbers double x /\ P) True l <-> Forall (numbers double) l.
Proof. induction l as [|x l IH]; cbn; [split; [constructor|trivial]|]. rewrite IH, Forall_cons_iff. tauto. Qed.
Lemma numbers_map : forall l : list (string * val), fold_right (fun p P => numbers double (snd p) /\ P) True l <-> Forall (fun p => numbers double (snd p)) l.
Proof. induction l as [|x l IH]; cbn; [split; [constructor|trivial]|]. rewrite IH, Forall_cons_iff. tauto. Qed.

Definition prints (v : val) : Prop := numbers double v -> forall t, sound (ser e v t).

Lemma scalar_sound : forall t v tab tab' j, numbers double v -> ser_scalar e t v tab = SOk tab' j -> good j.
Proof.
  assert (T : forall tab o tab' j, of_text tab o = SOk tab' j -> good j).
  { intros tab [s|] tab' j H; [|discriminate]. injection H as _ <-. constructor. }
  intros t v tab tab' j N H. destruct t, v; try discriminate H; cbn [ser_scalar] in H; try (injection H as _ <-; now constructor); try (now apply T in H).
  - destruct (is_finite f); [|discriminate]. injection H as _ <-. now constructor.
  - destruct (is_finite f); [|discriminate]. injection H as _ <-. now constructor.
  - cbv zeta in H. match type of H with (if ?b then _ else _) = _ => destruct b; [|discriminate] end. now apply T in H.
Qed.

Lemma types_sound : forall l ts fs, Forall prints l -> Forall (numbers double) l -> apply_types (map (ser e) l) ts = Some fs -> Forall sound fs.
Proof.
  induction l as [|x l IH]; intros [|t ts] fs P N E; try discriminate E; cbn [map apply_types] in E. { injection E as <-. constructor. }
  inversion P; inversion N; subst. destruct (apply_types (map (ser e) l) ts) as [r|] eqn:Er; [|discriminate]. injection E as <-.
  constructor; [auto|now apply (IH ts)].
Qed.

Lemma items_sound : forall l u, Forall prints l -> Forall (numbers double) l -> Forall sound (map (fun f => f u) (map (ser e) l)).
Proof.
  intros l u P N. rewrite map_map. apply Forall_map. rewrite Forall_forall in *. intros x Hx. now apply P; [|apply N].
Qed.

Definition inner (v : val) : Prop := match v with VList l => Forall prints l | VSome x => prints x | _ => True end.

Lemma dict_sound : forall l w fs, Forall inner l -> Forall (numbers double) l -> all_some (map (keyed (ser e)) l) = Some fs ->
  Forall (fun p => sound (snd p)) (map (fun p => (fst p, snd p w)) fs).
Proof.
  induction l as [|x l IH]; intros w fs P N E; cbn [map all_some] in E. { injection E as <-. constructor. }
  inversion P as [|? ? Px Pl]; inversion N as [|? ? Nx Nl]; subst.
  destruct (keyed (ser e) x) as [[k f]|] eqn:K; [|discriminate]. destruct (all_some _) as [r|] eqn:Er; [|discriminate]. injection E as <-.
  cbn [map]. constructor; [|now apply IH]. cbn [snd fst]. destruct x as [| | | | | | | | |xs| | | | | | | |]; try discriminate K.
  destruct xs as [|[| | | | |s| | | | | | | | | | | |] [|y [|? ?]]]; try discriminate K. injection K as <- <-.
  cbn [inner] in Px. inversion Px as [|? ? _ P2]; subst. inversion P2 as [|? ? Py _]; subst. cbn [numbers fold_right] in Nx. apply Py. apply Nx.
Qed.

Lemma all_some_In : forall A (l : list (option A)) r x, all_some l = Some r -> In x r -> In (Some x) l.
Proof.
  intros A. induction l as [|[a|] l IH]; intros r x H I; cbn [all_some] in H; try discriminate. { injection H as <-. destruct I. }
  destruct (all_some l) as [r'|]; [|discriminate]. injection H as <-. destruct I as [<-|I]; [now left|right; eauto].
Qed.

Lemma visited_In : forall A ordered (l fs : list (string * A)) p, visited e ordered l = Some fs -> In p fs -> In p l.
Proof.
  intros A [] l fs p H I; cbn in H; [injection H as <-; exact I|]. apply (all_some_In _ _ _ p) in H; [|exact I].
  apply in_map_iff in H as (i & H & _). now apply nth_error_In in H.
Qed.

Lemma all_print : forall v, prints v /\ inner v.
Proof.
  induction v as [| |b|z|f|s|b|z|z|l IH|l IH|i v [IH _]|l IH| |v [IH _]| |v [IH _]|a v [IH _]] using val_ind';
    (split; [|try exact I; try exact IH; try (eapply Forall_impl; [|exact IH]; cbn; tauto)]); intros N t ctx tab tab' j E.
  all: try (eapply scalar_sound; [exact N|]; destruct t; exact E).
  - assert (P : Forall prints l) by (eapply Forall_impl; [|exact IH]; cbn; tauto).
    assert (Q : Forall inner l) by (eapply Forall_impl; [|exact IH]; cbn; tauto).
    pose proof (proj1 (numbers_list l) N) as Nl.
    destruct t; cbn [ser] in E; try (eapply scalar_sound; [exact N|exact E]).
    + destruct (dict_type t) as [w|].
      * destruct (all_some _) as [fs|] eqn:Ed; [|discriminate]. apply smap_inv in E as (r & E & ->). constructor.
        eapply entries_sound; [|exact E]. now apply (dict_sound l).
      * apply smap_inv in E as (r & E & ->). constructor. eapply seq_sound; [|exact E]. now apply items_sound.
    + destruct (Nat.eqb _ _); [|discriminate]. apply smap_inv in E as (r & E & ->). constructor. eapply seq_sound; [|exact E]. now apply items_sound.
    + apply smap_inv in E as (r & E & ->). constructor. eapply seq_sound; [|exact E]. now apply items_sound.
    + destruct (apply_types _ _) as [fs|] eqn:Ea; [|discriminate]. apply smap_inv in E as (r & E & ->). constructor. eapply seq_sound; [|exact E]. now apply (types_sound l [t1; t2]).
    + destruct (apply_types _ _) as [fs|] eqn:Ea; [|discriminate]. apply smap_inv in E as (r & E & ->). constructor. eapply seq_sound; [|exact E]. now apply (types_sound l ts).
  - pose proof (proj1 (numbers_map l) N) as Nl. destruct t; cbn [ser] in E; try (eapply scalar_sound; [exact N|exact E]).
    destruct (visited e ordered _) as [fs|] eqn:Ev; [|discriminate]. apply smap_inv in E as (r & E & ->). constructor. eapply entries_sound; [|exact E].
    apply Forall_map. apply Forall_forall. intros p Hp. apply (visited_In _ _ _ _ p) in Ev; [|exact Hp]. apply in_map_iff in Ev as (q & <- & Hq). cbn [snd].
    rewrite Forall_forall in *. apply IH; auto.
  - destruct t; cbn [ser] in E; try (eapply scalar_sound; [exact N|exact E]). destruct (nth_error ts i) as [u|]; [|discriminate]. eapply IH; [exact N|exact E].
  - pose proof (proj1 (numbers_list l) N) as Nl. destruct t; cbn [ser] in E; try (eapply scalar_sound; [exact N|exact E]).
    apply smap_inv in E as (r & E & ->). constructor. eapply members_sound; [|exact E]. apply Forall_map. rewrite Forall_forall in *. intros x Hx.
    destruct (IH x Hx) as [Px Ix]. specialize (Nl x Hx). destruct x; cbn [mpart msound]; try exact I; try (now apply Px).
    intros u. apply Ix. exact Nl.
  - destruct t; cbn [ser] in E; try (eapply scalar_sound; [exact N|exact E]); (eapply IH; [exact N|exact E]).
  - destruct t; cbn [ser] in E; try (eapply scalar_sound; [exact N|exact E]). destruct (RefsModel.ref_get _ _ _) as [sg|].
    + injection E as _ <-. constructor. repeat constructor.
    + destruct (ser e v t ctx tab) as [tab1 j1|?|] eqn:Ej; try discriminate. injection E as _ <-. eapply IH; [exact N|exact Ej].
Qed.
End Printable.
