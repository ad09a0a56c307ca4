(** The errors of the reader say what is wrong. *)
From Coq Require Import List Arith ZArith NArith Ascii String Bool Lia.
From Verif Require Import Base Float Decimal10 Json Events Types DeserializeModel ParseModel TextModel TextSpec TextChars TextProof ReaderModel
  ReaderProof DepthProof OffsetSpec OffsetProof OffsetRead SyntaxSpec.
Import ListNotations.
Local Open Scope char_scope.

(** ** The next character *)

Lemma next_cons : forall (P : ascii -> Prop) c r, next P (c :: r) <-> P c.
Proof. intros P c r. split; [intros (c' & r' & E & H); now injection E as <- <-|intros H; now exists c, r]. Qed.

Lemma next_nil : forall P, ~ next P [].
Proof. intros P (c & r & E & _). discriminate. Qed.

Lemma next_not : forall (P : ascii -> Prop) t, match t with [] => True | c :: _ => ~ P c end -> ~ next P t.
Proof. intros P [|c r] H; [apply next_nil|now rewrite next_cons]. Qed.

Lemma next_not_inv : forall (P : ascii -> Prop) t, ~ next P t -> match t with [] => True | c :: _ => ~ P c end.
Proof. intros P [|c r] H; [exact I|now rewrite next_cons in H]. Qed.

Lemma starts_next : forall c t, starts c t = None <-> ~ next_is c t.
Proof.
  intros c [|d t]; cbn; [split; [intros _; apply next_nil|reflexivity]|]. unfold next_is. rewrite next_cons.
  destruct (Ascii.eqb_spec c d) as [->|N]; [split; [discriminate|intros H; now destruct H]|split; [intros _; exact N|reflexivity]].
Qed.

Lemma white_space : forall c, white c <-> is_space c = true.
Proof.
  intros c. rewrite is_space_spec. unfold white, blank. split; [intros H; now inversion H|intros H; constructor; [exact H|constructor]].
Qed.

Lemma dark_next : forall t, dark t <-> ~ next white t.
Proof.
  intros [|c t]; cbn; [split; [intros _; apply next_nil|trivial]|]. rewrite next_cons, white_space. now destruct (is_space c).
Qed.

Lemma digit_next : forall t, undigit t <-> ~ next digit t.
Proof.
  intros [|c t]; cbn; [split; [intros _; apply next_nil|trivial]|]. rewrite next_cons, <- is_digit_spec. now destruct (is_digit c).
Qed.

(** ** Strings *)

Definition string_wrong (f : fault) (t : list ascii) : Prop :=
  match f with
  | MissQuotationMark => t = []
  | InvalidEncoding => next (fun c => (code c < 32)%Z) t
  | EscapeInvalid => exists r, t = "\" :: r /\ ~ next (fun c => c = "u" \/ exists z, In (c, z) short_escapes) r
  | InvalidHex => (exists r, unit_start t r /\ ~ four r) \/ (exists r r', unit_ high t r /\ unit_start r r' /\ ~ four r')
  | SurrogateInvalid => (exists r, unit_ low t r) \/ (exists r, unit_ high t r /\ ~ (exists r', unit_start r r')) \/
      (exists r r', unit_ high t r /\ unit_ (fun y => ~ low y) r r')
  | _ => False
  end.

Lemma string_wrong_wrong : forall nearest f p t, string_wrong f t -> in_string nearest p -> wrong nearest f p t.
Proof. intros nearest [] p t H I; try contradiction; split; assumption. Qed.

Lemma four_cons : forall a b c d r, four (a :: b :: c :: d :: r) <-> hex4 a b c d <> None.
Proof.
  intros a b c d r. split.
  - intros (a' & b' & c' & d' & x & r' & E & H). injection E as <- <- <- <- <-. apply hex_value4_N in H. congruence.
  - destruct (hex4 a b c d) as [x|] eqn:E; [|congruence]. intros _. apply hex4_spec in E. now exists a, b, c, d, (Z.of_N x), r.
Qed.

Lemma scan_string_wrong : forall n s f p, List.length s <= n -> scan_string s = inr (f, p) -> string_wrong f p.
Proof.
  assert (Pre : forall l f p x, prepend l x = inr (f, p) -> x = inr (f, p)) by (intros l f p [[b r]|]; [discriminate|auto]).
  induction n as [|n IH]; intros s f p L H; [destruct s; [injection H as <- <-; reflexivity|cbn in L; lia]|].
  destruct s as [|c s1]; [injection H as <- <-; reflexivity|]. cbn [List.length] in L.
  assert (Go : forall l r, List.length r <= n -> prepend l (scan_string r) = inr (f, p) -> string_wrong f p) by (intros l r Lr Hr; apply Pre in Hr; now apply IH in Hr).
  rewrite scan_string_unfold in H; cbv beta iota in H. destruct (Ascii.eqb c quote); [discriminate|]. destruct (Ascii.eqb_spec c backslash) as [->|Nb].
  - destruct s1 as [|x s2].
    { injection H as <- <-. exists []. split; [reflexivity|apply next_nil]. }
    cbn [List.length] in L.
    destruct (Ascii.eqb x quote || Ascii.eqb x backslash || Ascii.eqb x "/") eqn:E1; [apply Go in H; [assumption|lia]|].
    destruct (Ascii.eqb_spec x "b") as [|E2]; [apply Go in H; [assumption|lia]|]. destruct (Ascii.eqb_spec x "f") as [|E3]; [apply Go in H; [assumption|lia]|].
    destruct (Ascii.eqb_spec x "n") as [|E4]; [apply Go in H; [assumption|lia]|]. destruct (Ascii.eqb_spec x "r") as [|E5]; [apply Go in H; [assumption|lia]|].
    destruct (Ascii.eqb_spec x "t") as [|E6]; [apply Go in H; [assumption|lia]|]. destruct (Ascii.eqb_spec x "u") as [->|E7].
    2: { injection H as <- <-. exists (x :: s2). split; [reflexivity|]. rewrite next_cons. intros [E|[z E]]; [contradiction|].
         apply orb_false_iff in E1 as [E1 Ec]. apply orb_false_iff in E1 as [Ea Eb]. apply Ascii.eqb_neq in Ea, Eb, Ec. unfold quote, backslash in *.
         cbn in E. repeat (destruct E as [E|E]; [injection E as <- <-; congruence|]). contradiction. }
    assert (Short : inr (InvalidHex, backslash :: "u" :: s2) = inr (list ascii * list ascii) (f, p) -> ~ four s2 -> string_wrong f p).
    { intros E N. injection E as <- <-. left. now exists s2. }
    destruct s2 as [|h1 [|h2 [|h3 [|h4 s3]]]]; try (apply Short; [exact H|intros (? & ? & ? & ? & ? & ? & E & _); discriminate]). cbn [List.length] in L.
    destruct (hex4 h1 h2 h3 h4) as [cp|] eqn:E8; [|apply Short; [exact H|rewrite four_cons; congruence]]. pose proof E8 as V. apply hex4_spec in V.
    destruct ((55296 <=? cp) && (cp <=? 57343))%N eqn:E9; [|apply Go in H; [assumption|lia]]. destruct (cp <=? 56319)%N eqn:E10.
    2: { injection H as <- <-. left. exists s3, h1, h2, h3, h4, (Z.of_N cp). split; [reflexivity|]. split; [exact V|]. unfold low. lia. }
    assert (U : unit_ high (backslash :: "u" :: h1 :: h2 :: h3 :: h4 :: s3) s3).
    { exists h1, h2, h3, h4, (Z.of_N cp). split; [reflexivity|]. split; [exact V|]. unfold high. lia. }
    assert (Alone : inr (SurrogateInvalid, backslash :: "u" :: h1 :: h2 :: h3 :: h4 :: s3) = inr (list ascii * list ascii) (f, p) -> ~ (exists r', unit_start s3 r') -> string_wrong f p).
    { intros E N. injection E as <- <-. right. left. now exists s3. }
    destruct s3 as [|y [|z s4]]; try (apply Alone; [exact H|intros [r' E]; discriminate]).
    destruct (Ascii.eqb y backslash && Ascii.eqb z "u") eqn:E11.
    2: { apply Alone; [exact H|]. intros [r' E]. unfold unit_start in E. injection E as -> -> <-. discriminate E11. }
    apply andb_true_iff in E11 as [Ey Ez]. apply Ascii.eqb_eq in Ey, Ez. subst y z.
    assert (Short2 : inr (InvalidHex, backslash :: "u" :: h1 :: h2 :: h3 :: h4 :: backslash :: "u" :: s4) = inr (list ascii * list ascii) (f, p) -> ~ four s4 -> string_wrong f p).
    { intros E N. injection E as <- <-. right. now exists (backslash :: "u" :: s4), s4. }
    destruct s4 as [|k1 [|k2 [|k3 [|k4 s5]]]]; try (apply Short2; [exact H|intros (? & ? & ? & ? & ? & ? & E & _); discriminate]). cbn [List.length] in L.
    destruct (hex4 k1 k2 k3 k4) as [cp2|] eqn:E12; [|apply Short2; [exact H|rewrite four_cons; congruence]].
    destruct ((cp2 <? 56320) || (57343 <? cp2))%N eqn:E13; [|apply Go in H; [assumption|lia]].
    injection H as <- <-. right. right. exists (backslash :: "u" :: k1 :: k2 :: k3 :: k4 :: s5), s5. split; [exact U|].
    exists k1, k2, k3, k4, (Z.of_N cp2). split; [reflexivity|]. split; [now apply hex4_spec|]. unfold low. lia.
  - destruct (N_of_ascii c <? 32)%N eqn:E; [|apply Go in H; [assumption|lia]]. injection H as <- <-. cbn [string_wrong]. rewrite next_cons, code_N. lia.
Qed.

(** The other way round. *)
Lemma wrong_scan : forall f t, string_wrong f t -> scan_string t = inr (f, t).
Proof.
  intros f t H. destruct f; try contradiction; cbn [string_wrong] in H.
  - (* InvalidHex *)
    destruct H as [(r & -> & N)|(r & r' & (a & b & c & d & x & -> & V & Hx) & -> & N)].
    + scanned. change (Ascii.eqb "\" quote) with false. change (Ascii.eqb "\" backslash) with true. cbn [Ascii.eqb Bool.eqb quote backslash orb].
      destruct r as [|h1 [|h2 [|h3 [|h4 s3]]]]; try reflexivity. rewrite four_cons in N. destruct (hex4 h1 h2 h3 h4); [now destruct N|reflexivity].
    + scanned. cbn [Ascii.eqb Bool.eqb quote backslash orb andb]. rewrite (hex_value4_N _ _ _ _ _ V). unfold high in Hx.
      replace ((55296 <=? Z.to_N x) && (Z.to_N x <=? 57343))%N with true by lia. replace (Z.to_N x <=? 56319)%N with true by lia.
      destruct r' as [|h1 [|h2 [|h3 [|h4 s3]]]]; try reflexivity. rewrite four_cons in N. destruct (hex4 h1 h2 h3 h4); [now destruct N|reflexivity].
  - (* SurrogateInvalid *)
    destruct H as [(r & a & b & c & d & x & -> & V & Hx)|[(r & (a & b & c & d & x & -> & V & Hx) & N)|(r & r' & (a & b & c & d & x & -> & V & Hx) & (a' & b' & c' & d' & x' & -> & V' & Hx'))]];
      scanned; cbn [Ascii.eqb Bool.eqb quote backslash orb andb]; rewrite (hex_value4_N _ _ _ _ _ V); unfold high, low in *.
    + replace ((55296 <=? Z.to_N x) && (Z.to_N x <=? 57343))%N with true by lia. now replace (Z.to_N x <=? 56319)%N with false by lia.
    + replace ((55296 <=? Z.to_N x) && (Z.to_N x <=? 57343))%N with true by lia. replace (Z.to_N x <=? 56319)%N with true by lia.
      destruct r as [|y [|z s4]]; try reflexivity. destruct (Ascii.eqb y backslash && Ascii.eqb z "u") eqn:E; [|reflexivity].
      apply andb_true_iff in E as [Ey Ez]. apply Ascii.eqb_eq in Ey, Ez. subst y z. destruct N. now exists s4.
    + replace ((55296 <=? Z.to_N x) && (Z.to_N x <=? 57343))%N with true by lia. replace (Z.to_N x <=? 56319)%N with true by lia.
      cbn [Ascii.eqb Bool.eqb andb]. rewrite (hex_value4_N _ _ _ _ _ V'). pose proof (hex_value4_range _ _ _ _ _ V').
      now replace ((Z.to_N x' <? 56320) || (57343 <? Z.to_N x'))%N with true by lia.
  - (* EscapeInvalid *)
    destruct H as (r & -> & N). scanned. cbn [Ascii.eqb Bool.eqb quote backslash]. destruct r as [|x r]; [reflexivity|]. rewrite next_cons in N.
    assert (NE : forall c, c = "u" \/ (exists z, In (c, z) short_escapes) -> Ascii.eqb x c = false) by (intros c Hc; apply Ascii.eqb_neq; intros ->; now apply N).
    rewrite !NE; [reflexivity|..]; (now left) || (right; eexists; cbn; tauto).
  - subst t. reflexivity.
  - destruct t as [|c t]; [now apply next_nil in H|]. rewrite next_cons, code_N in H. scanned.
    assert (NE : forall d, (32 <= Z.of_N (N_of_ascii d))%Z -> Ascii.eqb c d = false) by (intros d Hd; apply Ascii.eqb_neq; intros ->; lia).
    rewrite !NE by (vm_compute; discriminate). now replace (N_of_ascii c <? 32)%N with true by lia.
Qed.

Lemma scan_string_app : forall k b, chars k b -> forall t, scan_string (k ++ t) = prepend b (scan_string t).
Proof.
  assert (Two : forall a b x, prepend a (prepend b x) = prepend (a ++ b) x) by (intros a b [[y r]|]; [cbn; now rewrite app_assoc|reflexivity]).
  intros k b H. induction H as [|c s b H1 H2 H3 _ IH|x z s b Hx _ IH|h1 h2 h3 h4 cp s b Hh Hs _ IH|h1 h2 h3 h4 k1 k2 k3 k4 hi lo s b Hh Rh Hk Rk _ IH]; intros t.
  - cbn [app]. now destruct (scan_string t) as [[y r]|].
  - cbn [app]. scanned. rewrite !eqb_code, small_code. change (code quote) with 34%Z. change (code backslash) with 92%Z.
    replace (code c =? 34)%Z with false by lia. replace (code c =? 92)%Z with false by lia. replace (code c <? Z.of_N 32)%Z with false by lia.
    now rewrite IH, Two.
  - cbn in Hx. repeat (destruct Hx as [Hx|Hx]; [injection Hx as <- <-; cbn [app]; scanned; cbn [Ascii.eqb Bool.eqb andb orb quote backslash]; rewrite IH, Two; reflexivity|]).
    contradiction.
  - cbn [app]. scanned. cbn [Ascii.eqb Bool.eqb andb orb quote backslash]. rewrite (hex_value4_N _ _ _ _ _ Hh).
    pose proof (hex_value4_range _ _ _ _ _ Hh). replace ((55296 <=? Z.to_N cp) && (Z.to_N cp <=? 57343))%N with false by lia.
    rewrite IH, Two, utf8_bytes_spec by lia. now rewrite Z2N.id by lia.
  - cbn [app]. scanned. cbn [Ascii.eqb Bool.eqb andb orb quote backslash]. rewrite (hex_value4_N _ _ _ _ _ Hh), (hex_value4_N _ _ _ _ _ Hk).
    replace ((55296 <=? Z.to_N hi) && (Z.to_N hi <=? 57343))%N with true by lia. replace (Z.to_N hi <=? 56319)%N with true by lia.
    replace ((Z.to_N lo <? 56320) || (57343 <? Z.to_N lo))%N with false by lia.
    rewrite IH, Two, pair_code by lia. rewrite utf8_bytes_spec by lia.
    replace (Z.of_N (65536 + 1024 * (Z.to_N hi - 55296) + (Z.to_N lo - 56320))) with (65536 + 1024 * (hi - 55296) + (lo - 56320))%Z by lia. reflexivity.
Qed.

Lemma scan_string_stops : forall k b t f, chars k b -> string_wrong f t -> scan_string (k ++ t) = inr (f, t).
Proof. intros k b t f H W. rewrite (scan_string_app k b H), (wrong_scan f t W). reflexivity. Qed.

Lemma scan_string_passes : forall k b r, chars k b -> scan_string (k ++ quote :: r) = inl (b, r).
Proof. intros k b r H. rewrite (scan_string_app k b H). scanned. cbn. now rewrite app_nil_r. Qed.

(** ** Numbers *)

Definition number_wrong (nearest : list ascii -> option fl) (f : fault) (q t : list ascii) : Prop :=
  match f with
  | ValueInvalid => q = [] /\ ~ next digit t /\ ~ next_is "-" t \/ q = ["-"] /\ ~ next digit t
  | MissFraction => exists sign ds, In sign [[]; ["-"]] /\ integer_part ds /\ q = sign ++ ds ++ ["."] /\ ~ next digit t
  | MissExponent => exists sign ds fr e sg, In sign [[]; ["-"]] /\ integer_part ds /\ fraction fr /\ In e ["e"; "E"] /\
      In sg [[]; ["+"]; ["-"]] /\ q = sign ++ ds ++ fr ++ e :: sg /\ ~ next digit t /\ (sg = [] -> ~ next_is "+" t /\ ~ next_is "-" t)
  | TooBig => q = [] /\ exists x r, t = x ++ r /\ number x /\ nearest x = None /\ (forall z, integer x z -> ~ kept z) /\ whole x r
  | _ => False
  end.

(** The number that the reader takes, if its size does not matter. *)
Lemma any_complete : forall x, number x -> exists j, read_number any_number x = Some (j, []).
Proof.
  intros x (sign & ds & fr & ex & Hs & Hd & Hf & Hx & ->). rewrite <- (app_nil_r (sign ++ ds ++ fr ++ ex)). eexists. rewrite any_number_reads, <- !app_assoc, (split_minus_complete sign ds) by assumption.
  rewrite int_part_complete by (try assumption; now apply ends_after). rewrite fraction_complete by (assumption || exact I).
  rewrite exponent_complete by (assumption || exact I). reflexivity.
Qed.

Lemma passed_whole : forall x r, (forall t, near r t -> exists j, read_number any_number (x ++ t) = Some (j, t)) -> whole x r.
Proof.
  intros x r H N. destruct r as [|c r]; [now apply next_nil in N|]. rewrite next_cons in N. destruct N as [z N].
  destruct (any_complete _ N) as [j E]. destruct (H (c :: z)) as [j' E']; [now left|]. congruence.
Qed.

Lemma int_part_none : forall s, read_int_part s = None <-> ~ next digit s.
Proof.
  intros [|c s]; cbn [read_int_part]; [split; [intros _; apply next_nil|reflexivity]|]. rewrite next_cons, <- is_digit_spec.
  destruct (Ascii.eqb_spec c "0") as [->|N]; [split; [discriminate|intros H; now destruct H]|]. destruct (is_digit c); [split; [discriminate|intros H; now destruct H]|split; [discriminate|reflexivity]].
Qed.

Lemma span_none : forall s r, span_digits s = ([], r) <-> r = s /\ ~ next digit s.
Proof.
  intros s r. split.
  - intros H. apply span_sound in H as (-> & _ & U). split; [reflexivity|now apply digit_next].
  - intros [-> N]. now apply (span_complete [] s), digit_next.
Qed.

Lemma scan_number_wrong : forall nearest s f p, scan_number nearest s = inr (f, p) -> exists q, s = q ++ p /\ number_wrong nearest f q p.
Proof.
  intros nearest s f p H. rewrite scan_number_unfold in H. destruct (split_minus s) as [sign s1] eqn:E1.
  pose proof (split_minus_sound _ _ _ E1) as [F1 G1].
  destruct (read_int_part s1) as [[ds s2]|] eqn:E2.
  2: { injection H as <- <-. exists sign. split; [exact F1|]. apply int_part_none in E2. unfold split_minus in E1. destruct (starts "-" s) as [s'|] eqn:Em.
       - injection E1 as <- <-. now right.
       - injection E1 as <- <-. left. split; [reflexivity|]. split; [exact E2|]. now apply starts_next. }
  pose proof (int_part_sound _ _ _ E2) as [F2 G2]. destruct (read_fraction s2) as [[fr s3]|] eqn:E3.
  2: { unfold read_fraction in E3. destruct (starts "." s2) as [s'|] eqn:Ed; [|discriminate]. injection H as <- <-. apply starts_spec in Ed as ->.
       exists (sign ++ ds ++ ["."]). split; [rewrite F1, F2, <- !app_assoc; reflexivity|]. exists sign, ds. split; [exact G1|]. split; [exact G2|]. split; [reflexivity|].
       destruct (span_digits s') as [[|d l] r'] eqn:Es; [|discriminate]. now apply span_none in Es. }
  pose proof (fraction_sound _ _ _ E3) as [F3 G3]. destruct (read_exponent s3) as [[ex s4]|] eqn:E4.
  - assert (f = TooBig) as -> by (destruct (starts "." s2), fr, ex, (kept_b (signed sign ds)); try discriminate; destruct (nearest _); try discriminate; now injection H as <- <-).
    pose proof (exponent_sound _ _ _ E4) as [F4 G4].
    assert (X : p = s /\ nearest (sign ++ ds ++ fr ++ ex) = None /\ ((fr = [] /\ ex = [] /\ kept_b (signed sign ds) = false) \/ fr <> [] \/ ex <> [])).
    { destruct (starts "." s2), fr, ex, (kept_b (signed sign ds)); try discriminate; destruct (nearest _); try discriminate; injection H as <-;
        (split; [reflexivity|]; split; [reflexivity|]); (now left) || (right; left; discriminate) || (right; right; discriminate). }
    destruct X as (-> & En & K). exists []. split; [reflexivity|]. split; [reflexivity|]. exists (sign ++ ds ++ fr ++ ex), s4.
    split; [now rewrite F1, F2, F3, F4, <- !app_assoc|]. split; [exists sign, ds, fr, ex; tauto|]. split; [exact En|]. split.
    + intros z Hz Kz.
      assert (Odd : forall c, In c (fr ++ ex) -> ~ digit c -> c <> "-" -> False).
      { intros c Hc Nd Nm. apply integer_chars in Hz. rewrite Forall_forall in Hz. destruct (Hz c); [|contradiction|contradiction].
        apply in_or_app. right. apply in_or_app. now right. }
      destruct K as [(-> & -> & K)|[K|K]].
      * cbn [app] in Hz. rewrite app_nil_r in Hz. apply integer_inv in Hz as (sign' & ds' & Hs' & Hd' & E & ->).
        apply signed_unique in E as [<- <-]; try assumption. apply kept_spec in Kz. congruence.
      * destruct G3 as [->|(es & _ & ->)]; [congruence|]. apply (Odd "."); [now left|unfold digit; codes; lia|discriminate].
      * destruct G4 as [->|(e & sg & es & He & _ & _ & ->)]; [congruence|].
        apply (Odd e); [apply in_or_app; right; now left| |]; destruct He as [<-|[<-|[]]]; try discriminate; unfold digit; codes; lia.
    + apply passed_whole. intros t N. eexists. rewrite any_number_reads, <- !app_assoc.
      pose proof (near_app ex _ _ N) as N4. rewrite <- F4 in N4. pose proof (near_app fr _ _ N4) as N3. rewrite <- F3 in N3.
      pose proof (near_app ds _ _ N3) as N2. rewrite <- F2 in N2.
      rewrite (minus_again _ _ _ E1 _ N2), (int_part_again _ _ _ E2 _ N3), (fraction_again _ _ _ E3 _ N4), (exponent_again _ _ _ E4 _ N). reflexivity.
  - assert (H' : f = MissExponent /\ p = match tl s3 with d :: r => if Ascii.eqb d "+" || Ascii.eqb d "-" then r else tl s3 | [] => tl s3 end)
      by (destruct (starts "." s2); now injection H as <- <-). clear H. destruct H' as [-> Hp].
    destruct s3 as [|c s3]; [discriminate|]. cbn [read_exponent] in E4. cbn [tl] in Hp. destruct (Ascii.eqb c "e" || Ascii.eqb c "E") eqn:Ec; [|discriminate].
    assert (He : In c ["e"; "E"]) by (apply orb_true_iff in Ec; rewrite !Ascii.eqb_eq in Ec; cbn; intuition).
    assert (Sg : exists sg, In sg [[]; ["+"]; ["-"]] /\ s3 = sg ++ p /\ ~ next digit p /\ (sg = [] -> ~ next_is "+" p /\ ~ next_is "-" p)).
    { destruct s3 as [|d s3].
      - subst p. exists []. split; [now left|]. split; [reflexivity|]. split; [apply next_nil|]. intros _. split; apply next_nil.
      - destruct (Ascii.eqb d "+" || Ascii.eqb d "-") eqn:Ed; subst p.
        + exists [d]. split; [apply orb_true_iff in Ed; rewrite !Ascii.eqb_eq in Ed; destruct Ed as [-> | ->]; cbn; tauto|]. split; [reflexivity|].
          split; [|discriminate]. destruct (span_digits s3) as [[|a l] r'] eqn:Es; [now apply span_none in Es|discriminate].
        + exists []. split; [now left|]. split; [reflexivity|]. split; [destruct (span_digits (d :: s3)) as [[|a l] r'] eqn:Es; [now apply span_none in Es|discriminate]|].
          intros _. apply orb_false_iff in Ed as [Ea Eb]. apply Ascii.eqb_neq in Ea, Eb. unfold next_is. rewrite !next_cons. split; congruence. }
    destruct Sg as (sg & Hs & -> & Nd & Ns). exists (sign ++ ds ++ fr ++ c :: sg). split; [rewrite F1, F2, F3, <- !app_assoc; reflexivity|].
    exists sign, ds, fr, c, sg. tauto.
Qed.

(** The other way round. *)
Lemma undigit_end : forall d, ~ digit d -> forall r, undigit (d :: r).
Proof. intros d H r. cbn. rewrite <- is_digit_spec in H. now destruct (is_digit d). Qed.

Lemma whole_parts : forall sign ds fr ex r, In sign [[]; ["-"]] -> integer_part ds -> fraction fr -> exponent ex -> whole (sign ++ ds ++ fr ++ ex) r ->
  read_int_part (ds ++ fr ++ ex ++ r) = Some (ds, fr ++ ex ++ r) /\ read_fraction (fr ++ ex ++ r) = Some (fr, ex ++ r) /\ read_exponent (ex ++ r) = Some (ex, r).
Proof.
  intros sign ds fr ex r Hs Hd Hf Hx W.
  assert (Digit0 : digit "0") by (unfold digit; codes; lia).
  assert (Zero : digits ["0"]) by (split; [discriminate|constructor; [exact Digit0|constructor]]).
  assert (No : forall c r', r = c :: r' -> forall sign' ds' fr' ex' z, In sign' [[]; ["-"]] -> integer_part ds' -> fraction fr' -> exponent ex' ->
    (sign ++ ds ++ fr ++ ex) ++ c :: z = sign' ++ ds' ++ fr' ++ ex' -> False).
  { intros c r' -> sign' ds' fr' ex' z H1 H2 H3 H4 E. apply W, next_cons. exists z. now exists sign', ds', fr', ex'. }
  assert (More : forall ds0 c, digits ds0 -> digit c -> digits (ds0 ++ [c])).
  { intros ds0 c [N D] Dc. split; [now destruct ds0|]. apply Forall_app. split; [exact D|]. constructor; [exact Dc|constructor]. }
  assert (Uex : ex <> [] -> undigit r).
  { intros N. apply digit_next, next_not. destruct r as [|c r']; [exact I|]. intros Dc. destruct Hx as [->|(e & sg & es & He & Hg & De & ->)]; [congruence|].
    apply (No c r' eq_refl sign ds fr (e :: sg ++ es ++ [c]) []); try assumption.
    - right. exists e, sg, (es ++ [c]). auto.
    - rewrite <- !app_assoc. cbn [app]. now rewrite <- !app_assoc. }
  assert (Ufr : ex = [] -> fr <> [] -> undigit r).
  { intros -> N. apply digit_next, next_not. destruct r as [|c r']; [exact I|]. intros Dc. destruct Hf as [->|(es & De & ->)]; [congruence|].
    apply (No c r' eq_refl sign ds ("." :: es ++ [c]) [] []); try assumption.
    - right. exists (es ++ [c]). auto.
    - rewrite !app_nil_r, <- !app_assoc. reflexivity. }
  assert (Uds : ex = [] -> fr = [] -> ds <> ["0"] -> undigit r).
  { intros -> -> N. apply digit_next, next_not. destruct r as [|c r']; [exact I|]. intros Dc. destruct Hd as [[Ne Dd] Z0].
    apply (No c r' eq_refl sign (ds ++ [c]) [] [] []); try assumption.
    - split; [now apply More|]. destruct ds as [|d ds]; [congruence|]. cbn [app hd] in *. intros Ed. now rewrite (Z0 Ed) in N.
    - rewrite !app_nil_r, <- !app_assoc. reflexivity. }
  assert (Ex : read_exponent (ex ++ r) = Some (ex, r)).
  { destruct Hx as [->|(e & sg & es & He & Hg & [Ne De] & ->)].
    - cbn [app]. destruct r as [|c r']; [reflexivity|]. cbn [read_exponent]. destruct (Ascii.eqb c "e" || Ascii.eqb c "E") eqn:Ec; [|reflexivity]. exfalso.
      assert (He : In c ["e"; "E"]) by (apply orb_true_iff in Ec; rewrite !Ascii.eqb_eq in Ec; cbn; intuition).
      apply (No c r' eq_refl sign ds fr [c; "0"] ["0"]); try assumption; [|rewrite app_nil_r, <- !app_assoc; reflexivity].
      right. exists c, [], ["0"]. split; [exact He|]. split; [now left|]. now split.
    - specialize (Uex ltac:(discriminate)). cbn [app read_exponent]. replace (Ascii.eqb e "e" || Ascii.eqb e "E") with true by (destruct He as [<-|[<-|[]]]; reflexivity).
      rewrite <- app_assoc. destruct Hg as [<-|[<-|[<-|[]]]]; cbn [app].
      + destruct es as [|d es]; [congruence|]. cbn [app]. inversion De as [|? ? Hdd _]; subst.
        replace (Ascii.eqb d "+" || Ascii.eqb d "-") with false by (unfold digit in Hdd; rewrite !eqb_code; codes; lia).
        change (d :: es ++ r) with ((d :: es) ++ r). rewrite (span_complete (d :: es) r De Uex). reflexivity.
      + cbn [Ascii.eqb Bool.eqb andb orb]. rewrite (span_complete es r De Uex). destruct es; [congruence|reflexivity].
      + cbn [Ascii.eqb Bool.eqb andb orb]. rewrite (span_complete es r De Uex). destruct es; [congruence|reflexivity]. }
  assert (Uf : fr <> [] -> undigit (ex ++ r)).
  { intros N. destruct ex as [|e0 ex0] eqn:Ee; [now apply Ufr|]. destruct Hx as [|(e & sg & es & He & _ & _ & Hx)]; [discriminate|]. injection Hx as -> _.
    cbn [app]. apply undigit_end. destruct He as [<-|[<-|[]]]; unfold digit; codes; lia. }
  assert (Fr : read_fraction (fr ++ ex ++ r) = Some (fr, ex ++ r)).
  { unfold read_fraction. destruct Hf as [->|(es & [Ne De] & ->)]; cbn [app].
    - destruct (starts "." (ex ++ r)) as [r1|] eqn:Es; [|reflexivity]. exfalso. apply starts_spec in Es.
      destruct Hx as [->|(e & sg & es & He & _ & _ & ->)].
      + cbn [app] in Es. apply (No "." r1 Es sign ds ["."; "0"] [] ["0"]); try assumption; [right; now exists ["0"]|now left|cbn [app]; rewrite app_nil_r, <- !app_assoc; reflexivity].
      + cbn [app] in Es. injection Es as -> _. cbn in He. intuition discriminate.
    - rewrite starts_same, (span_complete es (ex ++ r)) by (try assumption; apply Uf; discriminate). destruct es; [congruence|reflexivity]. }
  split; [|now split]. destruct (list_eq_dec ascii_dec ds ["0"]) as [->|N0]; [reflexivity|]. apply int_part_complete; [assumption|].
  destruct fr as [|f0 fr0] eqn:Ef.
  - cbn [app]. destruct ex as [|e0 ex0] eqn:Ee; [now apply Uds|]. destruct Hx as [|(e & sg & es & He & _ & _ & Hx)]; [discriminate|]. injection Hx as -> _.
    cbn [app]. apply undigit_end. destruct He as [<-|[<-|[]]]; unfold digit; codes; lia.
  - destruct Hf as [|(es & _ & Hf)]; [discriminate|]. injection Hf as -> _. cbn [app]. apply undigit_end; unfold digit; codes; lia.
Qed.

(** A number that is followed by something else. *)
Lemma whole_nil : forall x, whole x [].
Proof. intros x. apply next_nil. Qed.

Lemma whole_scan : forall nearest x r j, number x -> whole x r -> value nearest x j -> scan_number nearest (x ++ r) = inl (j, r).
Proof.
  intros nearest x r j Nx W V. assert (R : read_number nearest (x ++ []) = Some (j, [])).
  { apply (number_first any_number) in Nx as (c & s' & Ex & _ & D). rewrite Ex in V |- *.
    inversion V as [Hx|Hx|Hx|? ? C Hx|? z Hz K|? f Hn K Hf|? ? Hx|? ? ? Hx|? ? Hx|? ? ? Hx]; subst; try (exfalso; apply D; cbn; tauto).
    - apply read_number_integer; [assumption|assumption|exact I].
    - apply read_number_double; [assumption|assumption|assumption|exact I]. }
  destruct Nx as (sign & ds & fr & ex & Hs & Hd & Hf & Hx & ->).
  assert (Both : forall t, whole (sign ++ ds ++ fr ++ ex) t -> scan_number nearest ((sign ++ ds ++ fr ++ ex) ++ t) =
    match fr, ex, kept_b (signed sign ds) with
    | [], [], true => inl (JInt (signed sign ds), t)
    | _, _, _ => match nearest (sign ++ ds ++ fr ++ ex) with Some f => inl (JDbl f, t) | None => inr (TooBig, (sign ++ ds ++ fr ++ ex) ++ t) end
    end).
  { intros t Wt. rewrite scan_number_unfold. destruct (whole_parts _ _ _ _ _ Hs Hd Hf Hx Wt) as (P1 & P2 & P3). rewrite <- !app_assoc, split_minus_complete by assumption.
    rewrite P1, P2, P3. now destruct (starts "." (fr ++ ex ++ t)). }
  rewrite (Both r W). rewrite <- scan_number_plain, (Both [] (whole_nil _)) in R.
  destruct fr, ex, (kept_b (signed sign ds)); try destruct (nearest _); cbn in R; try discriminate R; injection R as <-; reflexivity.
Qed.

Lemma wrong_scan_number : forall nearest f q t, number_wrong nearest f q t -> scan_number nearest (q ++ t) = inr (f, t).
Proof.
  intros nearest f q t H. rewrite scan_number_unfold. destruct f; try contradiction; cbn [number_wrong] in H.
  - destruct H as [(-> & Nd & Nm)|(-> & Nd)].
    + cbn [app]. unfold split_minus. apply starts_next in Nm. rewrite Nm. apply int_part_none in Nd. now rewrite Nd.
    + cbn [app]. unfold split_minus. rewrite starts_same. apply int_part_none in Nd. now rewrite Nd.
  - (* TooBig *)
    destruct H as (-> & x & r & -> & (sign & ds & fr & ex & Hs & Hd & Hf & Hx & ->) & Hn & Hk & W). cbn [app].
    destruct (whole_parts _ _ _ _ _ Hs Hd Hf Hx W) as (P1 & P2 & P3). rewrite <- !app_assoc, split_minus_complete by assumption. rewrite P1, P2, P3.
    assert (K : fr = [] -> ex = [] -> kept_b (signed sign ds) = false).
    { intros -> ->. rewrite !app_nil_r in Hk. specialize (Hk _ (integer_signed sign ds Hs Hd)). rewrite <- kept_spec in Hk. now destruct (kept_b _). }
    destruct (starts "." (fr ++ ex ++ r)), fr, ex; rewrite ?K by reflexivity; cbv iota; rewrite Hn; reflexivity.
  - destruct H as (sign & ds & Hs & Hd & -> & N). rewrite <- !app_assoc. rewrite split_minus_complete by assumption. cbn [app].
    rewrite int_part_complete; [|assumption|now apply undigit_end; unfold digit; codes; lia]. rewrite starts_same. unfold read_fraction. rewrite starts_same.
    now rewrite (proj2 (span_none t t) (conj eq_refl N)).
  - destruct H as (sign & ds & fr & e & sg & Hs & Hd & Hf & He & Hg & -> & N & Ns). rewrite <- !app_assoc. rewrite split_minus_complete by assumption. cbn [app].
    assert (Ude : forall r, undigit (e :: r)) by (intros r; apply undigit_end; destruct He as [<-|[<-|[]]]; unfold digit; codes; lia).
    rewrite int_part_complete; [|assumption|].
    2: { destruct Hf as [->|(es & _ & ->)]; [apply Ude|apply undigit_end; unfold digit; codes; lia]. }
    assert (Fr : read_fraction (fr ++ e :: sg ++ t) = Some (fr, e :: sg ++ t)).
    { unfold read_fraction. destruct Hf as [->|(es & [Ne De] & ->)]; cbn [app].
      - replace (starts "." (e :: sg ++ t)) with (@None (list ascii)) by (destruct He as [<-|[<-|[]]]; reflexivity). reflexivity.
      - rewrite starts_same, (span_complete es (e :: sg ++ t)) by (assumption || apply Ude). destruct es; [congruence|reflexivity]. }
    rewrite Fr.
    assert (Ex : read_exponent (e :: sg ++ t) = None /\ match sg ++ t with d :: r => if Ascii.eqb d "+" || Ascii.eqb d "-" then r else sg ++ t | [] => sg ++ t end = t).
    { pose proof (proj2 (span_none t t) (conj eq_refl N)) as Sp. cbn [read_exponent]. replace (Ascii.eqb e "e" || Ascii.eqb e "E") with true by (destruct He as [<-|[<-|[]]]; reflexivity).
      destruct Hg as [<-|[<-|[<-|[]]]]; cbn [app].
      - destruct (Ns eq_refl) as [Np Nm]. destruct t as [|d t]; [now split|]. unfold next_is in Np, Nm. rewrite next_cons in Np, Nm.
        replace (Ascii.eqb d "+" || Ascii.eqb d "-") with false by (symmetry; apply orb_false_iff; split; apply Ascii.eqb_neq; congruence). now rewrite Sp.
      - cbn [Ascii.eqb Bool.eqb andb orb]. now rewrite Sp.
      - cbn [Ascii.eqb Bool.eqb andb orb]. now rewrite Sp. }
    destruct Ex as [Ex Et]. rewrite Ex. cbn [tl]. rewrite Et. now destruct (starts "." (fr ++ e :: sg ++ t)).
Qed.
