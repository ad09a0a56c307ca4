(** Properties of deserialization from a document. *)
From Coq Require Import List Arith ZArith NArith Ascii String Bool Lia Permutation.
From Verif Require Import Base Float NumericModel NumericSpec EnumModel RefsModel Json PathModel Types SerializeModel
  DeserializeModel DenoteSpec SameSpec DenoteProof DenoteFacts MemberFacts MapFacts VariantFacts.
Import ListNotations.
Local Open Scope string_scope.
Local Open Scope list_scope.

(** A program for the examples. Class 0: an int32, a bool with a default and an optional
    string; class 1: a nested object and a list of such; class 2: derived from a class with
    one bool; class 3: two shared pointers. *)
Definition ex_point : cls := {|
  c_members := [{| m_name := "n"; m_kind := MRequired; m_ty := TInt int32 |};
                {| m_name := "b"; m_kind := MDefault; m_ty := TBool |};
                {| m_name := "s"; m_kind := MOptional; m_ty := TString |}];
  c_root := 3; c_default := [VIndet; VBool true; VNone]; c_value := [VInt 0; VBool true; VNone] |}.
Definition ex_nested : cls := {|
  c_members := [{| m_name := "p"; m_kind := MRequired; m_ty := TClass 0 |};
                {| m_name := "ps"; m_kind := MRequired; m_ty := TVector (TClass 0) |}];
  c_root := 2; c_default := [VObj [VIndet; VBool true; VNone]; VList []];
  c_value := [VObj [VInt 0; VBool true; VNone]; VList []] |}.
Definition ex_derived : cls := {|
  c_members := [{| m_name := "b"; m_kind := MRequired; m_ty := TBool |};
                {| m_name := "n"; m_kind := MRequired; m_ty := TInt int32 |};
                {| m_name := "s"; m_kind := MRequired; m_ty := TString |}];
  c_root := 1; c_default := [VIndet; VIndet; VStr ""]; c_value := [VBool false; VInt 0; VStr ""] |}.
Definition ex_links : cls := {|
  c_members := [{| m_name := "n"; m_kind := MRequired; m_ty := TInt int32 |};
                {| m_name := "a"; m_kind := MRequired; m_ty := TShared TString |};
                {| m_name := "b"; m_kind := MRequired; m_ty := TShared TString |}];
  c_root := 3; c_default := [VIndet; VPtrNull; VPtrNull]; c_value := [VInt 0; VPtrNull; VPtrNull] |}.
Definition ex_program (cs : list cls) : env := {|
  classes := cs; tick := 1000000000; endian := Base64Model.little; after := fun _ => [];
  less := fun _ _ _ => false; iteration := fun keys => seq 0 (List.length keys) |}.
Definition ex_plain : env := ex_program [ex_point; ex_nested; ex_derived].
Definition ex_all : env := ex_program [ex_point; ex_nested; ex_derived; ex_links].

Example ex_ordinary : ordinary ex_plain.
Proof. split; [|split; [|reflexivity]]; intros c; do 3 (destruct c as [|c]; [reflexivity|]); unfold class_of; cbn; destruct c; reflexivity. Qed.

(** C12: an integer in the range of the type is stored; every other document is rejected. *)
Theorem C12_deserialize : forall e k j, existsb (Z.eqb (width k)) [8; 16; 32; 64]%Z = true ->
  (forall z, j = JInt z -> in_range k z ->
     deserialize_throw e (TInt k) j = Returned (VInt z) /\ forall obj, deserialize e (TInt k) j obj = DRet true start (VInt z)) /\
  ((forall z, j = JInt z -> ~ in_range k z) ->
     (exists why, deserialize_throw e (TInt k) j = Threw why ["/"%char]) /\ forall obj, deserialize e (TInt k) j obj = DRet false start obj).
Proof. exact int_read. Qed.
Print Assumptions C12_deserialize.

Example C12_deserialize_example : let byte := {| width := 8; is_signed := false |} in
  deserialize_throw ex_plain (TInt byte) (JInt 255) = Returned (VInt 255) /\
  deserialize_throw ex_plain (TInt byte) (JInt 256) = Threw (OutOfRange false) ["/"%char] /\
  deserialize_throw ex_plain (TInt byte) (JInt (-1)) = Threw (WrongType "unsigned integer") ["/"%char] /\
  deserialize ex_plain (TInt int32) (JDbl (FFin false 1 0)) (VInt 5) = DRet false start (VInt 5).
Proof. repeat split; vm_compute; reflexivity. Qed.

(** C21: throwing deserialization returns a value exactly if the document denotes it. *)
Theorem C21_accepts_exactly : forall e t, ordinary e -> ordinary_type t -> forall j v,
  deserialize_throw e t j = Returned v <-> denotes e t (dinit e t) j v.
Proof. exact accepts_exactly. Qed.
Print Assumptions C21_accepts_exactly.

(** C21: otherwise it throws; byte strings, times and dates, with undefined behaviour of
    their own (C05, C10), aside. *)
Theorem C21_throws_otherwise : forall e t, ordinary e -> ordinary_type t -> codec_free_classes e -> codec_free t = true -> forall j,
  (forall v, ~ denotes e t (dinit e t) j v) -> exists why p, deserialize_throw e t j = Threw why p.
Proof. exact throws_otherwise. Qed.
Print Assumptions C21_throws_otherwise.

(** C21: a document has at most one meaning. *)
Theorem C21_one_meaning : forall e t, ordinary e -> ordinary_type t -> forall j old v w,
  denotes e t old j v -> denotes e t old j w -> v = w.
Proof. exact denotes_unique_value. Qed.
Print Assumptions C21_one_meaning.

Definition ex_document (n : json) : json :=
  JObj [("ps", JArr [JObj [("n", JInt 1)]; JObj [("s", JStr "x"); ("n", n); ("b", JBool false)]]);
        ("p", JObj [("n", JInt 7)])].
Example C21_example :
  deserialize_throw ex_plain (TClass 1) (ex_document (JInt (-5))) =
    Returned (VObj [VObj [VInt 7; VBool true; VNone];
                    VList [VObj [VInt 1; VBool true; VNone]; VObj [VInt (-5); VBool false; VSome (VStr "x")]]]) /\
  deserialize_throw ex_plain (TClass 1) (ex_document (JStr "?")) = Threw (WrongType "integer") (list_ascii_of_string "/ps/1/n") /\
  denotes ex_plain (TClass 0) (dinit ex_plain (TClass 0)) (JObj [("n", JInt 1)]) (VObj [VInt 1; VBool true; VNone]).
Proof.
  split; [vm_compute; reflexivity|split; [vm_compute; reflexivity|]].
  apply accepts_exactly; [exact ex_ordinary|split; reflexivity|vm_compute; reflexivity].
Qed.

(** C22: a document that denotes a value is read, with flag true. *)
Theorem C22_all_read : forall e t, ordinary e -> ordinary_type t -> forall j obj v, denotes e t obj j v ->
  deserialize e t j obj = DRet true start v.
Proof. exact all_read. Qed.
Print Assumptions C22_all_read.

(** C22: the flag false is always justified. *)
Theorem C22_false_justified : forall e t, ordinary e -> ordinary_type t -> forall j obj st v,
  deserialize e t j obj = DRet false st v -> forall w, ~ denotes e t obj j w.
Proof. exact false_justified. Qed.
Print Assumptions C22_false_justified.

(** C22: the flag true is reliable for types without classes... *)
Theorem C22_classless_exact : forall e t, ordinary e -> ordinary_type t -> classless t = true -> forall j obj st v,
  deserialize e t j obj = DRet true st v -> denotes e t obj j v.
Proof. exact classless_exact. Qed.
Print Assumptions C22_classless_exact.

(** C22: ...but that of a class is the flag of the last member, if it is in the document. *)
Theorem C22_last_decides : forall e c ms m, unshared_classes e -> c_members (class_of e c) = ms ++ [m] ->
  List.length (ms ++ [m]) <= c_root (class_of e c) ->
  forall l j, find_member l (m_name m) = Some j -> forall olds b st vs,
  deserialize e (TClass c) (JObj l) (VObj olds) = DRet b st (VObj vs) ->
  exists w, deserialize e (m_ty m) j (match m_kind m with MOptional => dinit e (m_ty m) | _ => nth (List.length ms) olds VIndet end)
            = DRet b start w.
Proof. exact last_decides. Qed.
Print Assumptions C22_last_decides.

(** C22: so it is not true that the flag true means that the document denotes the value. *)
Theorem C22_true_means_read_refuted : exists e t j obj v, ordinary e /\ ordinary_type t /\
  deserialize e t j obj = DRet true start v /\ forall w, ~ denotes e t obj j w.
Proof.
  exists ex_plain, (TClass 0), (JObj [("n", JStr "no number"); ("b", JBool false)]), (VObj [VInt 3; VBool true; VNone]),
    (VObj [VInt 3; VBool false; VNone]).
  split; [exact ex_ordinary|]. split; [split; reflexivity|]. split; [vm_compute; reflexivity|].
  intros w D. inversion D as [| | | | | | | | | | | | | | | | | | |c old l vs M|]; subst. cbn in M.
  inversion M as [|m ms olds v vs' Mm Ms]; subst. inversion Mm as [j v' K F Dn| | |]; subst; try discriminate.
  cbn in F. injection F as <-. inversion Dn.
Qed.
Print Assumptions C22_true_means_read_refuted.

Example C22_example :
  (* the failure of the last member is seen, that of the first is not *)
  deserialize ex_plain (TClass 2) (JObj [("b", JInt 0); ("n", JInt 1); ("s", JStr "x")]) (VObj [VBool true; VInt 0; VStr ""])
    = DRet false start (VObj [VBool true; VInt 1; VStr "x"]) /\
  deserialize ex_plain (TClass 0) (JObj [("n", JNull); ("s", JStr "x")]) (VObj [VInt 1; VBool true; VNone])
    = DRet true start (VObj [VInt 1; VBool true; VSome (VStr "x")]) /\
  deserialize ex_plain (TClass 0) (JObj [("n", JInt 2); ("s", JNull)]) (VObj [VInt 1; VBool true; VNone])
    = DRet false start (VObj [VInt 2; VBool true; VSome (VStr "")]).
Proof. repeat split; vm_compute; reflexivity. Qed.

(** C25: a variant is the first alternative that reads without exceptions. *)
Theorem C25_first : forall e ts j, unshared_classes e -> forallb unshared ts = true -> forall obj i v,
  deserialize e (TVariant ts) j obj = DRet true start (VVariant i v) <->
  exists t, nth_error ts i = Some t /\ deserialize e t j (dinit e t) = DRet true start v /\
  forall k u, k < i -> nth_error ts k = Some u -> exists w, deserialize e u j (dinit e u) = DRet false start w.
Proof. exact variant_first. Qed.
Print Assumptions C25_first.

(** C25: it fails, and leaves the object as it is, exactly if there is none... *)
Theorem C25_none : forall e ts j, unshared_classes e -> forallb unshared ts = true -> forall obj w,
  deserialize e (TVariant ts) j obj = DRet false start w <->
  w = obj /\ forall u, In u ts -> exists x, deserialize e u j (dinit e u) = DRet false start x.
Proof. exact variant_none. Qed.
Print Assumptions C25_none.

(** C25: ...and throws exactly then. *)
Theorem C25_throws : forall e ts j, unshared_classes e -> forallb unshared ts = true -> forall why p,
  deserialize_throw e (TVariant ts) j = Threw why p <->
  (why = NoAlternative /\ p = path_str [] /\ forall u, In u ts -> exists x, deserialize e u j (dinit e u) = DRet false start x).
Proof. exact variant_throws. Qed.
Print Assumptions C25_throws.

(** C25: anywhere in a document, also with shared pointers; the alternatives that fail may
    have changed the table of shared objects. *)
Theorem C25_first_anywhere : forall e root j ts old ctx loc st st' i v exc,
  deser e root j exc (TVariant ts) old ctx loc st = DRet true st' (VVariant i v) ->
  exists t s, nth_error ts i = Some t /\ deser e root j false t (dinit e t) ctx loc s = DRet true st' v /\
  forall k u, k < i -> nth_error ts k = Some u -> exists s s' w, deser e root j false u (dinit e u) ctx loc s = DRet false s' w.
Proof. exact variant_first_state. Qed.
Print Assumptions C25_first_anywhere.

(** With the flags of C22, the first alternative that reads may be the wrong one. *)
Example C25_example : let t := TVariant [TInt int32; TClass 0; TClass 2; TString] in
  deserialize_throw ex_plain t (JStr "x") = Returned (VVariant 3 (VStr "x")) /\
  deserialize_throw ex_plain t (JObj [("n", JInt 1)]) = Returned (VVariant 1 (VObj [VInt 1; VBool true; VNone])) /\
  deserialize_throw ex_plain t (JArr []) = Threw NoAlternative ["/"%char] /\
  deserialize_throw ex_plain t (JObj [("b", JBool true); ("n", JStr "?"); ("s", JStr "x")])
    = Returned (VVariant 1 (VObj [VIndet; VBool true; VSome (VStr "x")])).
Proof. repeat split; vm_compute; reflexivity. Qed.

(** C29 and C36: members that the class does not declare, and all but the first of several
    members of the same name, are ignored, at any depth. *)
Theorem C29_deserialize_ignores : forall e t j j', unshared_classes e -> unshared t = true -> superfluous e t j j' ->
  deserialize_throw e t j' = deserialize_throw e t j /\ forall obj, deserialize e t j' obj = deserialize e t j obj.
Proof. exact ignores. Qed.
Print Assumptions C29_deserialize_ignores.

Example C29_example :
  superfluous ex_plain (TClass 0) (JObj [("n", JInt 1)]) (JObj [("unknown", JNull); ("n", JInt 1); ("n", JInt 2); ("$ref", JStr "/x")]) /\
  deserialize_throw ex_plain (TClass 0) (JObj [("unknown", JNull); ("n", JInt 1); ("n", JInt 2); ("$ref", JStr "/x")])
    = Returned (VObj [VInt 1; VBool true; VNone]).
Proof.
  split; [|vm_compute; reflexivity]. constructor. apply more_unread.
  { left. unfold declared. cbn. intros [E|[E|[E|[]]]]; discriminate. }
  apply more_same; [intros; constructor|]. apply more_unread; [right; now left|]. apply more_unread; [|constructor].
  left. unfold declared. cbn. intros [E|[E|[E|[]]]]; discriminate.
Qed.

(** C36: the first occurrence goes to the member... *)
Theorem C36_member_first : forall e c l1 n j l2, unshared_classes e -> In n (map fst l1) ->
  deserialize_throw e (TClass c) (JObj (l1 ++ (n, j) :: l2)) = deserialize_throw e (TClass c) (JObj (l1 ++ l2)) /\
  forall obj, deserialize e (TClass c) (JObj (l1 ++ (n, j) :: l2)) obj = deserialize e (TClass c) (JObj (l1 ++ l2)) obj.
Proof. exact later_ignored. Qed.
Print Assumptions C36_member_first.

(** C36: ...and the last to a map. *)
Theorem C36_map_last : forall e t o l1 k j l2 m, ordinary e -> ordinary_type t ->
  Forall (fun p => until_nul (fst p) <> until_nul k) l2 ->
  deserialize_throw e (TMap o t) (JObj (l1 ++ (k, j) :: l2)) = Returned (VMap m) ->
  exists v, deserialize_throw e t j = Returned v /\ find_entry m (until_nul k) = Some v.
Proof. exact map_last. Qed.
Print Assumptions C36_map_last.

Example C36_example :
  deserialize_throw ex_plain (TMap true (TInt int32)) (JObj [("k", JInt 1); ("a", JInt 2); ("k", JInt 3)])
    = Returned (VMap [("a", VInt 2); ("k", VInt 3)]).
Proof. vm_compute. reflexivity. Qed.

(** C30: a missing required member throws, with the path of the object, if everything before
    it can be read... *)
Theorem C30_missing_throws : forall e c ms1 m ms2 l olds vs root ctx loc st, ordinary e ->
  c_members (class_of e c) = ms1 ++ m :: ms2 -> m_kind m = MRequired -> find_member l (m_name m) = None ->
  members_denote (denotes e) e l ms1 olds vs ->
  deser e root (JObj l) true (TClass c) (VObj olds) ctx loc st = DThrow (MissingProperty (m_name m)) ctx.
Proof. exact missing_required. Qed.
Print Assumptions C30_missing_throws.

(** C30: ...and in any case no object is returned. *)
Theorem C30_required : forall e c m l v, In m (c_members (class_of e c)) -> m_kind m = MRequired -> find_member l (m_name m) = None ->
  deserialize_throw e (TClass c) (JObj l) <> Returned v.
Proof. exact required_needed. Qed.
Print Assumptions C30_required.

(** C30: other members that are missing: optional ones become empty, the others are kept. *)
Theorem C30_kept : forall e c l obj b st vs i m,
  deserialize e (TClass c) (JObj l) obj = DRet b st (VObj vs) ->
  nth_error (c_members (class_of e c)) i = Some m -> find_member l (m_name m) = None ->
  nth_error vs i = Some (match m_kind m with MOptional => VNone | _ => nth i (components obj) VIndet end).
Proof. exact absent_kept. Qed.
Print Assumptions C30_kept.

Theorem C30_default : forall e c l vs i m,
  deserialize_throw e (TClass c) (JObj l) = Returned (VObj vs) ->
  nth_error (c_members (class_of e c)) i = Some m -> find_member l (m_name m) = None ->
  m_kind m <> MRequired /\
  nth_error vs i = Some (match m_kind m with MOptional => VNone | _ => nth i (c_default (class_of e c)) VIndet end).
Proof. exact absent_default. Qed.
Print Assumptions C30_default.

Example C30_example :
  deserialize_throw ex_plain (TClass 1) (JObj [("p", JObj [("n", JInt 1)]); ("ps", JArr [JObj [("b", JNull)]])])
    = Threw (MissingProperty "n") (list_ascii_of_string "/ps/0") /\
  deserialize ex_plain (TClass 0) (JObj [("n", JInt 4)]) (VObj [VInt 1; VBool false; VSome (VStr "x")])
    = DRet true start (VObj [VInt 4; VBool false; VNone]).
Proof. repeat split; vm_compute; reflexivity. Qed.

(** C31: the order of the members does not matter. *)
Theorem C31_deserialize : forall e t, ordinary e -> ordinary_type t -> forall j j', reordered j j' -> forall v,
  deserialize_throw e t j = Returned v <-> deserialize_throw e t j' = Returned v.
Proof. exact order_irrelevant. Qed.
Print Assumptions C31_deserialize.

Example C31_example :
  reordered (JObj [("n", JInt 1); ("s", JStr "x"); ("b", JBool false)]) (JObj [("b", JBool false); ("n", JInt 1); ("s", JStr "x")]) /\
  deserialize_throw ex_plain (TClass 0) (JObj [("b", JBool false); ("n", JInt 1); ("s", JStr "x")])
    = Returned (VObj [VInt 1; VBool false; VSome (VStr "x")]).
Proof.
  split; [|vm_compute; reflexivity].
  apply reordered_object with (l1 := [("n", JInt 1); ("s", JStr "x"); ("b", JBool false)]).
  - cbn. repeat constructor; cbn; intros H; repeat (destruct H as [H|H]; try discriminate); exact H.
  - repeat (apply Forall2_cons; [split; [reflexivity|constructor; exact I]|]). constructor.
  - change ([("n", JInt 1); ("s", JStr "x"); ("b", JBool false)]) with ([("n", JInt 1); ("s", JStr "x")] ++ [("b", JBool false)]).
    apply Permutation_sym. apply Permutation_cons_append.
Qed.

(** C33: old content does not matter for a document that denotes a value, unless a default
    member is missing. *)
Theorem C33_deserialize_replaces : forall e t, ordinary e -> ordinary_type t -> forall j old v, denotes e t old j v -> settled e t j ->
  forall obj, deserialize e t j obj = DRet true start v.
Proof. exact replaces. Qed.
Print Assumptions C33_deserialize_replaces.

(** C33: for other documents it does: a member that cannot be read keeps its old value,
    although the flag is true. *)
Theorem C33_any_document_refuted : exists e t j, ordinary e /\ ordinary_type t /\ settled e t j /\ exists obj obj' v v',
  deserialize e t j obj = DRet true start v /\ deserialize e t j obj' = DRet true start v' /\ v <> v'.
Proof.
  exists ex_plain, (TClass 0), (JObj [("n", JStr "no number"); ("b", JBool false)]).
  split; [exact ex_ordinary|]. split; [split; reflexivity|]. split.
  { apply settled_class.
    - intros m [<-|[<-|[<-|[]]]]; cbn; discriminate.
    - intros m j [<-|[<-|[<-|[]]]] _ F; cbn in F; try discriminate; injection F as <-; now constructor. }
  exists (VObj [VInt 3; VBool true; VNone]), (VObj [VInt 4; VBool true; VNone]).
  do 2 eexists. split; [vm_compute; reflexivity|]. split; [vm_compute; reflexivity|]. discriminate.
Qed.
Print Assumptions C33_any_document_refuted.

Example C33_example : forall s,
  deserialize ex_plain (TVector TString) (JArr [JStr "a"; JStr s]) (VList [VStr "x"; VStr "y"; VStr "z"])
    = DRet true start (VList [VStr "a"; VStr s]).
Proof. reflexivity. Qed.

(** C35: once the members of the base class are read, the flag is true whatever the members
    of derived classes do. *)
Theorem C35_reading_not_checked : forall e c l olds vs, ordinary e ->
  members_denote (denotes e) e l (firstn (c_root (class_of e c)) (c_members (class_of e c))) olds vs ->
  deserialize e (TClass c) (JObj l) (VObj olds) = DUndef \/
  exists st vs', deserialize e (TClass c) (JObj l) (VObj olds) = DRet true st (VObj vs') /\ firstn (List.length vs) vs' = vs.
Proof. exact derived_not_checked. Qed.
Print Assumptions C35_reading_not_checked.

Example C35_reading_example :
  deserialize ex_plain (TClass 2) (JObj [("b", JBool true); ("n", JStr "no number")]) (VObj [VBool false; VInt 9; VStr "old"])
    = DRet true start (VObj [VBool true; VInt 9; VStr "old"]).
Proof. vm_compute. reflexivity. Qed.

(** C43: arrays, pairs and tuples need the exact number of items. *)
Theorem C43_deserialize_array : forall e n t j v, ordinary e -> ordinary_type t ->
  (deserialize_throw e (TArray n t) j = Returned v <->
   exists js vs, j = JArr js /\ v = VList vs /\ List.length js = n /\ List.length vs = n /\
     forall i ji, nth_error js i = Some ji -> exists vi, nth_error vs i = Some vi /\ deserialize_throw e t ji = Returned vi).
Proof. exact array_exact. Qed.
Print Assumptions C43_deserialize_array.

(** C43: the components start value-initialised. *)
Theorem C43_deserialize_pair : forall e a b j v, ordinary e -> ordinary_type (TPair a b) ->
  (deserialize_throw e (TPair a b) j = Returned v <->
   exists ja jb va vb, j = JArr [ja; jb] /\ v = VList [va; vb] /\ denotes e a (vinit e a) ja va /\ denotes e b (vinit e b) jb vb).
Proof. exact pair_exact. Qed.
Print Assumptions C43_deserialize_pair.

Theorem C43_deserialize_tuple : forall e ts j v, ordinary e -> ordinary_type (TTuple ts) ->
  (deserialize_throw e (TTuple ts) j = Returned v <->
   exists js vs, j = JArr js /\ v = VList vs /\ List.length js = List.length ts /\ List.length vs = List.length ts /\
     forall i ji ti, nth_error js i = Some ji -> nth_error ts i = Some ti ->
       exists vi, nth_error vs i = Some vi /\ denotes e ti (vinit e ti) ji vi).
Proof. exact tuple_exact. Qed.
Print Assumptions C43_deserialize_tuple.

Example C43_deserialize_example :
  deserialize_throw ex_plain (TArray 2 TBool) (JArr [JBool true; JBool false]) = Returned (VList [VBool true; VBool false]) /\
  deserialize_throw ex_plain (TArray 2 TBool) (JArr [JBool true; JBool false; JNull]) = Threw (WrongSize 2 3) ["/"%char] /\
  deserialize_throw ex_plain (TPair TBool TString) (JArr [JBool true]) = Threw (WrongSize 2 1) ["/"%char] /\
  deserialize_throw ex_plain (TTuple [TBool; TString; TInt int32]) (JArr [JBool true; JStr "x"; JInt 3])
    = Returned (VList [VBool true; VStr "x"; VInt 3]).
Proof. repeat split; vm_compute; reflexivity. Qed.

(** C44: a back-reference to nothing, or to a value that has not been read through a shared
    pointer, leaves the pointer as it is; also the throwing deserializer goes on. *)
Theorem C44_ignored : forall e root l exc t old ctx loc st s tokens,
  find_member l "$ref" = Some (JStr s) -> parse_reference (list_ascii_of_string s) = Some tokens ->
  (forall place v, pointer_get root tokens = Some (place, v) -> ref_get place_eqb (objects st) place = None) ->
  deser e root (JObj l) exc (TShared t) old ctx loc st = DRet false st old.
Proof. exact dangling. Qed.
Print Assumptions C44_ignored.

(** C44: so a class whose shared pointers all refer to something not read as a shared
    object is returned, with these pointers as initialised. *)
Theorem C44_silent : forall e c l,
  (forall m, In m (c_members (class_of e c)) -> m_kind m <> MOptional /\
     exists j, find_member l (m_name m) = Some j /\
     ((exists u, m_ty m = TShared u) /\ back_reference j \/
      exists v, forall old ctx loc st, deser e (JObj l) j true (m_ty m) old ctx loc st = DRet true st v)) ->
  exists vs, deserialize_throw e (TClass c) (JObj l) = Returned (VObj vs) /\
  forall i m u, nth_error (c_members (class_of e c)) i = Some m -> m_ty m = TShared u ->
    (exists j, find_member l (m_name m) = Some j /\ back_reference j) ->
    nth_error vs i = Some (nth i (c_default (class_of e c)) VIndet).
Proof. exact silent. Qed.
Print Assumptions C44_silent.

Example C44_example :
  deserialize_throw ex_all (TClass 3) (JObj [("n", JInt 1); ("a", JObj [("$ref", JStr "/nowhere")]); ("b", JObj [("$ref", JStr "/n")])])
    = Returned (VObj [VInt 1; VPtrNull; VPtrNull]) /\
  deserialize_throw ex_all (TClass 3) (JObj [("n", JInt 1); ("a", JStr "x"); ("b", JObj [("$ref", JStr "/a")])])
    = Returned (VObj [VInt 1; VShared 0 (VStr "x"); VShared 0 (VStr "x")]) /\
  deserialize_throw ex_all (TClass 3) (JObj [("n", JInt 1); ("a", JObj [("$ref", JStr "/b")]); ("b", JStr "x")])
    = Returned (VObj [VInt 1; VPtrNull; VShared 0 (VStr "x")]).
Proof. repeat split; vm_compute; reflexivity. Qed.
