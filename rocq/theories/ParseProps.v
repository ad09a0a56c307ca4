(** Properties of the parser. *)
From Coq Require Import List Arith ZArith NArith Ascii String Bool Lia Permutation Sorted.
From Verif Require Import Base Float NumericModel NumericSpec HashModel Json Events Types DeserializeModel ParseModel
  DenoteSpec ParseSpec MergeSpec AgreeSpec SameSpec ParseProof ParseLimit ParseStack MergeFacts DenoteProof AcceptFacts DeserializeProps.
Import ListNotations.
Local Open Scope string_scope.
Local Open Scope list_scope.

(** The program of the other examples, and a class with an enumeration. *)
Definition ex_color : ty := TEnumStr [(1%Z, "red"); (2%Z, "green")].
Definition ex_paint : cls := {|
  c_members := [{| m_name := "c"; m_kind := MRequired; m_ty := ex_color |}; {| m_name := "v"; m_kind := MDefault; m_ty := TVector (TInt int32) |};
                {| m_name := "m"; m_kind := MDefault; m_ty := TMap true (TClass 0) |}];
  c_root := 3; c_default := [VIndet; VList []; VMap []]; c_value := [VInt 0; VList []; VMap []] |}.
Definition ex_parsed : env := ex_program [ex_point; ex_nested; ex_derived; ex_paint].
Definition ex_fuel : nat := 1000.

Ltac by_class c := destruct c as [|[|[|[|c]]]]; [| | | |unfold class_of; cbn; destruct c].

Example ex_supported : supported ex_parsed ex_fuel.
Proof.
  split; [|split].
  - split; [|split; [|reflexivity]]; intros c; by_class c; reflexivity.
  - intros c. by_class c; split; apply shaped_class; cbn; repeat (first [apply Forall2_cons|apply Forall2_nil]; try (intros K; cbn in *)); try congruence;
      repeat first [apply shaped_vector | apply shaped_map; [apply SSorted_nil|apply Forall_nil] | apply shaped_other; reflexivity
        | apply shaped_class; cbn; repeat (first [apply Forall2_cons|apply Forall2_nil]; try (intros K'; cbn in *)); try congruence].
  - split; [reflexivity|]. intros c. by_class c; (split; [|split; [vm_compute; discriminate|]]);
      try (cbn; intros H; exfalso; lia); try (intros _; eexists; vm_compute; reflexivity);
      cbn; repeat (constructor; [cbn; intuition discriminate|]); constructor.
Qed.

Example ex_fresh : fresh_classes ex_parsed.
Proof.
  intros c. by_class c; cbv zeta; repeat split; apply fresh_class; cbn [class_of classes ex_parsed ex_program nth c_members c_default c_value ex_point ex_nested ex_derived ex_paint];
    repeat (first [apply fresh_none | apply fresh_member; try (intros; cbn in *; congruence); try (intros _; cbn [m_ty])]);
    try (apply fresh_scalar; reflexivity); try apply fresh_vector; try apply fresh_map.
  all: apply fresh_class; cbn [class_of classes ex_parsed ex_program nth c_members c_default c_value ex_point];
    repeat (first [apply fresh_none | apply fresh_member; try (intros; cbn in *; congruence); try (intros _; cbn [m_ty])]); try (apply fresh_scalar; reflexivity).
Qed.

Definition ex_read (t : ty) (j : json) (obj : val) := parse_into ex_parsed ex_fuel real_capacity t j obj.

(** C46: the parser accepts a document exactly if it can be merged into the object, and gives
    the merged value, as long as its stack does not run out of space. *)
Theorem C46_parses_exactly : forall e fuel t j obj v, supported e fuel -> ordinary_type t -> shaped e t obj ->
  (nesting j <= 84 -> (parse_into e fuel real_capacity t j obj = Parsed true v <-> merges e t obj j v)) /\
  (parse_into e fuel real_capacity t j obj = Parsed true v -> merges e t obj j v) /\
  (merges e t obj j v -> parse_into e fuel real_capacity t j obj = OutOfSpace \/ parse_into e fuel real_capacity t j obj = Parsed true v).
Proof.
  exact (fun e fuel t j obj v H T Ho => conj (parse_84 e fuel t j obj v H T Ho) (conj (parse_sound e fuel real_capacity t j obj v H T Ho)
    (parse_complete e fuel real_capacity t j obj v H T Ho))).
Qed.
Print Assumptions C46_parses_exactly.

Example C46_example :
  ex_read (TClass 1) (JObj [("ps", JArr [JObj [("n", JInt 1)]]); ("p", JObj [("s", JStr "x"); ("n", JInt 7)])])
    (VObj [VObj [VInt 3; VBool false; VNone]; VList [VObj [VInt 4; VBool true; VNone]]]) =
    Parsed true (VObj [VObj [VInt 7; VBool false; VSome (VStr "x")]; VList [VObj [VInt 4; VBool true; VNone]; VObj [VInt 1; VBool true; VNone]]]) /\
  ex_read (TClass 1) (JObj [("ps", JObj [])]) (VObj [VObj [VInt 3; VBool false; VNone]; VList []]) =
    Parsed false (VObj [VObj [VInt 3; VBool false; VNone]; VList []]).
Proof. split; vm_compute; reflexivity. Qed.

(** C12: an integer in the range of the type is stored; every other document is rejected. *)
Theorem C12_parse : forall e fuel k j obj, existsb (Z.eqb (width k)) [8; 16; 32; 64]%Z = true ->
  (forall z, j = JInt z -> in_range k z -> parse_into e fuel real_capacity (TInt k) j obj = Parsed true (VInt z)) /\
  ((forall z, j = JInt z -> ~ in_range k z) -> parse_into e fuel real_capacity (TInt k) j obj = Parsed false obj).
Proof. exact parse_int. Qed.
Print Assumptions C12_parse.

Example C12_parse_example : let byte := {| width := 8; is_signed := false |} in
  ex_read (TInt byte) (JInt 255) (VInt 1) = Parsed true (VInt 255) /\ ex_read (TInt byte) (JInt 256) (VInt 1) = Parsed false (VInt 1) /\
  ex_read (TInt byte) (JInt (-1)) (VInt 1) = Parsed false (VInt 1) /\ ex_read (TInt int32) (JDbl (FFin false 1 0)) (VInt 1) = Parsed false (VInt 1).
Proof. repeat split; vm_compute; reflexivity. Qed.

(** C27: the handler of a value reads the events of the value, whatever follows and whatever
    handlers are below. Then it has been popped, those below are as they were, and nothing
    has changed in memory except the object; or it has failed, and then too nothing else has
    changed but memory that was allocated in the meantime; or the stack was too small; or the
    behaviour is undefined or not modelled. Handlers of string enumerations are never popped
    (C41). *)
Theorem C27_one_value : forall e fuel fits j t old a m hs r rest, shaped_classes e -> load m r = Some old -> shaped e t old ->
  let h := {| h_kind := KValue t; h_ref := r |} in
  let start := {| mem := m; stack := h :: hs; fresh_address := a |} in
  let x := run e fuel fits (events j ++ rest) start in
  (exists v a', x = run e fuel fits rest {| mem := store m r v; stack := hs; fresh_address := a' |}) \/
  (exists names v, t = TEnumStr names /\ x = run e fuel fits rest {| mem := store m r v; stack := h :: hs; fresh_address := a |}) \/
  (exists s w extra, x = PFail s /\ mem s = store m r w ++ extra) \/
  x = POver \/ x = PUndef \/ x = POutside.
Proof. exact reads_one_value. Qed.
Print Assumptions C27_one_value.

(** C27: and not before all of its events. *)
Theorem C27_not_before : forall e fuel fits j t old a m hs r evs ev evs' s s', shaped_classes e -> load m r = Some old -> shaped e t old ->
  let start := {| mem := m; stack := {| h_kind := KValue t; h_ref := r |} :: hs; fresh_address := a |} in
  run e fuel fits (events j) start = POk s' -> events j = evs ++ ev :: evs' ->
  run e fuel fits evs start = POk s -> exists g gs, stack s = g :: gs ++ hs.
Proof. exact not_finished_before. Qed.
Print Assumptions C27_not_before.

Example C27_example :
  (* two values for the two components of a pair: the handler below is the one of the pair *)
  let r := root_place in
  let below := {| h_kind := KFixed 1 [TBool]; h_ref := r |} in
  let m := [VList [VList [VInt 1]; VBool false]] in
  run ex_parsed ex_fuel real_capacity (events (JArr [JInt 5; JInt 6]) ++ [EBool true; EEndArray])
    {| mem := m; stack := [{| h_kind := KValue (TVector (TInt int32)); h_ref := into r (SItem 0) |}; below]; fresh_address := 0 |} =
  run ex_parsed ex_fuel real_capacity [EBool true; EEndArray]
    {| mem := [VList [VList [VInt 1; VInt 5; VInt 6]; VBool false]]; stack := [below]; fresh_address := 0 |}.
Proof. vm_compute. reflexivity. Qed.

(** C29: the parser rejects a document with a member that the class does not have, at any depth. *)
Theorem C29_parse_rejects : forall e fuel fits t j obj v, supported e fuel -> ordinary_type t -> shaped e t obj ->
  forall c l k, reads_at e t j (TClass c) (JObj l) -> In k (map fst l) -> ~ In k (map m_name (c_members (class_of e c))) ->
  parse_into e fuel fits t j obj <> Parsed true v.
Proof. exact reject_unknown. Qed.
Print Assumptions C29_parse_rejects.

Example C29_parse_example :
  ex_read (TClass 1) (JObj [("ps", JArr [JObj [("n", JInt 1); ("x", JNull)]])]) (VObj [VObj [VInt 3; VBool false; VNone]; VList []]) =
    Parsed false (VObj [VObj [VInt 3; VBool false; VNone]; VList [VObj [VInt 1; VBool true; VNone]]]) /\
  reads_at ex_parsed (TClass 1) (JObj [("ps", JArr [JObj [("n", JInt 1); ("x", JNull)]])]) (TClass 0) (JObj [("n", JInt 1); ("x", JNull)]).
Proof.
  split; [vm_compute; reflexivity|].
  eapply at_part; [apply part_member with (m := {| m_name := "ps"; m_kind := MRequired; m_ty := TVector (TClass 0) |}); cbn; auto|].
  eapply at_part; [apply part_vector; left; reflexivity|]. apply at_here.
Qed.

(** C30: members that are not in the document keep their values, required or not. *)
Theorem C30_parse_keeps : forall e fuel fits c l olds v, supported e fuel -> shaped e (TClass c) (VObj olds) ->
  parse_into e fuel fits (TClass c) (JObj l) (VObj olds) = Parsed true v ->
  exists vs, v = VObj vs /\ List.length vs = List.length olds /\
  forall i m, nth_error (c_members (class_of e c)) i = Some m -> ~ In (m_name m) (map fst l) -> nth_error vs i = nth_error olds i.
Proof. exact missing_kept. Qed.
Print Assumptions C30_parse_keeps.

(** C30: a document stays acceptable without some of the members of its objects, at any depth. *)
Theorem C30_parse_fewer : forall e fuel fits t j j' obj v, supported e fuel -> ordinary_type t -> shaped e t obj ->
  parse_into e fuel fits t j obj = Parsed true v -> fewer j j' -> nesting j' <= 84 ->
  exists v', parse_into e fuel real_capacity t j' obj = Parsed true v'.
Proof. exact fewer_parsed. Qed.
Print Assumptions C30_parse_fewer.

Example C30_parse_example :
  ex_read (TClass 0) (JObj [("b", JBool false)]) (VObj [VInt 3; VBool true; VSome (VStr "old")]) =
    Parsed true (VObj [VInt 3; VBool false; VSome (VStr "old")]) /\
  ex_read (TClass 1) (JObj []) (VObj [VObj [VIndet; VBool true; VNone]; VList []]) =
    Parsed true (VObj [VObj [VIndet; VBool true; VNone]; VList []]).
Proof. split; vm_compute; reflexivity. Qed.

(** C31: the order of the members of objects does not matter. *)
Theorem C31_parse : forall e fuel t j j' obj, supported e fuel -> ordinary_type t -> shaped e t obj -> reordered j j' -> nesting j <= 84 ->
  forall v, parse_into e fuel real_capacity t j obj = Parsed true v <-> parse_into e fuel real_capacity t j' obj = Parsed true v.
Proof. exact order_parsed. Qed.
Print Assumptions C31_parse.

Example C31_parse_example :
  ex_read (TClass 0) (JObj [("n", JInt 1); ("b", JBool false); ("s", JStr "x")]) (VObj [VInt 3; VBool true; VNone]) =
  ex_read (TClass 0) (JObj [("s", JStr "x"); ("n", JInt 1); ("b", JBool false)]) (VObj [VInt 3; VBool true; VNone]) /\
  ex_read (TMap true TBool) (JObj [("z", JBool true); ("a", JBool false)]) (VMap [("m", VBool true)]) =
    Parsed true (VMap [("a", VBool false); ("m", VBool true); ("z", VBool true)]) /\
  ex_read (TMap true TBool) (JObj [("a", JBool false); ("z", JBool true)]) (VMap [("m", VBool true)]) =
    Parsed true (VMap [("a", VBool false); ("m", VBool true); ("z", VBool true)]).
Proof. repeat split; vm_compute; reflexivity. Qed.

(** C33: parsing a vector appends what parsing an empty vector would give. *)
Theorem C33_parse_appends : forall e fuel fits u j l v, supported e fuel -> ordinary_type (TVector u) ->
  (parse_into e fuel fits (TVector u) j (VList l) = Parsed true v <->
   exists vs, v = VList (l ++ vs) /\ parse_into e fuel fits (TVector u) j (VList []) = Parsed true (VList vs)).
Proof. exact vector_appended. Qed.
Print Assumptions C33_parse_appends.

(** C33: parsing a map keeps the entries whose keys are not in the document, and reads the
    others into the old value of the key. *)
Theorem C33_parse_map : forall e fuel fits o u l m v, supported e fuel -> ordinary_type (TMap o u) -> shaped e (TMap o u) (VMap m) ->
  parse_into e fuel fits (TMap o u) (JObj l) (VMap m) = Parsed true v ->
  exists m', v = VMap m' /\ forall k,
    (~ In k (map fst l) -> MergeSpec.entry m' k = MergeSpec.entry m k) /\
    (NoDup (map fst l) -> forall j, In (k, j) l -> exists w, MergeSpec.entry m' k = Some w /\
       parse_into e fuel unlimited u j (match MergeSpec.entry m k with Some x => x | None => vinit e u end) = Parsed true w).
Proof. exact map_kept. Qed.
Print Assumptions C33_parse_map.

(** C33: the old value does not matter for numbers, strings and the like, unique pointers,
    and arrays, pairs and tuples of these. *)
Theorem C33_parse_replaces : forall e fuel fits t j obj obj' v, supported e fuel -> ordinary_type t -> shaped e t obj -> shaped e t obj' ->
  replacing t -> parse_into e fuel fits t j obj = Parsed true v -> parse_into e fuel fits t j obj' = Parsed true v.
Proof. exact replaced_parsed. Qed.
Print Assumptions C33_parse_replaces.

Example C33_parse_example :
  ex_read (TVector (TInt int32)) (JArr [JInt 3]) (VList [VInt 1; VInt 2]) = Parsed true (VList [VInt 1; VInt 2; VInt 3]) /\
  ex_read (TMap true (TVector TBool)) (JObj [("a", JArr [JBool true]); ("c", JArr [])]) (VMap [("a", VList [VBool false]); ("b", VList [])]) =
    Parsed true (VMap [("a", VList [VBool false; VBool true]); ("b", VList []); ("c", VList [])]) /\
  ex_read (TPair TBool (TUnique (TVector TBool))) (JArr [JBool true; JArr [JBool true]]) (VList [VIndet; VPtr (VList [VBool false])]) =
    Parsed true (VList [VBool true; VPtr (VList [VBool true])]) /\
  (* an array of vectors is not replaced *)
  ex_read (TArray 1 (TVector TBool)) (JArr [JArr [JBool true]]) (VList [VList [VBool false]]) = Parsed true (VList [VList [VBool false; VBool true]]).
Proof. repeat split; vm_compute; reflexivity. Qed.

(** C36: of several occurrences of a key, the parser takes the last for optional members and
    members whose values are replaced as a whole. *)
Theorem C36_parse_last : forall e fuel fits c l1 k j l2 olds v i m, supported e fuel -> shaped e (TClass c) (VObj olds) ->
  parse_into e fuel fits (TClass c) (JObj (l1 ++ (k, j) :: l2)) (VObj olds) = Parsed true v -> ~ In k (map fst l2) ->
  nth_error (c_members (class_of e c)) i = Some m -> m_name m = k -> m_kind m = MOptional \/ replacing (m_ty m) ->
  exists vs w, v = VObj vs /\ nth_error vs i = Some (match m_kind m with MOptional => VSome w | _ => w end) /\
  parse_into e fuel unlimited (m_ty m) j (vinit e (m_ty m)) = Parsed true w.
Proof. exact last_parsed. Qed.
Print Assumptions C36_parse_last.

Example C36_parse_example :
  ex_read (TClass 0) (JObj [("n", JInt 1); ("s", JStr "x"); ("n", JInt 2); ("s", JStr "y")]) (VObj [VInt 3; VBool true; VNone]) =
    Parsed true (VObj [VInt 2; VBool true; VSome (VStr "y")]) /\
  (* the others are merged *)
  ex_read (TClass 1) (JObj [("ps", JArr [JObj []]); ("ps", JArr [JObj [("n", JInt 2)]])]) (VObj [VObj [VInt 3; VBool true; VNone]; VList []]) =
    Parsed true (VObj [VObj [VInt 3; VBool true; VNone]; VList [VObj [VInt 0; VBool true; VNone]; VObj [VInt 2; VBool true; VNone]]]).
Proof. split; vm_compute; reflexivity. Qed.

(** C39: one handler more than the nesting of the document is enough. *)
Theorem C39_handlers : forall e fuel t j obj, shaped_classes e -> shaped e t obj ->
  parse_into e fuel (fun used _ => Nat.leb (List.length used) (nesting j)) t j obj = parse_into e fuel unlimited t j obj.
Proof. exact handlers_needed. Qed.
Print Assumptions C39_handlers.

(** C39: a stack of any size has no other effect than that the exception may be thrown. *)
Theorem C39_only_exception : forall e fuel fits t j obj,
  parse_into e fuel fits t j obj = OutOfSpace \/ parse_into e fuel fits t j obj = parse_into e fuel unlimited t j obj.
Proof. exact parse_limited. Qed.
Print Assumptions C39_only_exception.

(** C39: the stack of the library is enough for a nesting of 84, and of 127 if there are no
    sets other than those of numbers, strings and booleans. *)
Theorem C39_enough : forall e fuel t j obj, shaped_classes e -> shaped e t obj ->
  (nesting j <= 84 -> parse_into e fuel real_capacity t j obj <> OutOfSpace) /\
  (small_classes e -> small t = true -> nesting j <= 127 -> parse_into e fuel real_capacity t j obj <> OutOfSpace).
Proof. exact (fun e fuel t j obj H Ho => conj (nesting_84 e fuel t j obj H Ho) (nesting_127 e fuel t j obj H Ho)). Qed.
Print Assumptions C39_enough.

(** C39: and no more: a nesting of 128 works for vectors of vectors, a nesting of 129 does not. *)
Theorem C39_limit : forall e fuel n, shaped_classes e ->
  nesting (arrays n) = S n /\
  parse_into e fuel real_capacity (vectors n) (arrays n) (VList []) = if Nat.ltb n 128 then Parsed true (lists n) else OutOfSpace.
Proof. exact (fun e fuel n H => conj (arrays_nesting n) (arrays_parse e fuel n H)). Qed.
Print Assumptions C39_limit.

Example C39_example :
  parse ex_parsed ex_fuel real_capacity (vectors 2) (arrays 2) = PReturned (VList [VList [VList []]]) /\
  parse ex_parsed ex_fuel (fun used _ => Nat.ltb (List.length used) 2) (vectors 2) (arrays 2) = POutOfRange.
Proof. split; vm_compute; reflexivity. Qed.

(** C41: a string enumeration inside anything makes the parser fail; *)
Theorem C41_rejected : forall e fuel fits t j obj v, supported e fuel -> ordinary_type t -> shaped e t obj ->
  forall t1 j1 u j2, reads_at e t j t1 j1 -> part e t1 j1 u j2 -> (exists names, behind u = TEnumStr names) ->
  parse_into e fuel fits t j obj <> Parsed true v.
Proof. exact reject_enum_inside. Qed.
Print Assumptions C41_rejected.

(** C41: on its own it is accepted; *)
Theorem C41_alone : forall e fuel names s z obj, EnumModel.enum_from_string names s = Some z ->
  parse_into e fuel real_capacity (TEnumStr names) (JStr s) obj = Parsed true (VInt z).
Proof. exact enum_alone. Qed.
Print Assumptions C41_alone.

(** C41: the deserializer accepts it everywhere. *)
Theorem C41_deserialize : forall e names ss zs, ordinary e -> Forall2 (fun s z => EnumModel.enum_from_string names s = Some z) ss zs ->
  deserialize_throw e (TVector (TEnumStr names)) (JArr (map JStr ss)) = Returned (VList (map VInt zs)).
Proof. exact enum_list. Qed.
Print Assumptions C41_deserialize.

Example C41_example :
  ex_read ex_color (JStr "green") (VInt 1) = Parsed true (VInt 2) /\
  ex_read (TVector ex_color) (JArr [JStr "green"]) (VList []) = Parsed false (VList [VInt 2]) /\
  ex_read (TClass 3) (JObj [("c", JStr "green")]) (VObj [VInt 1; VList []; VMap []]) = Parsed false (VObj [VInt 2; VList []; VMap []]) /\
  deserialize_throw ex_parsed (TClass 3) (JObj [("c", JStr "green")]) = Returned (VObj [VInt 2; VList []; VMap []]).
Proof. repeat split; vm_compute; reflexivity. Qed.

(** C42: no array except the empty one is parsed as a vector or set of such numbers, at any depth; *)
Theorem C42_rejected : forall e fuel fits t j obj v, supported e fuel -> ordinary_type t -> shaped e t obj ->
  forall t1 u js, reads_at e t j t1 (JArr js) -> t1 = TVector u \/ t1 = TSet u -> odd_number u = true -> js <> [] ->
  parse_into e fuel fits t j obj <> Parsed true v.
Proof. exact reject_small. Qed.
Print Assumptions C42_rejected.

(** C42: the empty array is, whatever the elements. *)
Theorem C42_empty : forall e fuel u t l, supported e fuel -> ordinary_type u -> t = TVector u \/ t = TSet u ->
  parse_into e fuel real_capacity t (JArr []) (VList l) = Parsed true (VList l).
Proof. exact empty_array. Qed.
Print Assumptions C42_empty.

Example C42_example : let byte := {| width := 8; is_signed := false |} in
  ex_read (TVector (TInt byte)) (JArr [JInt 1]) (VList []) = Parsed false (VList []) /\
  ex_read (TVector (TInt int32)) (JArr [JInt 1]) (VList []) = Parsed true (VList [VInt 1]) /\
  ex_read (TSet (TUnique TDouble)) (JArr [JDbl (FFin false 1 0)]) (VList []) = Parsed false (VList []) /\
  deserialize_throw ex_parsed (TVector (TInt byte)) (JArr [JInt 1]) = Returned (VList [VInt 1]).
Proof. repeat split; vm_compute; reflexivity. Qed.

(** C43: arrays of the wrong length, and anything that is not an array, are rejected for
    arrays, pairs and tuples, at any depth; *)
Theorem C43_parse_count : forall e fuel fits t j obj v, supported e fuel -> ordinary_type t -> shaped e t obj ->
  forall u j' n, reads_at e t j u j' -> arity u = Some n -> (forall js, j' = JArr js -> List.length js <> n) ->
  parse_into e fuel fits t j obj <> Parsed true v.
Proof. exact reject_arity. Qed.
Print Assumptions C43_parse_count.

(** C43: component [i] is read from item [i]. *)
Theorem C43_parse_items : forall e fuel fits t ts js obj v, supported e fuel -> ordinary_type t ->
  (exists n u, t = TArray n u /\ ts = repeat u n) \/ (exists a b, t = TPair a b /\ ts = [a; b]) \/ t = TTuple ts ->
  shaped e t (VList obj) -> parse_into e fuel fits t (JArr js) (VList obj) = Parsed true v ->
  exists vs, v = VList vs /\ List.length vs = List.length ts /\ List.length js = List.length ts /\
  forall i u j old, nth_error ts i = Some u -> nth_error js i = Some j -> nth_error obj i = Some old ->
  exists w, nth_error vs i = Some w /\ parse_into e fuel unlimited u j old = Parsed true w.
Proof. exact component_read. Qed.
Print Assumptions C43_parse_items.

Example C43_parse_example :
  ex_read (TTuple [TBool; TString; TInt int32]) (JArr [JBool true; JStr "x"; JInt 4]) (VList [VIndet; VStr ""; VIndet]) =
    Parsed true (VList [VBool true; VStr "x"; VInt 4]) /\
  ex_read (TTuple [TBool; TString; TInt int32]) (JArr [JBool true; JStr "x"]) (VList [VIndet; VStr ""; VIndet]) =
    Parsed false (VList [VBool true; VStr "x"; VIndet]) /\
  ex_read (TArray 2 (TPair TBool TBool)) (JArr [JArr [JBool true; JBool false]; JArr [JBool true; JBool false; JBool true]])
    (VList [VList [VIndet; VIndet]; VList [VIndet; VIndet]]) =
    Parsed false (VList [VList [VBool true; VBool false]; VList [VBool true; VBool false]]).
Proof. repeat split; vm_compute; reflexivity. Qed.

(** C20: what the parser gives, the deserializer gives too; *)
Theorem C20_parse_then_deserialize : forall e fuel fits t j v, supported e fuel -> fresh_classes e -> ordinary_type t -> clean j -> complete e t j ->
  parse e fuel fits t j = PReturned v -> deserialize_throw e t j = Returned v.
Proof. exact agree_forward. Qed.
Print Assumptions C20_parse_then_deserialize.

(** C20: and conversely. *)
Theorem C20_deserialize_then_parse : forall e fuel t j v, supported e fuel -> fresh_classes e -> ordinary_type t -> clean j ->
  known e t j -> exact e t j -> parseable e t j -> nesting j <= 84 ->
  deserialize_throw e t j = Returned v -> parse e fuel real_capacity t j = PReturned v.
Proof. exact agree_backward. Qed.
Print Assumptions C20_deserialize_then_parse.

(** C20: numbers that are not exact separate the two. *)
Theorem C20_lossy_numbers_refuted : exists e fuel t j v, supported e fuel /\ fresh_classes e /\ ordinary_type t /\ clean j /\
  known e t j /\ parseable e t j /\ nesting j <= 84 /\
  deserialize_throw e t j = Returned v /\ parse e fuel real_capacity t j = PError.
Proof.
  exists ex_parsed, ex_fuel, TDouble, (JInt 9007199254740993), (VFlt (FFin false 1 53)).
  split; [exact ex_supported|]. split; [exact ex_fresh|]. split; [now split|]. split; [now constructor|].
  assert (N : forall u j', reads_at ex_parsed TDouble (JInt 9007199254740993) u j' -> u = TDouble /\ j' = JInt 9007199254740993).
  { intros u j' R. inversion R as [| |? ? ? ? ? ? P]; subst; auto. inversion P. }
  split; [intros c l R; apply N in R; destruct R; discriminate|].
  split; [split; [intros t1 j1 u j2 R P; apply N in R; destruct R; subst; inversion P|intros u js [R|R]; apply N in R; destruct R; discriminate]|].
  split; [cbn; lia|]. split; vm_compute; reflexivity.
Qed.
Print Assumptions C20_lossy_numbers_refuted.

Example C20_example :
  let j := JObj [("ps", JArr [JObj [("n", JInt 1)]; JObj [("s", JStr "x"); ("n", JInt 2)]]); ("p", JObj [("n", JInt 7); ("b", JBool false)])] in
  let v := VObj [VObj [VInt 7; VBool false; VNone]; VList [VObj [VInt 1; VBool true; VNone]; VObj [VInt 2; VBool true; VSome (VStr "x")]]] in
  parse ex_parsed ex_fuel real_capacity (TClass 1) j = PReturned v /\ deserialize_throw ex_parsed (TClass 1) j = Returned v.
Proof. split; vm_compute; reflexivity. Qed.
