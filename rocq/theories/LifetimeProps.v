(** Properties of the parser's references. *)
From Coq Require Import List Arith ZArith NArith Ascii String Bool Lia.
From Verif Require Import Base NumericModel Json Events Types DeserializeModel ParseModel LifetimeModel LifetimeSpec LifetimeProof LifetimeGone
  DeserializeProps ParseProps.
Import ListNotations.
Local Open Scope string_scope.
Local Open Scope list_scope.

(** C70: no handler uses a reference to an object whose lifetime has ended, nor a member
    variable of a handler that has been destroyed, whatever the events are, also if they stop
    at any point, and whenever vectors get new buffers. So the outcome and the object are those
    of the parser whose references are good forever. *)
Theorem C70_nothing_gone : forall e fuel fits moves t obj evs,
  agrees (parse_with_lifetimes e fuel fits moves t obj evs) (parse_events e fuel fits t obj evs).
Proof. exact parse_agrees. Qed.
Print Assumptions C70_nothing_gone.

(** C70: the outcome is not about buffers. *)
Theorem C70_buffers : forall e fuel fits moves moves' t obj evs s s',
  ends (parse_with_lifetimes e fuel fits moves t obj evs) s ->
  ends (parse_with_lifetimes e fuel fits moves' t obj evs) s' -> l_mem s = l_mem s'.
Proof.
  intros e fuel fits moves moves' t obj evs s s' E E'.
  pose proof (parse_agrees e fuel fits moves t obj evs) as A. pose proof (parse_agrees e fuel fits moves' t obj evs) as A'.
  destruct (parse_with_lifetimes e fuel fits moves t obj evs); cbn in *; try contradiction; subst;
    destruct (parse_with_lifetimes e fuel fits moves' t obj evs); cbn in *; try contradiction; subst; rewrite A in A'; try discriminate;
    injection A' as X _ _; exact X.
Qed.
Print Assumptions C70_buffers.

(** C70: references of the caller to parts of the object that lie in the object itself or are
    mapped values are still good when parse returns, with true or with false. *)
Theorem C70_callers : forall e fuel fits moves t obj evs s p,
  ends (parse_with_lifetimes e fuel fits moves t obj evs) s -> steady e t p -> dangling s (callers p) = false.
Proof.
  intros e fuel fits moves t obj evs s p E S.
  exact (recorded_callers e t s p (parse_recorded e fuel fits moves t obj evs s E) S).
Qed.
Print Assumptions C70_callers.

Definition ex_always (l : list val) : bool := true.
Definition ex_never (l : list val) : bool := false.

(** What is left of a run: the outcome, the object, and whether references are good. *)
Definition ex_good (x : lres unit) (p : list pstep) : option bool :=
  match x with LOk _ s | LFail s => Some (negb (dangling s (callers p))) | _ => None end.

Definition ex_life (moves : list val -> bool) (t : ty) (obj : val) (j : json) : lres unit :=
  parse_with_lifetimes ex_parsed ex_fuel real_capacity moves t obj (events j).

Definition ex_nested_json : json :=
  JObj [("ps", JArr [JObj [("n", JInt 1); ("s", JStr "y")]; JObj [("n", JInt 2)]]); ("p", JObj [("s", JStr "x"); ("n", JInt 7)])].
Definition ex_nested_val : val := VObj [VObj [VInt 3; VBool false; VNone]; VList [VObj [VInt 4; VBool true; VNone]]].

(** The object has a member of class type and a vector that grows twice. References to the
    members stay good; one to the old element of the vector does not, unless the buffer was
    large enough. *)
Example C70_example :
  match ex_life ex_always (TClass 1) ex_nested_val ex_nested_json with
  | LOk _ s => nth 0 (l_mem s) VIndet =
      VObj [VObj [VInt 7; VBool false; VSome (VStr "x")];
            VList [VObj [VInt 4; VBool true; VNone]; VObj [VInt 1; VBool true; VSome (VStr "y")]; VObj [VInt 2; VBool true; VNone]]]
      /\ 0 < List.length (l_ended s)
  | _ => False
  end /\
  ex_good (ex_life ex_always (TClass 1) ex_nested_val ex_nested_json) [SItem 0; SItem 0] = Some true /\
  ex_good (ex_life ex_always (TClass 1) ex_nested_val ex_nested_json) [SItem 1] = Some true /\
  ex_good (ex_life ex_always (TClass 1) ex_nested_val ex_nested_json) [SItem 1; SItem 0] = Some false /\
  ex_good (ex_life ex_never (TClass 1) ex_nested_val ex_nested_json) [SItem 1; SItem 0] = Some true.
Proof. vm_compute. repeat split; lia. Qed.

(** Vectors of vectors, sets of vectors (in the order of their lengths here), and pointers. *)
Definition ex_ordered : env := {|
  classes := [ex_point]; tick := 1000000000; endian := Base64Model.little; after := fun _ => [];
  less := fun _ v w => match v, w with VList a, VList b => Nat.ltb (List.length a) (List.length b) | _, _ => false end;
  iteration := fun keys => seq 0 (List.length keys) |}.

Example C70_containers_example :
  match parse_with_lifetimes ex_ordered ex_fuel real_capacity ex_always (TSet (TVector (TInt int32))) (VList [VList [VInt 2]])
          (events (JArr [JArr [JInt 3; JInt 1]; JArr []; JArr [JInt 5]])) with
  | LOk _ s => nth 0 (l_mem s) VIndet = VList [VList []; VList [VInt 2]; VList [VInt 3; VInt 1]]
  | _ => False
  end /\
  match ex_life ex_always (TVector (TUnique (TVector TString))) (VList [])
          (JArr [JArr [JStr "a"]; JArr [JStr "b"; JStr "c"]]) with
  | LOk _ s => nth 0 (l_mem s) VIndet = VList [VPtr (VList [VStr "a"]); VPtr (VList [VStr "b"; VStr "c"])]
  | _ => False
  end.
Proof. split; vm_compute; reflexivity. Qed.

(** C70: what the model takes to be gone. A reference made before a vector at a place moved
    (or before a pointer got a new pointee, an optional member new content, or a handler with
    storage was destroyed) to anything inside of it is gone, and using it in any way is the
    outcome [LDangling]; a handler that left is gone. *)
Theorem C70_gone : forall s r, dangling s r = true <-> gone s r.
Proof. exact dangling_gone. Qed.
Print Assumptions C70_gone.

Theorem C70_uses : forall s r st w, gone s r ->
  deref r s = LDangling /\ sub r st s = LDangling /\ assign r w s = LDangling.
Proof.
  intros s r st w G. apply C70_gone in G. unfold sub, assign, andthen, deref. rewrite G. auto.
Qed.
Print Assumptions C70_uses.

Theorem C70_ends : forall e fits moves s r, r_born r <= l_clock s ->
  (forall p w s' u, moves (items (l_mem s) p) = true -> inside (r_place r) p -> grow moves p w s = LOk u s' -> gone s' r) /\
  (forall q t u c s', t = TUnique u \/ t = TShared u -> inside (r_place r) (r_place q) -> make e t q s = LOk c s' -> gone s' r) /\
  (forall q m id s', m_kind m = MOptional -> inside (r_place r) (r_place q) -> enter_member e fits m q s = LOk id s' -> gone s' r) /\
  (forall h hs u id s' x, l_stack s = h :: hs -> l_kind h = KSet u id -> object (r_place r) = id -> drop s = LOk x s' -> gone s' r).
Proof. exact ends_gone. Qed.
Print Assumptions C70_ends.

Theorem C70_handler_gone : forall s h hs id s', numbered s -> l_stack s = h :: hs -> leave (l_id h) s = LOk id s' ->
  this (l_id h) s' = LGone /\ fail (l_id h) s' = LGone /\ leave (l_id h) s' = LGone.
Proof. exact handler_gone. Qed.
Print Assumptions C70_handler_gone.

Theorem C70_numbered : forall e fuel fits moves t obj evs s,
  ends (parse_with_lifetimes e fuel fits moves t obj evs) s -> numbered s.
Proof. exact parse_numbered. Qed.
Print Assumptions C70_numbered.

Example C70_noticed :
  let r := {| r_place := {| object := 0; path := [SItem 0] |}; r_born := 1 |} in
  andthen (grow ex_always root_place (VInt 2)) (fun _ => deref r) (nothing_yet (VList [VInt 1])) = LDangling /\
  (exists s, andthen (grow ex_never root_place (VInt 2)) (fun _ => deref r) (nothing_yet (VList [VInt 1])) = LOk tt s) /\
  andthen (push real_capacity (KValue TBool) r) (fun _ =>
    andthen (push real_capacity (KValue TBool) r) (fun id => andthen (leave id) (fun _ => this id))) (nothing_yet (VList [VInt 1])) = LGone.
Proof. cbn. split; [reflexivity|]. split; [|reflexivity]. eexists. reflexivity. Qed.

(** C70: it is not true of all parts of the object. Those in a vector, in an optional member
    and behind a pointer can be gone although parse returned true. *)
Theorem C70_callers_all_refuted :
  (exists j s, ex_life ex_always (TVector TBool) (VList [VBool true]) j = LOk tt s /\ dangling s (callers [SItem 0]) = true) /\
  (exists j s, ex_life ex_never (TUnique TBool) (VPtr (VBool true)) j = LOk tt s /\ dangling s (callers [SPtr]) = true) /\
  (exists j s, ex_life ex_never (TClass 0) (VObj [VInt 1; VBool true; VSome (VStr "x")]) j = LOk tt s /\
    dangling s (callers [SItem 2; SSome]) = true).
Proof.
  split; [|split].
  - exists (JArr [JBool false]). eexists. split; [vm_compute; reflexivity|reflexivity].
  - exists (JBool false). eexists. split; [vm_compute; reflexivity|reflexivity].
  - exists (JObj [("n", JInt 1); ("s", JStr "y")]). eexists. split; [vm_compute; reflexivity|reflexivity].
Qed.
Print Assumptions C70_callers_all_refuted.
