(** Properties C28 and C45: the polymorphic stack. *)
From Coq Require Import List ZArith Arith Bool Permutation Lia.
From Verif Require Import HashModel StackModel StackSpec StackProof.
Import ListNotations.
Local Open Scope Z_scope.

(** After any history the stack answers, holds and has destroyed what an ideal list does. In
    particular a history is never undefined, and an emplace that throws changes nothing. *)
Theorem C28_stack_is_list : forall capacity memory_size, 0 <= memory_size < 2 ^ 63 ->
  forall ops, Forall proper_op ops ->
  let '(l, answers, popped) := ideal capacity memory_size ops [] in
  exists s, replay capacity memory_size ops (fresh capacity) = Some (s, answers) /\
    s_count s = List.length l /\ back s = hd_error l /\ map snd (s_live s) = l /\
    s_destroyed s = popped.
Proof. exact stack_refines. Qed.
Print Assumptions C28_stack_is_list.

(** Frames share no byte and lie inside the buffer. *)
Theorem C28_frames_disjoint_inside : forall capacity memory_size, 0 <= memory_size < 2 ^ 63 ->
  forall ops s answers, Forall proper_op ops ->
  replay capacity memory_size ops (fresh capacity) = Some (s, answers) ->
  disjoint (s_live s) /\
  Forall (fun '(a, f) => 0 <= a /\ a + f_size f <= memory_size) (s_live s) /\
  (List.length (s_live s) <= capacity)%nat.
Proof. exact stack_layout. Qed.
Print Assumptions C28_frames_disjoint_inside.

(** When the stack goes away every frame emplaced has been destroyed exactly once. *)
Theorem C28_each_frame_destroyed_once : forall capacity memory_size, 0 <= memory_size < 2 ^ 63 ->
  forall ops s answers, Forall proper_op ops ->
  replay capacity memory_size ops (fresh capacity) = Some (s, answers) ->
  exists t, destroy s = Some t /\ s_live t = [] /\ Permutation (s_destroyed t) (emplaced ops answers).
Proof. exact stack_destroys. Qed.
Print Assumptions C28_each_frame_destroyed_once.

(** Frames are aligned if the buffer is and all sizes are multiples of one alignment A that
    all alignments divide ... *)
Theorem C28_frames_aligned : forall capacity memory_size, 0 <= memory_size < 2 ^ 63 ->
  forall A base ops s answers, Forall proper_op ops -> (A | base) ->
  Forall (fun o => match o with Emplace f => (f_align f | A) /\ (A | f_size f) | Pop => True end) ops ->
  replay capacity memory_size ops (fresh capacity) = Some (s, answers) ->
  Forall (fun '(a, f) => (f_align f | base + a)) (s_live s).
Proof. exact stack_aligned. Qed.
Print Assumptions C28_frames_aligned.

(** ... but not in general: emplace does not align the address. *)
Theorem C28_frames_aligned_refuted : exists ops s answers,
  Forall proper_op ops /\ replay 128 4096 ops (fresh 128) = Some (s, answers) /\
  exists a f, In (a, f) (s_live s) /\ ~ (f_align f | a).
Proof.
  exists [Emplace {| f_id := 1; f_size := 8; f_align := 8 |}; Emplace {| f_id := 2; f_size := 16; f_align := 16 |}].
  eexists. eexists. split; [|split].
  - repeat constructor; try (cbn; lia); exists 1; reflexivity.
  - vm_compute. reflexivity.
  - exists 8, {| f_id := 2; f_size := 16; f_align := 16 |}. split; [now left|]. cbn. intros [k E]. lia.
Qed.
Print Assumptions C28_frames_aligned_refuted.

(** If the constructor of a class throws inside emplace, destroying the stack afterwards is
    undefined: the frame below is destroyed twice, or a null pointer is followed. *)
Theorem C45_throwing_constructor_corrupts : forall capacity memory_size, 0 <= memory_size < 2 ^ 63 ->
  forall ops s answers f s', Forall proper_op ops -> proper f ->
  replay capacity memory_size ops (fresh capacity) = Some (s, answers) ->
  emplace capacity memory_size false f s = Thrown s' -> s' <> s -> destroy s' = None.
Proof. exact stack_constructor_throws. Qed.
Print Assumptions C45_throwing_constructor_corrupts.

Definition small (id : nat) : frame := {| f_id := id; f_size := 40; f_align := 8 |}.

Example C28_example :
  let ops := [Emplace (small 1); Emplace {| f_id := 2; f_size := 60; f_align := 4 |}; Pop; Emplace (small 3);
              Emplace (small 4); Pop; Pop; Pop; Pop] in
  ideal 3 100 ops [] = ([], [true; false; true; true; true; true; true; false; false], [1; 4; 3])%nat.
Proof. vm_compute. reflexivity. Qed.

Example C45_example :
  match replay 128 4096 [Emplace (small 1)] (fresh 128) with
  | Some (s, _) =>
    match emplace 128 4096 false (small 2) s with
    | Thrown s' => s_count s' = 2%nat /\ destroy s' = None
    | _ => False
    end
  | None => False
  end.
Proof. vm_compute. split; reflexivity. Qed.
