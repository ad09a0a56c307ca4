(** Properties C13 and C14: perfect hash and member dispatch. *)
From Coq Require Import List Arith NArith Ascii String Bool.
From Verif Require Import Base HashModel HashProof DispatchModel DispatchProof HashAlike.
Import ListNotations.

(** Whenever construction ends, the i-th name is found at i and any string whatever gives an
    index below the number of names. The bound on the fuel is the number of seeds tried. *)
Theorem C13_lookup : forall fuel names t, names <> [] ->
  (N.of_nat (List.length names) <= 2 ^ 63)%N -> (N.of_nat fuel < 2 ^ 63)%N ->
  build fuel names = Ok t ->
  (forall i s, nth_error names i = Some s -> index (List.length names) t s = Ok i) /\
  (forall s, exists j, index (List.length names) t s = Ok j /\ j < List.length names).
Proof. exact build_good. Qed.
Print Assumptions C13_lookup.

(** Construction never indexes an array out of range and never throws. *)
Theorem C13_construction_defined : forall fuel names, names <> [] ->
  (N.of_nat (List.length names) <= 2 ^ 63)%N -> (N.of_nat fuel < 2 ^ 63)%N ->
  build fuel names <> Bad.
Proof. exact build_not_bad. Qed.
Print Assumptions C13_construction_defined.

(** A repeated name makes the search for a seed run on. *)
Theorem C13_repeated_name_never_ends : forall fuel names, ~ NoDup names ->
  (N.of_nat (List.length names) <= 2 ^ 63)%N -> (N.of_nat fuel < 2 ^ 63)%N ->
  build fuel names = Fuel.
Proof. exact build_repeated. Qed.
Print Assumptions C13_repeated_name_never_ends.

(** C48: if the number of names is a power of two, two names of the same length whose
    characters agree modulo this number make the search run on. *)
Theorem C48_alike_names_never_end : forall fuel names k i j s s', N.of_nat (List.length names) = (2 ^ k)%N -> (k <= 63)%N -> i <> j ->
  nth_error names i = Some s -> nth_error names j = Some s' ->
  Forall2 (fun c c' => N_of_ascii c mod 2 ^ k = N_of_ascii c' mod 2 ^ k)%N s s' -> (N.of_nat fuel < 2 ^ 63)%N -> build fuel names = Fuel.
Proof. exact alike_never. Qed.
Print Assumptions C48_alike_names_never_end.

(** C48: a class with members x, y, z and t. *)
Theorem C48_distinct_names_refuted : exists names, NoDup names /\ List.length names = 4 /\ forall fuel, (N.of_nat fuel < 2 ^ 63)%N -> build fuel names = Fuel.
Proof.
  exists (map list_ascii_of_string ["x"; "y"; "z"; "t"]%string). split; [|split; [reflexivity|]].
  - cbn. repeat (constructor; [cbn; intuition discriminate|]). constructor.
  - intros fuel F. eapply (C48_alike_names_never_end fuel _ 2 0 3); try reflexivity; auto; [easy|]. repeat constructor.
Qed.
Print Assumptions C48_distinct_names_refuted.

Example C48_example : (exists t, build 100 (map list_ascii_of_string ["x"; "y"; "z"; "w"]%string) = Ok t) /\ build 100 (map list_ascii_of_string ["x"; "y"; "z"; "t"]%string) = Fuel.
Proof. split; [eexists|]; vm_compute; reflexivity. Qed.

(** The member chosen for a key is the one of that name; a key that is no name is reported. *)
Theorem C14_dispatch_by_name : forall fuel names key r, names <> [] ->
  (N.of_nat (List.length names) <= 2 ^ 63)%N -> (N.of_nat fuel < 2 ^ 63)%N ->
  dispatch fuel names key = Ok r ->
  match r with
  | Some k => nth_error names k = Some key
  | None => ~ In key names
  end.
Proof. exact dispatch_ok. Qed.
Print Assumptions C14_dispatch_by_name.

Theorem C14_dispatch_defined : forall fuel names key, names <> [] ->
  (N.of_nat (List.length names) <= 2 ^ 63)%N -> (N.of_nat fuel < 2 ^ 63)%N ->
  dispatch fuel names key <> Bad.
Proof. exact dispatch_not_bad. Qed.
Print Assumptions C14_dispatch_defined.

Definition example_names : list (list ascii) :=
  map list_ascii_of_string ["alpha"; "beta"; "gamma"; "delta"; "x"]%string.

Example C13_example :
  match build 100 example_names with
  | Ok t => map (fun s => index 5 t s) example_names = [Ok 0; Ok 1; Ok 2; Ok 3; Ok 4]
  | _ => False
  end.
Proof. vm_compute. reflexivity. Qed.

Example C14_example :
  dispatch 100 example_names (list_ascii_of_string "delta") = Ok (Some 3) /\
  dispatch 100 example_names (list_ascii_of_string "epsilon") = Ok None.
Proof. split; vm_compute; reflexivity. Qed.
