(** Model of include/persistence/detail/perfect_hash.hpp (64-bit std::size_t).

    [Bad] stands for undefined behaviour (index outside an array, division by zero) and for
    the exceptions of BitSet; [Fuel] for a search that does not end within the given number
    of steps. *)
From Coq Require Import List Arith NArith Ascii String Bool.
From Verif Require Import Base BitsetModel.
Import ListNotations.

Inductive res (A : Type) : Type :=
| Ok (a : A)
| Fuel
| Bad.
Arguments Ok {A} a.
Arguments Fuel {A}.
Arguments Bad {A}.

Definition rbind {A B} (x : res A) (f : A -> res B) : res B :=
  match x with
  | Ok a => f a
  | Fuel => Fuel
  | Bad => Bad
  end.

Notation "'let*' x <- e1 ; e2" := (rbind e1 (fun x => e2))
  (at level 200, x pattern, e1 at level 100, e2 at level 200, right associativity).

Definition of_opt {A} (x : option A) : res A :=
  match x with Some a => Ok a | None => Bad end.

(** Loops. *)
Fixpoint rfold {A S} (f : S -> A -> res S) (l : list A) (s : S) : res S :=
  match l with
  | [] => Ok s
  | a :: l' => let* s' <- f s a; rfold f l' s'
  end.

(** Array assignment. *)
Fixpoint upd {A} (l : list A) (i : nat) (v : A) : option (list A) :=
  match l, i with
  | [], _ => None
  | _ :: l', O => Some (v :: l')
  | x :: l', S i' => match upd l' i' v with Some r => Some (x :: r) | None => None end
  end.

Definition two64 : N := 2 ^ 64.

(** A char converted to std::size_t: char is signed on the modelled platform. *)
Definition char_to_size (c : ascii) : N :=
  let v := N_of_ascii c in
  if (v <? 128)%N then v else (v + two64 - 256)%N.

(** perfect_hash.hpp:35-37 *)
Definition hash_step (d : N) (c : ascii) : N :=
  let shl k := (N.shiftl d k mod two64)%N in
  let d' := ((d + (shl 1 + shl 4 + shl 5 + shl 7 + shl 8 + shl 40)) mod two64)%N in
  N.lxor d' (char_to_size c).

(** perfect_hash.hpp:12-41, 64-bit branch. *)
Definition hash (d : N) (str : list ascii) : N :=
  let d0 := if (d =? 0)%N then 0xcbf29ce484222325%N else d in
  N.land (fold_left hash_step str d0) 0x7fffffffffffffff.

(** [hash(d, str) % Size] as an array index. *)
Definition slot (size : nat) (d : N) (str : list ascii) : res nat :=
  match size with
  | O => Bad
  | _ => Ok (N.to_nat (hash d str mod N.of_nat size))
  end.

Definition item (items : list (list ascii)) (k : nat) : res (list ascii) :=
  of_opt (nth_error items k).

(** perfect_hash.hpp:158-172 *)
Definition is_distributable (d : N) (items : list (list ascii)) (mask taken : bitset) : res bool :=
  let size := List.length items in
  let* r <-
    rfold (fun (st : option bitset) k =>
             match st with
             | None => Ok None    (* returned false *)
             | Some taken =>
               let* m <- of_opt (get mask k);
               if negb m then Ok (Some taken)
               else
                 let* it <- item items k;
                 let* key <- slot size d it;
                 let* t <- of_opt (get taken key);
                 if (t : bool) then Ok None
                 else let* taken' <- of_opt (set taken key); Ok (Some taken')
             end) (seq 0 size) (Some taken);
  Ok (match r with Some _ => true | None => false end).

(** perfect_hash.hpp:140-147 *)
Fixpoint scatter (fuel : nat) (d : N) (items : list (list ascii)) (mask taken : bitset) : res N :=
  match fuel with
  | O => Fuel
  | S f =>
    let* b <- is_distributable d items mask taken;
    if (b : bool) then Ok d else scatter f ((d + 1) mod two64)%N items mask taken
  end.

Record table : Type := { index_map : list nat; G : list N }.

Record state : Type := { tab : table; taken : bitset }.

Definition hash_not (n : N) : N := (two64 - 1 - n)%N.

(** perfect_hash.hpp:82-87 *)
Definition make_buckets (items : list (list ascii)) : res (list bitset) :=
  let size := List.length items in
  rfold (fun bs k =>
           let* it <- item items k;
           let* key <- slot size 0 it;
           let* b <- of_opt (nth_error bs key);
           let* b' <- of_opt (set b k);
           of_opt (upd bs key b'))
        (seq 0 size) (repeat (empty size) size).

(** perfect_hash.hpp:102-110: one round of the innermost loop. *)
Definition place_item (items : list (list ascii)) (bucket : bitset) (d : N) (st : state) (k : nat)
  : res state :=
  let size := List.length items in
  let* item_index <- of_opt (pick bucket k);
  let* bucket_item <- item items item_index;
  let* index <- slot size d bucket_item;
  let* tk <- of_opt (set (taken st) index);
  let* im <- of_opt (upd (index_map (tab st)) index item_index);
  Ok {| tab := {| index_map := im; G := G (tab st) |}; taken := tk |}.

(** perfect_hash.hpp:92-111: body of the loop over buckets with [cnt] items. *)
Definition place_bucket (fuel : nat) (items : list (list ascii)) (buckets : list bitset) (cnt : nat)
  (st : state) (i : nat) : res state :=
  let size := List.length items in
  let* bucket <- of_opt (nth_error buckets i);
  if negb (Nat.eqb (count bucket) cnt) then Ok st
  else
    let* d <- scatter fuel 1 items bucket (taken st);
    let* f <- of_opt (first_set bucket);
    let* it <- item items f;
    let* g <- slot size 0 it;
    let* G' <- of_opt (upd (G (tab st)) g d);
    rfold (place_item items bucket d) (seq 0 cnt)
      {| tab := {| index_map := index_map (tab st); G := G' |}; taken := taken st |}.

(** perfect_hash.hpp:116-127: body of the loop over buckets with one item. *)
Definition place_single (items : list (list ascii)) (buckets : list bitset) (st : state) (i : nat)
  : res state :=
  let size := List.length items in
  let* bucket <- of_opt (nth_error buckets i);
  if negb (Nat.eqb (count bucket) 1) then Ok st
  else
    let* item_index <- of_opt (first_set bucket);
    let* bucket_item <- item items item_index;
    let* index <- of_opt (first_unset (taken st));
    let* g <- slot size 0 bucket_item;
    let* G' <- of_opt (upd (G (tab st)) g (hash_not (N.of_nat index)));
    let* tk <- of_opt (set (taken st) index);
    let* im <- of_opt (upd (index_map (tab st)) index item_index);
    Ok {| tab := {| index_map := im; G := G' |}; taken := tk |}.

(** perfect_hash.hpp:77-129, the constructor. The counts run from Size down to 2. *)
Definition build (fuel : nat) (items : list (list ascii)) : res table :=
  let size := List.length items in
  let* buckets <- make_buckets items;
  let init := {| tab := {| index_map := repeat 0 size; G := repeat 0%N size |}; taken := empty size |} in
  let* st <- rfold (fun st cnt => rfold (place_bucket fuel items buckets cnt) (seq 0 size) st)
                   (rev (seq 2 (size - 1))) init;
  let* st <- rfold (place_single items buckets) (seq 0 size) st;
  Ok (tab st).

(** perfect_hash.hpp:62-74 *)
Definition index (size : nat) (t : table) (key : list ascii) : res nat :=
  let* s <- slot size 0 key;
  let* d <- of_opt (nth_error (G t) s);
  if (2 ^ 63 <=? d)%N then of_opt (nth_error (index_map t) (N.to_nat (hash_not d)))
  else let* s2 <- slot size d key; of_opt (nth_error (index_map t) s2).
