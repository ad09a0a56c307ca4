(** Model of the parse_*.hpp headers with the lifetimes of objects.

    ParseModel.v takes references as places that are good forever. Here a reference has a time
    of birth, and the operations of the standard library that end the lifetime of elements,
    contents and pointees are recorded. Use of a reference whose object is gone is an outcome
    of its own, and so is use of a member variable of a handler that is no longer on the stack.
    What the functions compute otherwise is that of ParseModel.v, in the order of the
    statements in the headers. *)
From Coq Require Import List Arith ZArith NArith Ascii String Bool.
From Verif Require Import Base Json Events Types DispatchModel HashModel SerializeModel DeserializeModel ParseModel.
Import ListNotations.

Definition step_eqb (a b : pstep) : bool :=
  match a, b with
  | SItem i, SItem j => Nat.eqb i j
  | SKey k, SKey l => String.eqb k l
  | SSome, SSome | SPtr, SPtr => true
  | _, _ => false
  end.

(** Whether [p] goes on after [q]. *)
Fixpoint beyond (p q : list pstep) : bool :=
  match p, q with
  | _ :: _, [] => true
  | a :: p', b :: q' => step_eqb a b && beyond p' q'
  | _, _ => false
  end.

(** What an operation makes invalid: everything inside of the object at a place (not the object
    itself), or the storage of a handler with all that is in it. *)
Inductive region : Type :=
| Inside (r : place)
| Whole (id : nat).

Definition covers (g : region) (r : place) : bool :=
  match g with
  | Inside q => Nat.eqb (object r) (object q) && beyond (path r) (path q)
  | Whole id => Nat.eqb (object r) id
  end.

(** A C++ reference, and when it was made. *)
Record reference : Type := { r_place : place; r_born : nat }.

Record lhandler : Type := { l_kind : kind; l_ref : reference; l_id : nat }.

Record lstate : Type := {
  l_mem : memory;
  l_stack : list lhandler;
  l_fresh : nat;                    (* next address of a shared object *)
  l_clock : nat;
  l_ended : list (nat * region);    (* what became invalid, and when *)
  l_serial : nat                    (* number of the next handler *)
}.

Definition dangling (s : lstate) (r : reference) : bool :=
  existsb (fun x => Nat.leb (r_born r) (fst x) && covers (snd x) (r_place r)) (l_ended s).

(** Outcome of a function: it returns, or a handler returns false after context.fail;
    std::out_of_range; undefined behaviour of a codec; a type that does not compile; use of a
    reference to an object that is gone; use of a handler that is gone. *)
Inductive lres (A : Type) : Type :=
| LOk (a : A) (s : lstate)
| LFail (s : lstate)
| LOver
| LUndef
| LOutside
| LDangling
| LGone.
Arguments LOk {A} a s.
Arguments LFail {A} s.
Arguments LOver {A}.
Arguments LUndef {A}.
Arguments LOutside {A}.
Arguments LDangling {A}.
Arguments LGone {A}.

Definition act (A : Type) : Type := lstate -> lres A.

Definition ret {A} (a : A) : act A := fun s => LOk a s.

Definition andthen {A B} (x : act A) (f : A -> act B) : act B := fun s =>
  match x s with
  | LOk a s' => f a s'
  | LFail s' => LFail s'
  | LOver => LOver
  | LUndef => LUndef
  | LOutside => LOutside
  | LDangling => LDangling
  | LGone => LGone
  end.

Declare Scope act_scope.
Notation "'let*' a := x 'in' f" := (andthen x (fun a => f)) (at level 200, a name, right associativity) : act_scope.
Notation "x ;* f" := (andthen x (fun _ => f)) (at level 199, right associativity) : act_scope.
Local Open Scope act_scope.

(** A member variable of a handler is read. *)
Definition this (id : nat) : act lhandler := fun s =>
  match find (fun h => Nat.eqb (l_id h) id) (l_stack s) with
  | Some h => LOk h s
  | None => LGone
  end.

(** context.fail and return false; [context] is a member variable. *)
Definition fail (id : nat) : act nat := this id ;* fun s => LFail s.

(** The object that a reference refers to is used. *)
Definition deref (r : reference) : act unit := fun s => if dangling s r then LDangling else LOk tt s.

(** A reference to a part of an object. *)
Definition sub (r : reference) (st : pstep) : act reference :=
  deref r ;* fun s => LOk {| r_place := into (r_place r) st; r_born := l_clock s |} s.

Definition look (p : place) : act (option val) := fun s => LOk (load (l_mem s) p) s.

Definition write_at (p : place) (w : val) : act unit := fun s =>
  LOk tt {| l_mem := store (l_mem s) p w; l_stack := l_stack s; l_fresh := l_fresh s;
            l_clock := l_clock s; l_ended := l_ended s; l_serial := l_serial s |}.

(** Lifetimes end. *)
Definition end_of (g : region) : act unit := fun s =>
  LOk tt {| l_mem := l_mem s; l_stack := l_stack s; l_fresh := l_fresh s;
            l_clock := S (l_clock s); l_ended := (l_clock s, g) :: l_ended s; l_serial := l_serial s |}.

Definition assign (r : reference) (w : val) : act unit := deref r ;* write_at (r_place r) w.

Definition items_of (o : option val) : list val := match o with Some (VList l) => l | _ => [] end.
Definition entries_of (o : option val) : list (string * val) := match o with Some (VMap l) => l | _ => [] end.

Section Lifetimes.
Variable e : env.
Variable fuel : nat.
Variable fits : capacity.
(** Whether a vector with these elements gets a new buffer when it grows. *)
Variable moves : list val -> bool.

(** std::vector::emplace_back and push_back. *)
Definition grow (p : place) (w : val) : act unit :=
  let* o := look p in
  write_at p (VList (push_back (items_of o) w)) ;*
  if moves (items_of o) then end_of (Inside p) else ret tt.

Definition kinds (hs : list lhandler) : list nat := map (fun h => size_of (l_kind h)) hs.

(** parse_base.hpp:19-24; the number of the new handler. *)
Definition push (k : kind) (r : reference) : act nat := fun s =>
  if fits (kinds (l_stack s)) (size_of k)
  then LOk (l_serial s)
           {| l_mem := l_mem s; l_stack := {| l_kind := k; l_ref := r; l_id := l_serial s |} :: l_stack s;
              l_fresh := l_fresh s; l_clock := l_clock s; l_ended := l_ended s; l_serial := S (l_serial s) |}
  else LOver.

(** polymorphic_stack.hpp:40-47: the handler on top is destroyed, and its storage if it is that
    of a set. *)
Definition drop : act unit := fun s =>
  match l_stack s with
  | [] => LUndef
  | h :: hs =>
    let s' := {| l_mem := l_mem s; l_stack := hs; l_fresh := l_fresh s; l_clock := l_clock s;
                 l_ended := l_ended s; l_serial := l_serial s |} in
    match l_kind h with
    | KSet _ id => end_of (Whole id) {| l_mem := firstn id (l_mem s); l_stack := hs; l_fresh := l_fresh s;
                                        l_clock := l_clock s; l_ended := l_ended s; l_serial := l_serial s |}
    | _ => LOk tt s'
    end
  end.

(** parse_base.hpp:26-30. *)
Definition leave (id : nat) : act nat := this id ;* drop ;* ret id.

(** parse_base.hpp:32-37. *)
Definition exchange (k : kind) (r : reference) : act nat := drop ;* push k r.

(** parse_pointer.hpp:13-41: the pointer gets a new object, the old one is deleted. *)
Fixpoint make (t : ty) (r : reference) : act reference :=
  match t with
  | TUnique u =>
    assign r (VPtr (vinit e u)) ;*
    end_of (Inside (r_place r)) ;*
    let* c := sub r SPtr in make u c
  | TShared u =>
    deref r ;*
    (fun s => LOk tt {| l_mem := store (l_mem s) (r_place r) (VShared (l_fresh s) (vinit e u)); l_stack := l_stack s;
                        l_fresh := S (l_fresh s); l_clock := l_clock s; l_ended := l_ended s; l_serial := l_serial s |}) ;*
    end_of (Inside (r_place r)) ;*
    let* c := sub r SPtr in make u c
  | _ => ret r
  end.

(** context.emplace<JsonParser<T>>(context, ref). *)
Definition enter (t : ty) (r : reference) : act nat := fun s =>
  match core t with
  | TVariant _ | TPtr _ => LOutside
  | t' =>
    if fits (kinds (l_stack s)) (size_of (KValue t'))
    then (let* c := make t r in push (KValue t') c) s
    else LOver
  end.

(** parse_object.hpp:78-84: std::optional::emplace destroys the old content. *)
Definition enter_member (m : member) (r : reference) : act nat := fun s =>
  match m_kind m with
  | MOptional =>
    match core (m_ty m) with
    | TVariant _ | TPtr _ => LOutside
    | t' =>
      if fits (kinds (l_stack s)) (size_of (KValue t'))
      then (assign r (VSome (vinit e (m_ty m))) ;*
            end_of (Inside (r_place r)) ;*
            let* c := sub r SSome in enter (m_ty m) c) s
      else LOver
    end
  | _ => enter (m_ty m) r s
  end.

(** The storage of the handler of a set comes into being with the handler. *)
Definition push_storage (k : kind) (r : reference) : act nat :=
  let* id := push k r in
  fun s => LOk id {| l_mem := l_mem s ++ [VList []]; l_stack := l_stack s; l_fresh := l_fresh s; l_clock := l_clock s;
                     l_ended := l_ended s; l_serial := l_serial s |}.

(** JsonParser<T>::parse, see ParseModel.on_value. References to handler and object are read
    from [this] before the handler is replaced. *)
Definition begin_value (id : nat) (t : ty) (ev : event) : act nat :=
  let container k := let* h := this id in exchange k (l_ref h) in
  match t with
  | TVector u => match ev with EStartArray => container (KVector u) | _ => fail id end
  | TSet u =>
    match ev with
    | EStartArray =>
      if fast u then container (KFastSet u)
      else let* h := this id in fun s => (drop ;* push_storage (KSet u (List.length (l_mem s))) (l_ref h)) s
    | _ => fail id
    end
  | TArray n u => match ev with EStartArray => container (KFixed 0 (repeat u n)) | _ => fail id end
  | TPair a b => match ev with EStartArray => container (KFixed 0 [a; b]) | _ => fail id end
  | TTuple ts => match ev with EStartArray => container (KFixed 0 ts) | _ => fail id end
  | TMap _ u => match ev with EStartObject => container (KMap u) | _ => fail id end
  | TClass c => match ev with EStartObject => container (KObject c) | _ => fail id end
  | TVariant _ | TPtr _ | TUnique _ | TShared _ => fun _ => LOutside
  | _ =>
    match scalar e t ev with
    | SAssign v => let* h := this id in assign (l_ref h) v ;* leave id
    | SStay v => let* h := this id in assign (l_ref h) v ;* ret id
    | SReject => fail id
    | SRejectAssign v => let* h := this id in assign (l_ref h) v ;* fail id
    | SUndefined => fun _ => LUndef
    end
  end.

(** parse_vector.hpp:21-33, 50-60, 81-134, 208-218. *)
Definition vector_event (id : nat) (u : ty) (ev : event) : act nat :=
  match ev with
  | EEndArray => leave id
  | _ =>
    if fast u then
      match scalar e u ev with
      | SAssign v => let* h := this id in deref (l_ref h) ;* grow (r_place (l_ref h)) v ;* ret id
      | _ => fail id
      end
    else if is_json_type u ev then
      let* h := this id in
      deref (l_ref h) ;*
      let* o := look (r_place (l_ref h)) in
      grow (r_place (l_ref h)) (vinit e u) ;*
      let* h' := this id in
      let* c := sub (l_ref h') (SItem (List.length (items_of o))) in
      let* i := enter u c in
      begin_value i (core u) ev
    else fail id
  end.

(** parse_set.hpp:22-41. The storage is a member variable, [q] its place. *)
Definition set_event (id : nat) (u : ty) (q : place) (ev : event) : act nat :=
  match ev with
  | EEndArray =>
    let* h := this id in
    let* o := look q in
    deref (l_ref h) ;*
    let* old := look (r_place (l_ref h)) in
    write_at (r_place (l_ref h)) (VList (fold_left (set_insert (less e u)) (items_of o) (items_of old))) ;*
    end_of (Inside q) ;*
    leave id
  | _ =>
    if is_json_type u ev then
      this id ;*
      let* o := look q in
      grow q (vinit e u) ;*
      this id ;*
      fun s =>
        (let* i := enter u {| r_place := into q (SItem (List.length (items_of o))); r_born := l_clock s |} in
         begin_value i (core u) ev) s
    else fail id
  end.

(** parse_set.hpp:59-69, 90-143, 217-227. Insertion into a set leaves all references valid. *)
Definition fast_set_event (id : nat) (u : ty) (ev : event) : act nat :=
  match ev with
  | EEndArray => leave id
  | _ =>
    match scalar e u ev with
    | SAssign v =>
      let* h := this id in
      deref (l_ref h) ;*
      let* o := look (r_place (l_ref h)) in
      write_at (r_place (l_ref h)) (VList (set_insert (less e u) (items_of o) v)) ;*
      ret id
    | _ => fail id
    end
  end.

(** parse_map.hpp:16-30. Insertion into a map leaves all references valid, also if the map is
    unordered and hashed anew. *)
Definition map_event (id : nat) (u : ty) (ev : event) : act nat :=
  match ev with
  | EEndObject => leave id
  | EKey k =>
    let* h := this id in
    deref (l_ref h) ;*
    let* o := look (r_place (l_ref h)) in
    write_at (r_place (l_ref h)) (VMap (try_emplace (entries_of o) k (vinit e u))) ;*
    let* c := sub (l_ref h) (SKey k) in
    this id ;*
    enter u c
  | _ => fail id
  end.

(** parse_object.hpp:97-114, 133-154, 175-195. *)
Definition object_event (id : nat) (c : nat) (ev : event) : act nat :=
  match ev with
  | EEndObject => leave id
  | EKey k =>
    let ms := c_members (class_of e c) in
    match dispatch fuel (map (fun m => list_ascii_of_string (m_name m)) ms) (list_ascii_of_string k) with
    | Ok (Some i) =>
      match nth_error ms i with
      | Some m =>
        let* h := this id in
        let* c := sub (l_ref h) (SItem i) in
        enter_member m c
      | None => fun _ => LUndef
      end
    | Ok None => fail id
    | _ => fun _ => LUndef
    end
  | _ => fail id
  end.

(** parse_array.hpp:33-95 and 129-133. The function that replaces the handler is static and gets
    the reference to the container as an argument. *)
Definition fixed_event (id : nat) (i : nat) (ts : list ty) (ev : event) : act nat :=
  match ts with
  | [] => match ev with EEndArray => leave id | _ => fail id end
  | t :: ts' =>
    match ev with
    | EKey _ | EEndObject | EEndArray => fail id
    | _ =>
      let* h := this id in
      exchange (KFixed (S i) ts') (l_ref h) ;*
      let* c := sub (l_ref h) (SItem i) in
      let* i' := enter t c in
      begin_value i' (core t) ev
    end
  end.

(** detail/parse_event.hpp:134-207. *)
Definition handle (ev : event) : act nat := fun s =>
  match l_stack s with
  | [] => LUndef
  | h :: _ =>
    match l_kind h with
    | KValue t => begin_value (l_id h) t ev s
    | KVector u => vector_event (l_id h) u ev s
    | KSet u id => set_event (l_id h) u {| object := id; path := [] |} ev s
    | KFastSet u => fast_set_event (l_id h) u ev s
    | KMap u => map_event (l_id h) u ev s
    | KObject c => object_event (l_id h) c ev s
    | KFixed i ts => fixed_event (l_id h) i ts ev s
    end
  end.

Fixpoint handle_all (evs : list event) : act unit :=
  match evs with
  | [] => ret tt
  | ev :: evs' => handle ev ;* handle_all evs'
  end.

Definition nothing_yet (obj : val) : lstate :=
  {| l_mem := [obj]; l_stack := []; l_fresh := 0; l_clock := 1; l_ended := []; l_serial := 0 |}.

(** parse.hpp:11-21. The caller's object lives throughout. *)
Definition parse_with_lifetimes (t : ty) (obj : val) (evs : list event) : lres unit :=
  (enter t {| r_place := root_place; r_born := 1 |} ;* handle_all evs) (nothing_yet obj).
End Lifetimes.
