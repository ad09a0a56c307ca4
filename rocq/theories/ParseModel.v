(** Model of the parse_*.hpp headers: a stack of handlers driven by the events of
    rapidjson::Reader.

    The handlers hold C++ references to the objects they fill. Here a reference is a place:
    a number for the complete object and a path from there. Complete objects are the object
    given to parse (number 0) and the temporary storage vectors inside the handlers of sets.
    A reference to an element dangles when its vector grows; this is not modelled here.
    LifetimeModel.v models it, and LifetimeProps.v shows that no such reference is used. *)
From Coq Require Import List Arith ZArith NArith Ascii String Bool.
From Verif Require Import Base Float NumericModel Base64Model DatetimeModel EnumModel HashModel DispatchModel Json Events Types
  SerializeModel DeserializeModel.
Import ListNotations.

(** * References *)

Inductive pstep : Type :=
| SItem (i : nat)       (* element, component or member *)
| SKey (k : string)     (* mapped value *)
| SSome                 (* content of std::optional *)
| SPtr.                 (* pointee *)

Fixpoint set_nth {A} (l : list A) (i : nat) (x : A) : list A :=
  match l, i with
  | [], _ => []
  | _ :: l', O => x :: l'
  | y :: l', S i' => y :: set_nth l' i' x
  end.

Fixpoint map_find (l : list (string * val)) (key : string) : option val :=
  match l with
  | [] => None
  | (k, v) :: l' => if String.eqb k key then Some v else map_find l' key
  end.

Fixpoint map_replace (l : list (string * val)) (key : string) (w : val) : list (string * val) :=
  match l with
  | [] => []
  | (k, v) :: l' => if String.eqb k key then (k, w) :: l' else (k, v) :: map_replace l' key w
  end.

Definition get_step (s : pstep) (v : val) : option val :=
  match s, v with
  | SItem i, VList l | SItem i, VObj l => nth_error l i
  | SKey k, VMap l => map_find l k
  | SSome, VSome x => Some x
  | SPtr, VPtr x | SPtr, VShared _ x => Some x
  | _, _ => None
  end.

Definition set_step (s : pstep) (w v : val) : val :=
  match s, v with
  | SItem i, VList l => VList (set_nth l i w)
  | SItem i, VObj l => VObj (set_nth l i w)
  | SKey k, VMap l => VMap (map_replace l k w)
  | SSome, VSome _ => VSome w
  | SPtr, VPtr _ => VPtr w
  | SPtr, VShared a _ => VShared a w
  | _, _ => v
  end.

Fixpoint vget (p : list pstep) (v : val) : option val :=
  match p with
  | [] => Some v
  | s :: p' => match get_step s v with Some x => vget p' x | None => None end
  end.

Fixpoint vset (p : list pstep) (w v : val) : val :=
  match p with
  | [] => w
  | s :: p' => match get_step s v with Some x => set_step s (vset p' w x) v | None => v end
  end.

Record place : Type := { object : nat; path : list pstep }.

Definition memory := list val.

Definition load (m : memory) (r : place) : option val :=
  match nth_error m (object r) with Some v => vget (path r) v | None => None end.

Definition store (m : memory) (r : place) (w : val) : memory :=
  match nth_error m (object r) with Some v => set_nth m (object r) (vset (path r) w v) | None => m end.

Definition into (r : place) (s : pstep) : place := {| object := object r; path := path r ++ [s] |}.

(** * Handlers *)

(** [KValue t] is JsonParser<T> before its first event; pointers and optionals have no
    handler of their own, they derive from the handler of the content. [KVector], [KMap] and
    [KObject] are JsonArrayParser, JsonMapParser and Json{Solo,Pair,}ObjectParser.
    [KSet u id] is the generic JsonSetParser with its storage vector, [KFastSet] its
    specialisations. [KFixed i ts] is JsonFixedArrayParser with [i] components read and those
    of types [ts] to come. *)
Inductive kind : Type :=
| KValue (t : ty)
| KVector (u : ty)
| KSet (u : ty) (id : nat)
| KFastSet (u : ty)
| KMap (u : ty)
| KObject (c : nat)
| KFixed (i : nat) (ts : list ty).

Record handler : Type := { h_kind : kind; h_ref : place }.

Record pstate : Type := { mem : memory; stack : list handler; fresh_address : nat }.

(** Outcome of a handler: it returns true, or false after context.fail; std::out_of_range
    from the stack; undefined behaviour; or a type that does not compile. *)
Inductive pres : Type :=
| POk (s : pstate)
| PFail (s : pstate)
| POver
| PUndef
| POutside.

(** Whether there is room for one more handler: given the sizes of the handlers on the stack
    and of the new one. *)
Definition capacity := list nat -> nat -> bool.

(** sizeof on LP64: virtual table pointer, two references, and a vector in JsonSetParser. *)
Definition size_of (k : kind) : nat := match k with KSet _ _ => 48 | _ => 24 end.

(** polymorphic_stack.hpp:26: capacity 128, memory 4096, alignment 8. *)
Definition real_capacity : capacity := fun used size =>
  negb (Nat.leb 128 (List.length used) || Nat.leb (4096 - 8 - size) (list_sum used)).

Definition sizes (hs : list handler) : list nat := map (fun h => size_of (h_kind h)) hs.

Section Machine.
Variable e : env.
Variable fuel : nat.     (* for the construction of perfect hash tables *)
Variable fits : capacity.

(** parse_base.hpp:19-24 *)
Definition emplace (k : kind) (r : place) (s : pstate) : pres :=
  if fits (sizes (stack s)) (size_of k)
  then POk {| mem := mem s; stack := {| h_kind := k; h_ref := r |} :: stack s; fresh_address := fresh_address s |}
  else POver.

(** parse_base.hpp:26-30. The handler of an empty stack is null; RapidJSON sends no event
    after the end of the top-level value. *)
Definition pop (s : pstate) : pstate :=
  {| mem := mem s; stack := tl (stack s); fresh_address := fresh_address s |}.

(** parse_base.hpp:32-37 *)
Definition replace (k : kind) (r : place) (s : pstate) : pres := emplace k r (pop s).

Definition put (r : place) (w : val) (s : pstate) : pstate :=
  {| mem := store (mem s) r w; stack := stack s; fresh_address := fresh_address s |}.

(** Type of the content behind pointers. *)
Fixpoint core (t : ty) : ty :=
  match t with TUnique u | TShared u => core u | _ => t end.

(** parse_pointer.hpp:13-41: the constructors assign new objects. The place is that of the
    innermost content. *)
Fixpoint construct (t : ty) (r : place) (s : pstate) : place * pstate :=
  match t with
  | TUnique u => construct u (into r SPtr) (put r (VPtr (vinit e u)) s)
  | TShared u =>
    construct u (into r SPtr)
      {| mem := store (mem s) r (VShared (fresh_address s) (vinit e u)); stack := stack s;
         fresh_address := S (fresh_address s) |}
  | _ => (r, s)
  end.

(** context.emplace<JsonParser<T>>(context, ref): the check for room comes before the
    constructor. Variants and raw pointers do not compile. *)
Definition open (t : ty) (r : place) (s : pstate) : pres :=
  match core t with
  | TVariant _ | TPtr _ => POutside
  | t' =>
    if fits (sizes (stack s)) (size_of (KValue t'))
    then let '(r, s) := construct t r s in emplace (KValue t') r s
    else POver
  end.

(** parse_object.hpp:78-84: optional members. *)
Definition open_member (m : member) (r : place) (s : pstate) : pres :=
  match m_kind m with
  | MOptional =>
    match core (m_ty m) with
    | TVariant _ | TPtr _ => POutside
    | t' => if fits (sizes (stack s)) (size_of (KValue t'))
            then open (m_ty m) (into r SSome) (put r (VSome (vinit e (m_ty m))) s)
            else POver
    end
  | _ => open (m_ty m) r s
  end.

(** rapidjson::Reader: the type of the event for an integer; beyond 64 bits a double. *)
Definition integer_event (z : Z) : option ity :=
  (if Z.leb 0 z then
     if Z.ltb z (2 ^ 32) then Some uint32
     else if Z.ltb z (2 ^ 64) then Some uint64 else None
   else
     if Z.leb (- 2 ^ 31) z then Some int32
     else if Z.leb (- 2 ^ 63) z then Some int64 else None)%Z.

Inductive pnumber : Type :=
| NInteger (V : ity) (z : Z)
| NDouble (f : fl).

Definition number_event (ev : event) : option pnumber :=
  match ev with
  | EInt z => Some (match integer_event z with
                    | Some V => NInteger V z
                    | None => NDouble (Float.round binary64 (fl_of_Z z))
                    end)
  | EDbl f => Some (NDouble f)
  | _ => None
  end.

(** parse_fundamental.hpp:54-64; [is_assignable] is C11. *)
Definition assign_number (t : ty) (n : pnumber) : option val :=
  match t, n with
  | TInt k, NInteger V z => if assignable_ii k V z then Some (VInt (wrap k z)) else None
  | TInt k, NDouble f => None
  | TFloat, NInteger V z =>
    if assignable_fi binary32 V z then Some (VFlt (Float.round binary32 (fl_of_Z z))) else None
  | TDouble, NInteger V z =>
    if assignable_fi binary64 V z then Some (VFlt (Float.round binary64 (fl_of_Z z))) else None
  | TFloat, NDouble f =>
    if assignable_ff binary32 binary64 f then Some (VFlt (Float.round binary32 f)) else None
  | TDouble, NDouble f =>
    if assignable_ff binary64 binary64 f then Some (VFlt (Float.round binary64 f)) else None
  | _, _ => None
  end.

(** Handlers of scalars: the value assigned, if the event is accepted; whether the handler
    pops itself. Undefined behaviour of the codecs is [None]. A byte string is assigned even
    if the event is rejected. *)
Inductive sres : Type :=
| SAssign (v : val)          (* accepted, pop *)
| SStay (v : val)            (* accepted, no pop *)
| SReject
| SRejectAssign (v : val)
| SUndefined.

(** parse_fundamental.hpp:9-141, parse_string.hpp:17-22, parse_bytes.hpp:17-26,
    parse_datetime.hpp:18-27, parse_date.hpp:21-32, parse_enum.hpp:14-77 and 79-106. *)
Definition scalar (t : ty) (ev : event) : sres :=
  match t with
  | TNull => match ev with ENull => SAssign VNull | _ => SReject end
  | TBool => match ev with EBool b => SAssign (VBool b) | _ => SReject end
  | TInt _ | TFloat | TDouble =>
    match number_event ev with
    | Some n => match assign_number t n with Some v => SAssign v | None => SReject end
    | None => SReject
    end
  | TEnumInt k =>
    match number_event ev with
    | Some (NInteger V z) => match assign_number (TInt k) (NInteger V z) with Some v => SAssign v | None => SReject end
    | _ => SReject
    end
  | TString => match ev with EStr s => SAssign (VStr s) | _ => SReject end
  | TBytes =>
    match ev with
    | EStr s =>
      match base64_decode (list_ascii_of_string s) with
      | None => SUndefined
      | Some (true, b) => SAssign (VBytes b)
      | Some (false, b) => SRejectAssign (VBytes b)
      end
    | _ => SReject
    end
  | TTime =>
    match ev with
    | EStr s =>
      match parse_datetime (tick e) (list_ascii_of_string s) with
      | None => SUndefined
      | Some (Some z) => SAssign (VTime z)
      | Some None => SReject
      end
    | _ => SReject
    end
  | TDate =>
    match ev with
    | EStr s =>
      match parse_date (tick e) (list_ascii_of_string s) with
      | None => SUndefined
      | Some (Some z) => SAssign (VDate (ticks_day e z))
      | Some None => SReject
      end
    | _ => SReject
    end
  | TEnumStr names =>
    match ev with
    | EStr s => match enum_from_string names s with Some z => SStay (VInt z) | None => SReject end
    | _ => SReject
    end
  | _ => SReject
  end.

(** Element types for which JsonArrayParser and JsonSetParser have specialisations without
    element handlers: parse_vector.hpp:39-222, parse_set.hpp:48-231. *)
Definition fast (u : ty) : bool :=
  match u with
  | TBool | TFloat | TDouble | TString => true
  | TInt k => negb (Z.eqb (width k) 8)
  | _ => false
  end.

(** JsonParser<T>::json_type: the only event, besides the end of the array, that the generic
    parsers of vectors and sets pass on. For numbers it is JsonValueNumber, which
    rapidjson::Reader sends only with kParseNumbersAsStringsFlag. *)
Definition is_json_type (t : ty) (ev : event) : bool :=
  match core t, ev with
  | TNull, ENull => true
  | TBool, EBool _ => true
  | (TString | TBytes | TTime | TDate | TEnumStr _), EStr _ => true
  | (TVector _ | TArray _ _ | TSet _ | TPair _ _ | TTuple _), EStartArray => true
  | (TMap _ _ | TClass _), EStartObject => true
  | _, _ => false
  end.

(** JsonParser<T>: scalars as above; parse_vector.hpp:234-238, parse_set.hpp:243-247,
    parse_array.hpp:110-114, parse_map.hpp:46-50, parse_object.hpp:236-246. *)
Definition on_value (t : ty) (r : place) (ev : event) (s : pstate) : pres :=
  match t with
  | TVector u => match ev with EStartArray => replace (KVector u) r s | _ => PFail s end
  | TSet u =>
    match ev with
    | EStartArray =>
      if fast u then replace (KFastSet u) r s
      else
        let id := List.length (mem s) in
        match replace (KSet u id) r s with
        | POk s => POk {| mem := mem s ++ [VList []]; stack := stack s; fresh_address := fresh_address s |}
        | x => x
        end
    | _ => PFail s
    end
  | TArray n u => match ev with EStartArray => replace (KFixed 0 (repeat u n)) r s | _ => PFail s end
  | TPair a b => match ev with EStartArray => replace (KFixed 0 [a; b]) r s | _ => PFail s end
  | TTuple ts => match ev with EStartArray => replace (KFixed 0 ts) r s | _ => PFail s end
  | TMap _ u => match ev with EStartObject => replace (KMap u) r s | _ => PFail s end
  | TClass c => match ev with EStartObject => replace (KObject c) r s | _ => PFail s end
  | TVariant _ | TPtr _ | TUnique _ | TShared _ => POutside
  | _ =>
    match scalar t ev with
    | SAssign v => POk (pop (put r v s))
    | SStay v => POk (put r v s)
    | SReject => PFail s
    | SRejectAssign v => PFail (put r v s)
    | SUndefined => PUndef
    end
  end.

(** The event goes on to the handler on top, which is a JsonParser<T>. *)
Definition forward (ev : event) (x : pres) : pres :=
  match x with
  | POk s =>
    match stack s with
    | {| h_kind := KValue t; h_ref := r |} :: _ => on_value t r ev s
    | _ => PUndef
    end
  | x => x
  end.

Definition items (m : memory) (r : place) : list val :=
  match load m r with Some (VList l) => l | _ => [] end.

Definition entries (m : memory) (r : place) : list (string * val) :=
  match load m r with Some (VMap l) => l | _ => [] end.

(** A value event for an element of a container without element handlers. *)
Definition fast_item (u : ty) (r : place) (add : list val -> val -> list val) (ev : event) (s : pstate) : pres :=
  match scalar u ev with
  | SAssign v => POk (put r (VList (add (items (mem s) r) v)) s)
  | _ => PFail s
  end.

(** parse_vector.hpp:21-33, 50-60, 81-134, 208-218 *)
Definition on_vector (u : ty) (r : place) (ev : event) (s : pstate) : pres :=
  match ev with
  | EEndArray => POk (pop s)
  | _ =>
    if fast u then fast_item u r push_back ev s
    else if is_json_type u ev then
      let l := items (mem s) r in
      forward ev (open u (into r (SItem (List.length l))) (put r (VList (push_back l (vinit e u))) s))
    else PFail s
  end.

(** parse_set.hpp:22-41. [st] is the storage vector. *)
Definition on_set (u : ty) (id : nat) (r : place) (ev : event) (s : pstate) : pres :=
  let st := {| object := id; path := [] |} in
  match ev with
  | EEndArray =>
    let s := put r (VList (fold_left (set_insert (less e u)) (items (mem s) st) (items (mem s) r))) s in
    POk (pop {| mem := firstn id (mem s); stack := stack s; fresh_address := fresh_address s |})
  | _ =>
    if is_json_type u ev then
      let l := items (mem s) st in
      forward ev (open u (into st (SItem (List.length l))) (put st (VList (push_back l (vinit e u))) s))
    else PFail s
  end.

(** parse_set.hpp:59-69, 90-143, 217-227 *)
Definition on_fast_set (u : ty) (r : place) (ev : event) (s : pstate) : pres :=
  match ev with
  | EEndArray => POk (pop s)
  | _ => fast_item u r (set_insert (less e u)) ev s
  end.

(** std::map::try_emplace *)
Definition try_emplace (l : list (string * val)) (k : string) (v : val) : list (string * val) :=
  match map_find l k with Some _ => l | None => map_assign l k v end.

(** parse_map.hpp:16-30 *)
Definition on_map (u : ty) (r : place) (ev : event) (s : pstate) : pres :=
  match ev with
  | EEndObject => POk (pop s)
  | EKey k =>
    open u (into r (SKey k)) (put r (VMap (try_emplace (entries (mem s) r) k (vinit e u))) s)
  | _ => PFail s
  end.

(** parse_object.hpp:97-114, 133-154, 175-195 *)
Definition on_object (c : nat) (r : place) (ev : event) (s : pstate) : pres :=
  match ev with
  | EEndObject => POk (pop s)
  | EKey k =>
    let ms := c_members (class_of e c) in
    match dispatch fuel (map (fun m => list_ascii_of_string (m_name m)) ms) (list_ascii_of_string k) with
    | Ok (Some i) =>
      match nth_error ms i with
      | Some m => open_member m (into r (SItem i)) s
      | None => PUndef
      end
    | Ok None => PFail s
    | _ => PUndef
    end
  | _ => PFail s
  end.

(** parse_array.hpp:33-95 and 129-133 *)
Definition on_fixed (i : nat) (ts : list ty) (r : place) (ev : event) (s : pstate) : pres :=
  match ts with
  | [] => match ev with EEndArray => POk (pop s) | _ => PFail s end
  | t :: ts' =>
    match ev with
    | EKey _ | EEndObject | EEndArray => PFail s
    | _ =>
      match replace (KFixed (S i) ts') r s with
      | POk s => forward ev (open t (into r (SItem i)) s)
      | x => x
      end
    end
  end.

(** detail/parse_event.hpp:134-207: the event goes to the handler on top. *)
Definition step (ev : event) (s : pstate) : pres :=
  match stack s with
  | [] => PUndef
  | h :: _ =>
    match h_kind h with
    | KValue t => on_value t (h_ref h) ev s
    | KVector u => on_vector u (h_ref h) ev s
    | KSet u id => on_set u id (h_ref h) ev s
    | KFastSet u => on_fast_set u (h_ref h) ev s
    | KMap u => on_map u (h_ref h) ev s
    | KObject c => on_object c (h_ref h) ev s
    | KFixed i ts => on_fixed i ts (h_ref h) ev s
    end
  end.

(** rapidjson::Reader stops when a handler returns false. *)
Fixpoint run (evs : list event) (s : pstate) : pres :=
  match evs with
  | [] => POk s
  | ev :: evs' => match step ev s with POk s' => run evs' s' | x => x end
  end.

Definition initial (obj : val) : pstate := {| mem := [obj]; stack := []; fresh_address := 0 |}.

Definition root_place : place := {| object := 0; path := [] |}.

(** parse.hpp:11-21, for the events of a text. *)
Definition parse_events (t : ty) (obj : val) (evs : list event) : pres :=
  match open t root_place (initial obj) with
  | POk s => run evs s
  | x => x
  end.
End Machine.

(** parse.hpp:24-31: flag and object. *)
Inductive parsed : Type :=
| Parsed (ok : bool) (v : val)
| OutOfSpace
| ParseUndef
| ParseOutside.

Definition target (s : pstate) : val := nth 0 (mem s) VIndet.

Definition parse_into (e : env) (fuel : nat) (fits : capacity) (t : ty) (j : json) (obj : val) : parsed :=
  match parse_events e fuel fits t obj (events j) with
  | POk s => Parsed true (target s)
  | PFail s => Parsed false (target s)
  | POver => OutOfSpace
  | PUndef => ParseUndef
  | POutside => ParseOutside
  end.

(** parse.hpp:33-50: the new object; otherwise JsonParseError, or std::out_of_range. *)
Inductive parse_result : Type :=
| PReturned (v : val)
| PError
| POutOfRange
| PUndefined
| PNotCompiled.

Definition parse (e : env) (fuel : nat) (fits : capacity) (t : ty) (j : json) : parse_result :=
  match parse_into e fuel fits t j (dinit e t) with
  | Parsed true v => PReturned v
  | Parsed false _ => PError
  | OutOfSpace => POutOfRange
  | ParseUndef => PUndefined
  | ParseOutside => PNotCompiled
  end.
