(** What parse should say about a token: what it waits for after the tokens before, found from
    the type alone, and the words for what is wrong. *)
From Coq Require Import List Arith ZArith NArith Ascii String Bool.
From Verif Require Import Base Float NumericModel Json Events Types DenoteSpec MergeSpec TextSpec ReaderModel.
Import ListNotations.
Local Open Scope string_scope.

(** What comes next: a value of a type; an element of that type or the end of the array; a
    component of that type; the end of an array that is complete; a key or the end of the
    object; the name of a member of the class or the end of the object. *)
Inductive await : Type :=
| AValue (t : ty)
| AElement (t : ty)
| AComponent (t : ty)
| AClose
| AKey
| AName (c : nat).

(** Behind smart pointers. *)
Fixpoint pointee (t : ty) : ty := match t with TUnique u | TShared u => pointee u | _ => t end.

(** The parser does not leave a value of such a type: C41. *)
Definition holds_on (t : ty) : bool := match pointee t with TEnumStr _ => true | _ => false end.

Definition sequence (t : ty) : option ty := match t with TVector u | TSet u => Some u | _ => None end.

Definition fixed (t : ty) : option (list ty) :=
  match t with TArray n u => Some (repeat u n) | TPair a b => Some [a; b] | TTuple ts => Some ts | _ => None end.

Definition member_tokens (l : list (string * json)) : list event := flat_map (fun p => EKey (fst p) :: events (snd p)) l.

(** [awaits e t evs w]: for an object of type [t], [w] comes after the tokens [evs]. *)
Inductive awaits (e : env) : ty -> list event -> await -> Prop :=
| awaits_start : forall t, pointee t = t -> awaits e t [] (AValue t)
| awaits_unique : forall u evs w, awaits e u evs w -> awaits e (TUnique u) evs w
| awaits_shared : forall u evs w, awaits e u evs w -> awaits e (TShared u) evs w
| awaits_again : forall names s ss, awaits e (TEnumStr names) (map EStr (s :: ss)) (AValue (TEnumStr names))
| awaits_element : forall t u js, sequence t = Some u -> (js <> [] -> holds_on u = false) ->
    awaits e t (EStartArray :: flat_map events js) (AElement u)
| awaits_in_element : forall t u js evs w, sequence t = Some u -> (js <> [] -> holds_on u = false) -> evs <> [] -> awaits e u evs w ->
    awaits e t (EStartArray :: flat_map events js ++ evs) w
| awaits_component : forall t ts u js, fixed t = Some ts -> Forall (fun u => holds_on u = false) (firstn (List.length js) ts) ->
    nth_error ts (List.length js) = Some u -> awaits e t (EStartArray :: flat_map events js) (AComponent u)
| awaits_in_component : forall t ts u js evs w, fixed t = Some ts -> Forall (fun u => holds_on u = false) (firstn (List.length js) ts) ->
    nth_error ts (List.length js) = Some u -> evs <> [] -> awaits e u evs w -> awaits e t (EStartArray :: flat_map events js ++ evs) w
| awaits_close : forall t ts js, fixed t = Some ts -> Forall (fun u => holds_on u = false) ts -> List.length js = List.length ts ->
    awaits e t (EStartArray :: flat_map events js) AClose
| awaits_key : forall o u l, (l <> [] -> holds_on u = false) -> awaits e (TMap o u) (EStartObject :: member_tokens l) AKey
| awaits_entry : forall o u l k evs w, (l <> [] -> holds_on u = false) -> awaits e u evs w ->
    awaits e (TMap o u) (EStartObject :: member_tokens l ++ EKey k :: evs) w
| awaits_name : forall c l, Forall (fun p => forall m, In m (c_members (class_of e c)) -> m_name m = fst p -> holds_on (m_ty m) = false) l ->
    awaits e (TClass c) (EStartObject :: member_tokens l) (AName c)
| awaits_member : forall c l m evs w, Forall (fun p => forall m, In m (c_members (class_of e c)) -> m_name m = fst p -> holds_on (m_ty m) = false) l ->
    In m (c_members (class_of e c)) -> awaits e (m_ty m) evs w ->
    awaits e (TClass c) (EStartObject :: member_tokens l ++ EKey (m_name m) :: evs) w.

(** The words for tokens, and for the token that a value of a type starts with. *)
Definition kind_name (ev : event) : string :=
  match ev with
  | ENull => "null" | EBool _ => "boolean" | EInt _ | EDbl _ => "number" | EStr _ => "string"
  | EStartArray => "'['" | EEndArray => "']'" | EStartObject => "'{'" | EEndObject => "'}'" | EKey _ => "key name"
  end.

Fixpoint first_name (t : ty) : string :=
  match t with
  | TUnique u | TShared u => first_name u
  | TNull => "null"
  | TBool => "boolean"
  | TInt _ | TEnumInt _ | TFloat | TDouble => "number"
  | TString | TBytes | TTime | TDate | TEnumStr _ => "string"
  | TVector _ | TSet _ | TArray _ _ | TPair _ _ | TTuple _ => "'['"
  | TMap _ _ | TClass _ => "'{'"
  | TVariant _ | TPtr _ => ""
  end.

Definition expected (w : await) : list string :=
  match w with
  | AValue t | AComponent t => [first_name t]
  | AElement t => [first_name t; "']'"]
  | AClose => ["']'"]
  | AKey | AName _ => ["key name"; "'}'"]
  end.

Definition wrong_token (w : await) (ev : event) : string :=
  "expected JSON token: " ++ String.concat " or " (expected w) ++ "; got: " ++ kind_name ev.

(** The type of the value that comes next, if a value can come next. *)
Definition wanted (w : await) : option ty :=
  match w with AValue t | AElement t | AComponent t => Some (pointee t) | _ => None end.

(** A number with its token. *)
Inductive number_token : event -> json -> Prop :=
| integer_token : forall z, number_token (EInt z) (JInt z)
| double_token : forall f, number_token (EDbl f) (JDbl f).

Definition numeric (t : ty) : bool := match t with TInt _ | TFloat | TDouble | TEnumInt _ => true | _ => false end.

(** Elements for which numbers are not taken: C42. *)
Definition deaf (w : await) : bool :=
  match w with
  | AElement (TInt k) => Z.eqb (width k) 8
  | AElement TFloat | AElement TDouble => false
  | AElement t => numeric (pointee t)
  | _ => false
  end.

(** An integer of at most 64 bits. *)
Definition short_integer (ev : event) : Prop := exists z, ev = EInt z /\ (- 2 ^ 63 <= z < 2 ^ 64)%Z.

(** What is wrong with a token, in words. *)
Inductive complaint (e : env) : await -> event -> string -> Prop :=
| other_token : forall w ev, ~ In (kind_name ev) (expected w) -> complaint e w ev (wrong_token w ev)
| deaf_element : forall w ev, deaf w = true -> kind_name ev = "number" -> complaint e w ev (wrong_token w ev)
| long_enum : forall w k ev, deaf w = false -> wanted w = Some (TEnumInt k) -> kind_name ev = "number" -> ~ short_integer ev ->
    complaint e w ev (wrong_token w ev)
| lossy : forall w t ev j, deaf w = false -> wanted w = Some t -> numeric t = true -> number_token ev j ->
    (forall k, t = TEnumInt k -> short_integer ev) -> (forall old v, ~ merges e t old j v) ->
    complaint e w ev "number cannot be assigned without data loss"
| not_base64 : forall w s, wanted w = Some TBytes -> (forall old v, ~ denotes e TBytes old (JStr s) v) ->
    complaint e w (EStr s) "invalid Base64-encoding for sequence of bytes"
| not_time : forall w s, wanted w = Some TTime -> (forall old v, ~ denotes e TTime old (JStr s) v) ->
    complaint e w (EStr s) ("invalid ISO-8601 date-time; expected: YYYY-MM-DDTHH:MM:SSZ, got: " ++ s)
| not_date : forall w s, wanted w = Some TDate -> (forall old v, ~ denotes e TDate old (JStr s) v) ->
    complaint e w (EStr s) ("invalid ISO-8601 date; expected: YYYY-MM-DD, got: " ++ s)
| no_name : forall w names s, wanted w = Some (TEnumStr names) -> ~ In s (map snd names) ->
    complaint e w (EStr s) ("expected an enumeration string value; got: " ++ s)
| no_member : forall c k, ~ In k (map m_name (c_members (class_of e c))) ->
    complaint e (AName c) (EKey k) ("expected class member name; got: " ++ k).

(** [ev] after the tokens [evs] is the first token that is wrong, for the reason [msg]. *)
Definition objection (e : env) (t : ty) (evs : list event) (ev : event) (msg : string) : Prop :=
  (exists w, awaits e t evs w /\ complaint e w ev msg) /\
  forall before ev' after w msg', evs = (before ++ ev' :: after)%list -> awaits e t before w -> ~ complaint e w ev' msg'.

(** A text as a C string: what is before the first NUL. *)
Definition upto_nul (full text : string) : Prop :=
  ~ In Ascii.zero (list_ascii_of_string text) /\ (full = text \/ exists rest, full = text ++ String Ascii.zero rest).

(** The text of an exception: the offset in decimal and the reason. *)
Definition shown (offset : nat) (reason text : string) : Prop :=
  exists d, integer d (Z.of_nat offset) /\ upto_nul ("parse error at offset " ++ string_of_list_ascii d ++ ": " ++ reason) text.

(** What the theorems assume of a program and a type: distinct names of members with tables,
    and integer types and a clock as in C++. *)
Definition regular (e : env) (fuel : nat) (t : ty) : Prop := routed e fuel /\ real_classes e /\ (0 < tick e)%Z /\ real_ints t = true.

(** What the documentation of RapidJSON calls the errors in a text (rapidjson/error/en.h). *)
Definition sentence (f : fault) : string :=
  match f with
  | DocumentEmpty => "The document is empty."
  | RootNotSingular => "The document root must not be followed by other values."
  | ValueInvalid => "Invalid value."
  | MissName => "Missing a name for object member."
  | MissColon => "Missing a colon after a name of object member."
  | MissCommaOrCurlyBracket => "Missing a comma or } after an object member."
  | MissCommaOrSquareBracket => "Missing a comma or ] after an array element."
  | InvalidHex => "Incorrect hex digit after \u escape in string."
  | SurrogateInvalid => "The surrogate pair in string is invalid."
  | EscapeInvalid => "Invalid escape character in string."
  | MissQuotationMark => "Missing a closing quotation mark in string."
  | InvalidEncoding => "Invalid encoding in string."
  | TooBig => "Number too big to be stored in double."
  | MissFraction => "Miss fraction part in number."
  | MissExponent => "Miss exponent in number."
  end.
