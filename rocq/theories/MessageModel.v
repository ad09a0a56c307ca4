(** The texts of the errors that parse and deserialize report for a text: which handler of
    parse_*.hpp complains about an event, and with what words; and the messages of RapidJSON
    (error/en.h). *)
From Coq Require Import List Arith ZArith NArith Ascii String Bool.
From Verif Require Import Base Float Decimal10 NumericModel Json Events Types SerializeModel DeserializeModel ParseModel TextModel ReaderModel.
Import ListNotations.
Local Open Scope string_scope.

(** detail/parse_event.hpp:6-117: the members [name]. *)
Definition token_name (ev : event) : string :=
  match ev with
  | ENull => "null"
  | EBool _ => "boolean"
  | EInt _ | EDbl _ => "number"
  | EStr _ => "string"
  | EStartObject => "'{'"
  | EKey _ => "key name"
  | EEndObject => "'}'"
  | EStartArray => "'['"
  | EEndArray => "']'"
  end.

(** JsonParser<T>::json_type::name, where pointers inherit json_type: parse_fundamental.hpp:12,
    33 and 85, parse_string.hpp:10, parse_bytes.hpp:10, parse_datetime.hpp:11, parse_date.hpp:14,
    parse_enum.hpp:17, 82 and 112, parse_vector.hpp:227, parse_set.hpp:236, parse_array.hpp:142,
    150 and 158, parse_map.hpp:39, parse_object.hpp:229. Variants and raw pointers have none. *)
Definition json_type_name (t : ty) : string :=
  match core t with
  | TNull => "null"
  | TBool => "boolean"
  | TInt _ | TFloat | TDouble | TEnumInt _ => "number"
  | TString | TBytes | TTime | TDate | TEnumStr _ => "string"
  | TVector _ | TSet _ | TArray _ _ | TPair _ _ | TTuple _ => "'['"
  | TMap _ _ | TClass _ => "'{'"
  | TVariant _ | TPtr _ | TUnique _ | TShared _ => ""
  end.

(** parse_base.hpp:69-80: JsonParseHandler<ExpectToken, ExpectTokens...>::fail. The fold
    expression adds the strings from the left. *)
Definition unexpected (token : string) (tokens : list string) (ev : event) : string :=
  let expected :=
    match map (fun t => " or " ++ t) tokens with
    | [] => token
    | x :: l => token ++ fold_left append l x
    end in
  "expected JSON token: " ++ expected ++ "; got: " ++ token_name ev.

(** parse_fundamental.hpp:58 *)
Definition data_loss : string := "number cannot be assigned without data loss".

(** What JsonParser<T> says about an event that it does not take. An enumeration without names
    has no function for JsonValueDouble (parse_enum.hpp:24-42), and so complains like other
    handlers about other tokens. *)
Definition value_message (t : ty) (ev : event) : string :=
  let other := unexpected (json_type_name t) [] ev in
  match t, ev with
  | TInt _, (EInt _ | EDbl _) | TFloat, (EInt _ | EDbl _) | TDouble, (EInt _ | EDbl _) => data_loss
  | TEnumInt _, _ => match number_event ev with Some (NInteger _ _) => data_loss | _ => other end
  | TBytes, EStr _ => "invalid Base64-encoding for sequence of bytes"
  | TTime, EStr s => "invalid ISO-8601 date-time; expected: YYYY-MM-DDTHH:MM:SSZ, got: " ++ s
  | TDate, EStr s => "invalid ISO-8601 date; expected: YYYY-MM-DD, got: " ++ s
  | TEnumStr _, EStr s => "expected an enumeration string value; got: " ++ s
  | _, _ => other
  end.

(** What an element parser without element handlers says: parse_vector.hpp:39-222,
    parse_set.hpp:48-231. *)
Definition fast_message (u : ty) (ev : event) : string :=
  match u, ev with
  | TInt _, (EInt _ | EDbl _) | TFloat, (EInt _ | EDbl _) | TDouble, (EInt _ | EDbl _) => data_loss
  | _, _ => unexpected (json_type_name u) ["']'"] ev
  end.

(** parse_items.hpp:8-11, parse_vector.hpp:27-33, parse_set.hpp:34-41: an event of the type of
    the elements goes to the handler of the new element. *)
Definition item_message (u : ty) (ev : event) : string :=
  if is_json_type u ev then value_message (core u) ev else unexpected (json_type_name u) ["']'"] ev.

(** What a handler says about an event that it does not take: the handlers of ParseModel.v. *)
Definition message (k : kind) (ev : event) : string :=
  match k with
  | KValue t => value_message t ev
  | KVector u => if fast u then fast_message u ev else item_message u ev
  | KSet u _ => item_message u ev
  | KFastSet u => fast_message u ev
  (* parse_map.hpp:9 *)
  | KMap _ => unexpected "key name" ["'}'"] ev
  (* parse_object.hpp:87, 123 and 165; 107, 151 and 186 *)
  | KObject _ =>
    match ev with
    | EKey n => "expected class member name; got: " ++ n
    | _ => unexpected "key name" ["'}'"] ev
    end
  (* parse_array.hpp:122 *)
  | KFixed _ [] => unexpected "']'" [] ev
  (* parse_array.hpp:8-12 and 33-95: all events but three go to the handler of the component *)
  | KFixed _ (t :: _) =>
    match ev with
    | EKey _ | EEndObject | EEndArray => unexpected (json_type_name t) [] ev
    | _ => value_message (core t) ev
    end
  end.

(** parse_base.hpp:38-58: the state of the handlers with the error_message of their context. *)
Definition context := (pstate * string)%type.

Definition reporting (e : env) (fuel : nat) (fits : capacity) (ev : event) (c : context) : answer context pres :=
  match step e fuel fits ev (fst c) with
  | POk s => Goes (s, snd c)
  | PFail s => Refuses (s, match stack (fst c) with h :: _ => message (h_kind h) ev | [] => "" end)
  | x => Leaves x
  end.

(** rapidjson/error/en.h: GetParseError_En. *)
Definition fault_message (f : fault) : string :=
  match f with
  | DocumentEmpty => "The document is empty."
  | RootNotSingular => "The document root must not be followed by other values."
  | ValueInvalid => "Invalid value."
  | MissName => "Missing a name for object member."
  | MissColon => "Missing a colon after a name of object member."
  | MissCommaOrCurlyBracket => "Missing a comma or } after an object member."
  | MissCommaOrSquareBracket => "Missing a comma or ] after an array element."
  | InvalidHex => "Incorrect hex digit after \u escape in string."
  | SurrogateInvalid => "The surrogate pair in string is invalid."
  | EscapeInvalid => "Invalid escape character in string."
  | MissQuotationMark => "Missing a closing quotation mark in string."
  | InvalidEncoding => "Invalid encoding in string."
  | TooBig => "Number too big to be stored in double."
  | MissFraction => "Miss fraction part in number."
  | MissExponent => "Miss exponent in number."
  end.

(** The message for kParseErrorTermination. *)
Definition termination_message : string := "Terminate parsing due to Handler error.".

(** exception.hpp:18-21: what() of JsonParseError, a C string. *)
Definition what (reason : string) (offset : nat) : string :=
  c_string ("parse error at offset " ++ string_of_list_ascii (dec (N.of_nat offset)) ++ ": " ++ reason).

(** How parse<T>(str) ends: it returns an object; it throws JsonParseError with a text and an
    offset; or otherwise, as before. *)
Inductive outcome : Type :=
| Gives (v : val)
| Throws (text : string) (offset : nat)
| Ends (x : ending).

(** parse.hpp:33-50 with [k] nested calls at most. *)
Definition parse_new (nearest : list ascii -> option fl) (e : env) (fuel : nat) (fits : capacity) (k : nat) (t : ty) (str : string) : outcome :=
  match open e fits t root_place (initial (dinit e t)) with
  | POk s =>
    let thrown (c : context) (message : string) (at_ : position) :=
      let reason := if String.eqb (snd c) "" then message else snd c in
      Throws (what reason (offset str at_)) (offset str at_) in
    match drive_text nearest (reporting e fuel fits) k (s, "") str with
    | Passed c _ => Gives (target (fst c))
    | Faulty c f at_ => thrown c (fault_message f) at_
    | Refused c at_ => thrown c termination_message at_
    | Left x => Ends (departed x)
    | Exhausted => Ends StackExhausted
    | NoFuel => Ends Uncompiled
    end
  | PFail _ => Ends Uncompiled
  | x => Ends (departed x)
  end.

(** deserialize.hpp:46-52 on a document made by utility.hpp:27-32: what() and offset of the
    exception, if the text is not JSON. *)
Definition document_error (nearest : list ascii -> option fl) (k : nat) (str : string) : option (string * nat) :=
  match document_within nearest k str with
  | Erroneous f n => Some (what (fault_message f) n, n)
  | _ => None
  end.
