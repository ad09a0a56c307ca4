(** Model of what() of JsonDeserializationError: the sentences of the deserialize_*.hpp headers. *)
From Coq Require Import List Arith ZArith NArith Ascii String Bool.
From Verif Require Import Base Decimal10 Json Types DeserializeModel.
Import ListNotations.
Local Open Scope string_scope.

(** std::to_string *)
Definition to_string (n : nat) : string := string_of_list_ascii (dec (N.of_nat n)).

(** The arguments [reason] of the constructor: deserialize_check.hpp:19, 35, 51 and 67,
    deserialize_fundamental.hpp:18, 29, 53, 83, 113, 143, 171, 194 and 285,
    deserialize_bytes.hpp:24, deserialize_datetime.hpp:24, deserialize_date.hpp:28,
    deserialize_enum.hpp:53, deserialize_object.hpp:61 and deserialize_variant.hpp:21. *)
Definition reason (why : derror) : string :=
  match why with
  | WrongType expected => "wrong JSON data type; expected: " ++ expected
  | OutOfRange true => "signed integer out of range"
  | OutOfRange false => "unsigned integer out of range"
  | BadBase64 => "invalid Base64-encoding for sequence of bytes"
  | BadTime got => "invalid ISO-8601 date-time; expected: YYYY-MM-DDTHH:MM:SSZ, got: " ++ got
  | BadDate got => "invalid ISO-8601 date; expected: YYYY-MM-DD, got: " ++ got
  | UnknownName got => "unrecognized enumeration string value; got: " ++ got
  | WrongSize expected got => "mismatch in number of array elements; expected: " ++ to_string expected ++ ", got: " ++ to_string got
  | MissingProperty name => "missing required property: " ++ name
  | NoAlternative => "unable to match either of the variant types"
  end.

(** exception.hpp:30-34 and std::runtime_error::what, a C string; beside it the member [path]. *)
Record error : Type := { what : string; path : string }.

Definition make_error (why : derror) (p : list ascii) : error :=
  {| what := c_string (reason why ++ " at " ++ string_of_list_ascii p); path := string_of_list_ascii p |}.

(** deserialize.hpp:46-59: the exception, if one is thrown. *)
Definition deserialize_error (e : env) (t : ty) (j : json) : option error :=
  match deserialize_throw e t j with
  | Threw why p => Some (make_error why p)
  | _ => None
  end.
