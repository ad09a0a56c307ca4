(** Model of the enumerations that Boost.Describe knows: the branches of serialize_enum.hpp, write_enum.hpp,
    deserialize_enum.hpp and parse_enum.hpp that are compiled with PERSISTENCE_BOOST_DESCRIBE.

    From Boost, not in the repository: [describe_enumerators] is the list of the enumerators in the order of
    BOOST_DESCRIBE_ENUM; [enum_to_string] goes through all of them and keeps the name of the last one that has the value;
    [enum_from_string] takes the first one whose name [strcmp] finds equal. *)
From Coq Require Import List ZArith String Ascii Bool.
From Verif Require Import Json Events EnumModel.
Import ListNotations.
Local Open Scope string_scope.

(** boost/describe/enum_to_string.hpp *)
Fixpoint described_to_string (t : enum_table) (value : Z) (s : string) : string :=
  match t with
  | [] => s
  | (v, name) :: t' => described_to_string t' value (if Z.eqb value v then name else s)
  end.

(** [strcmp(a, b) == 0] *)
Fixpoint strcmp_equal (a b : string) : bool :=
  match a, b with
  | EmptyString, EmptyString => true
  | EmptyString, String c _ | String c _, EmptyString => Ascii.eqb c zero
  | String c a', String d b' =>
    if Ascii.eqb c zero then Ascii.eqb d zero
    else Ascii.eqb c d && strcmp_equal a' b'
  end.

(** boost/describe/enum_from_string.hpp *)
Fixpoint described_from_string (t : enum_table) (name : string) : option Z :=
  match t with
  | [] => None
  | (v, s) :: t' => if strcmp_equal s name then Some v else described_from_string t' name
  end.

(** serialize_enum.hpp:37-47: a string view of the name. *)
Definition described_serialize (t : enum_table) (value : Z) : json := JStr (described_to_string t value "").

(** write_enum.hpp:37-47 *)
Definition described_write (t : enum_table) (value : Z) : list event := [EStr (described_to_string t value "")].

(** What becomes of the enumeration. *)
Inductive outcome := Assigned (value : Z) | Refused (reason : string).

(** deserialize_enum.hpp:64-91: [view.data()] is a C string. With exceptions, the reason is that of the exception;
    without, the result is false. *)
Definition described_deserialize (t : enum_table) (j : json) : outcome :=
  match j with
  | JStr s =>
    match described_from_string t s with
    | Some v => Assigned v
    | None => Refused ("unrecognized enumeration string value; got: " ++ s)
    end
  | _ => Refused "wrong JSON data type; expected: string"
  end.

(** parse_enum.hpp:108-133: the handler takes strings only, and does not leave the stack. *)
Definition described_parse (t : enum_table) (ev : event) : outcome :=
  match ev with
  | EStr s =>
    match described_from_string t s with
    | Some v => Assigned v
    | None => Refused ("expected an enumeration string value; got: " ++ s)
    end
  | _ => Refused "expected JSON token: string"
  end.
