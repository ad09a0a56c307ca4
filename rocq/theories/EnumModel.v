(** Model of EnumConverter in include/persistence/enum_utility.hpp. Enumeration values are
    the integers of the underlying type. *)
From Coq Require Import List ZArith String Ascii.
Import ListNotations.

Definition enum_table := list (Z * string).

(** enum_utility.hpp:47-55: an unlisted value gives an empty string_view. *)
Fixpoint enum_to_string (t : enum_table) (value : Z) : string :=
  match t with
  | [] => EmptyString
  | (v, s) :: t' => if Z.eqb v value then s else enum_to_string t' value
  end.

(** enum_utility.hpp:58-67: [None] is the result false. *)
Fixpoint enum_from_string (t : enum_table) (name : string) : option Z :=
  match t with
  | [] => None
  | (v, s) :: t' => if String.eqb s name then Some v else enum_from_string t' name
  end.
