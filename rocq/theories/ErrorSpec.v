(** What is to be said about a document value that is wrong, in terms of the type expected and
    the value found. *)
From Coq Require Import List Arith ZArith NArith Ascii String Bool.
From Verif Require Import Base NumericModel NumericSpec Json Types DenoteSpec TextSpec CulpritSpec.
Import ListNotations.
Local Open Scope string_scope.

(** A number in decimal. *)
Definition numeral (d : string) (n : nat) : Prop :=
  integer_part (list_ascii_of_string d) /\ digits_value 0 (list_ascii_of_string d) = Z.of_nat n.

Definition denies (e : env) (t : ty) (j : json) : Prop := forall old v, ~ denotes e t old j v.

(** [says e t j m]: [m] is what is to be said about [j], where a value of type [t] is expected.
    Lengths and members are not looked at if the kind is wrong; of the properties that are
    missing, the one declared first is named. *)
Inductive says (e : env) : ty -> json -> string -> Prop :=
| says_kind : forall t j, ~ right_kind t j -> says e t j ("wrong JSON data type; expected: " ++ kind_called t)
| says_signed : forall t k z, t = TInt k \/ t = TEnumInt k -> is_signed k = true -> in_range (carrier k) z -> ~ in_range k z ->
    says e t (JInt z) "signed integer out of range"
| says_unsigned : forall t k z, t = TInt k \/ t = TEnumInt k -> is_signed k = false -> in_range (carrier k) z -> ~ in_range k z ->
    says e t (JInt z) "unsigned integer out of range"
| says_bytes : forall s, denies e TBytes (JStr s) -> says e TBytes (JStr s) "invalid Base64-encoding for sequence of bytes"
| says_time : forall s, denies e TTime (JStr s) ->
    says e TTime (JStr s) ("invalid ISO-8601 date-time; expected: YYYY-MM-DDTHH:MM:SSZ, got: " ++ s)
| says_date : forall s, denies e TDate (JStr s) -> says e TDate (JStr s) ("invalid ISO-8601 date; expected: YYYY-MM-DD, got: " ++ s)
| says_name : forall names s, denies e (TEnumStr names) (JStr s) ->
    says e (TEnumStr names) (JStr s) ("unrecognized enumeration string value; got: " ++ s)
| says_length : forall t n js dn dl,
    match t with TArray n' _ => n = n' | TPair _ _ => n = 2 | TTuple ts => n = List.length ts | _ => False end ->
    List.length js <> n -> numeral dn n -> numeral dl (List.length js) ->
    says e t (JArr js) ("mismatch in number of array elements; expected: " ++ dn ++ ", got: " ++ dl)
| says_missing : forall c l before m after, c_members (class_of e c) = (before ++ m :: after)%list -> m_kind m = MRequired ->
    find_member l (m_name m) = None -> Forall (fun b => m_kind b = MRequired -> find_member l (m_name b) <> None) before ->
    says e (TClass c) (JObj l) ("missing required property: " ++ m_name m)
| says_alternatives : forall ts j, (forall u v, In u ts -> ~ denotes e u (dinit e u) j v) ->
    says e (TVariant ts) j "unable to match either of the variant types".
