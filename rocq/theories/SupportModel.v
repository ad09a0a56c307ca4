(** Which C++ types the library can serialize, write, deserialize, parse and describe with a schema.

    The five operations are class templates -- [JsonSerializer], [JsonWriter], [JsonDeserializer], [JsonParser] and
    [JsonSchema] -- with one specialization for each kind of type.  Whether a program compiles is decided by the compiler:
    it selects a specialization for the type at hand (C++17 [temp.class.spec.match]), instantiates it, and instantiates in
    turn what the body of the specialization uses.  Here the specializations are data (pattern, condition, and what the
    body asks for), and selection is a function.

    Not modelled: cv-qualified types, containers with other than the default comparator, hash, deleter or allocator, types
    that cannot be moved, specializations that the program adds, [PERSISTENCE_BOOST_DESCRIBE], and functions [to_string],
    [from_string] and [persist] of the wrong signature.  The standard is C++20, so that dates are there, and all headers
    are included. *)
From Coq Require Import List Bool Arith String.
Import ListNotations.
Local Open Scope string_scope.
Local Open Scope list_scope.

(** Arithmetic types. *)
Inductive arith :=
| ABool | AChar | ASChar | AUChar | AShort | AUShort | AInt | AUInt | ALong | AULong | ALLong | AULLong
| AWChar | AChar16 | AChar32 | AFloat | ADouble | ALongDouble.

(** Heads of types.  [TimeT] is [timestamp] (datetime.hpp:36), [ByteT] is [std::byte], [Bracket] is [T[N]], [Size] a
    non-type argument, [OtherT] any type that the library does not know. *)
Inductive tag :=
| Arith (a : arith) | NullptrT | StringT | ViewT | TimeT | DateT | ByteT | EnumT (n : nat) | ClassT (n : nat)
| PtrT | UniqueT | SharedT | OptionalT | Bracket | ArrayT | VectorT | SetT | MapT | UMapT | PairT | TupleT | VariantT
| Size (n : nat) | OtherT (n : nat).

Definition tag_eq_dec : forall g h : tag, {g = h} + {g <> h}.
Proof. repeat decide equality. Defined.

(** A type is a head with arguments. *)
Inductive cxx := Ty (head : tag) (arguments : list cxx).

(** The type names of the sources. *)
Definition arithmetic (a : arith) : cxx := Ty (Arith a) [].
Definition string_ : cxx := Ty StringT [].
Definition string_view : cxx := Ty ViewT [].
Definition byte : cxx := Ty ByteT [].
Definition vector (t : cxx) : cxx := Ty VectorT [t].
Definition set_ (t : cxx) : cxx := Ty SetT [t].
Definition array (t : cxx) (n : nat) : cxx := Ty ArrayT [t; Ty (Size n) []].
Definition map_ (k t : cxx) : cxx := Ty MapT [k; t].
Definition unordered_map (k t : cxx) : cxx := Ty UMapT [k; t].
Definition pair_ (a b : cxx) : cxx := Ty PairT [a; b].
Definition tuple (ts : list cxx) : cxx := Ty TupleT ts.
Definition variant (ts : list cxx) : cxx := Ty VariantT ts.
Definition pointer (t : cxx) : cxx := Ty PtrT [t].
Definition unique_ptr (t : cxx) : cxx := Ty UniqueT [t].
Definition shared_ptr (t : cxx) : cxx := Ty SharedT [t].
Definition optional (t : cxx) : cxx := Ty OptionalT [t].
Definition class_ (n : nat) : cxx := Ty (ClassT n) [].
Definition enum (n : nat) : cxx := Ty (EnumT n) [].

(** What the program declares: enumerations with their underlying type and whether [enum_traits] has [to_string] and
    [from_string] (enum.hpp:19-29); classes with whether they have a function [persist], the member variables that it
    visits -- [true] for [MEMBER_VARIABLE_DEFAULT] (object.hpp:83-110) --, and whether they can be default constructed
    and copied. *)
Record enumeration := { to_string : bool; from_string : bool; underlying : arith }.
Record class_decl := { persists : bool; visited : list (bool * cxx); default_constructible : bool; assignable : bool }.
Record program := { enums : nat -> enumeration; classes : nat -> class_decl }.

(** [T item;] and [std::make_unique<T>()] compile. *)
Fixpoint defaults (p : program) (t : cxx) : bool :=
  match t with
  | Ty (ClassT n) _ => default_constructible (classes p n)
  | Ty ArrayT [u; Ty (Size 0) _] => true
  | Ty (ArrayT | Bracket) (u :: _) => defaults p u
  | Ty (PairT | TupleT) us => forallb (defaults p) us
  | Ty VariantT (u :: _) => defaults p u
  | _ => true
  end.

(** [*out = item] compiles: copy assignment (deserialize_array.hpp:36). *)
Fixpoint copies (p : program) (t : cxx) : bool :=
  match t with
  | Ty (ClassT n) _ => assignable (classes p n)
  | Ty UniqueT _ => false
  | Ty (PtrT | SharedT) _ => true
  | Ty _ us => forallb (copies p) us
  end.

(** Template arguments of a partial specialization; no template parameter is used twice in any of them.  [Any] is a
    parameter [T] or [N], [Pack g] is [g<Ts...>]. *)
Inductive pattern := Any | Form (head : tag) (arguments : list pattern) | Pack (head : tag).

Definition same_tag (g h : tag) : bool := if tag_eq_dec g h then true else false.

(** The arguments can be deduced from a type. *)
Fixpoint matches (q : pattern) (t : cxx) {struct q} : bool :=
  match q, t with
  | Any, _ => true
  | Pack g, Ty h _ => same_tag g h
  | Form g qs, Ty h us =>
    same_tag g h &&
    (fix all (qs : list pattern) (us : list cxx) : bool :=
       match qs, us with
       | [], [] => true
       | q :: qs, u :: us => matches q u && all qs us
       | _, _ => false
       end) qs us
  end.

(** The arguments of [q] can be deduced from those of [r], so that [r] is at least as specialized as [q]
    ([temp.class.order]). *)
Fixpoint deducible (q r : pattern) {struct q} : bool :=
  match q, r with
  | Any, _ => true
  | Pack g, (Form h _ | Pack h) => same_tag g h
  | Form g qs, Form h rs =>
    same_tag g h &&
    (fix all (qs rs : list pattern) : bool :=
       match qs, rs with
       | [], [] => true
       | q :: qs, r :: rs => deducible q r && all qs rs
       | _, _ => false
       end) qs rs
  | _, _ => false
  end.

(** The conditions in [std::enable_if_t]: [std::is_enum_v] (serialize_enum.hpp:50); [has_custom_serializer] and its
    sisters, which ask for a class with [persist] (serialize_object.hpp:86-94, write_object.hpp:83-91,
    deserialize_object.hpp:106-114, parse_object.hpp:214-221, schema.hpp:348-360); signed and unsigned integral types
    (schema.hpp:264, 273); floating-point types (schema.hpp:282). *)
Inductive condition := IsEnum | HasPersist | IsSigned | IsUnsigned | IsFloating.

Definition satisfied (p : program) (c : condition) (t : cxx) : bool :=
  match c, t with
  | IsEnum, Ty (ByteT | EnumT _) [] => true
  | HasPersist, Ty (ClassT n) [] => persists (classes p n)
  | IsSigned, Ty (Arith (AChar | ASChar | AShort | AInt | ALong | ALLong | AWChar)) [] => true
  | IsUnsigned, Ty (Arith (ABool | AUChar | AUShort | AUInt | AULong | AULLong | AChar16 | AChar32)) [] => true
  | IsFloating, Ty (Arith (AFloat | ADouble | ALongDouble)) [] => true
  | _, _ => false
  end.

(** What the body of a specialization asks for when it is instantiated: the same operation on another type; default
    construction; copy assignment; that [JsonSchema<T>::type] takes a context; an overload of [std::from_chars]; an
    alternative that occurs once in a variant, so that it can be assigned; something that does not exist. *)
Inductive need :=
| Use (t : cxx) | Defaults (t : cxx) | Copies (t : cxx) | Contextual (t : cxx) | FromChars (a : arith)
| Once (t : cxx) (ts : list cxx) | Never.

(** A specialization: where it is; its template arguments; its condition, when these are [T] alone; whether it is an
    explicit specialization; whether its function [type] takes a context (schemas only); its body. *)
Record specialization := {
  place : string;
  arguments_ : pattern;
  given : option condition;
  explicit : bool;
  contextual : bool;
  body : program -> cxx -> list need
}.

Definition nothing (p : program) (t : cxx) : list need := [].

(** [template<> struct X<name>]. *)
Definition full (w : string) (q : pattern) : specialization :=
  {| place := w; arguments_ := q; given := None; explicit := true; contextual := false; body := nothing |}.
(** [template<...> struct X<pattern>]. *)
Definition partial (w : string) (q : pattern) (b : program -> cxx -> list need) : specialization :=
  {| place := w; arguments_ := q; given := None; explicit := false; contextual := true; body := b |}.
(** [template<typename T> struct X<T, std::enable_if_t<condition>>]. *)
Definition conditional (w : string) (c : condition) (context : bool) (b : program -> cxx -> list need) : specialization :=
  {| place := w; arguments_ := Any; given := Some c; explicit := false; contextual := context; body := b |}.

Definition name (g : tag) : pattern := Form g [].
Definition number (a : arith) : pattern := name (Arith a).

(** The element of a container, the target of a pointer, the value type of a dictionary, the types in a pack. *)
Definition element (t : cxx) : list cxx := match t with Ty _ (u :: _) => [u] | _ => [] end.
Definition mapped (t : cxx) : list cxx := match t with Ty _ [_; u] => [u] | _ => [] end.
Definition second (t : cxx) : list cxx := match t with Ty _ [u] => mapped u | _ => [] end.
Definition listed_types (t : cxx) : list cxx := match t with Ty _ us => us end.

Definition uses (of : cxx -> list cxx) (p : program) (t : cxx) : list need := map Use (of t).
Definition makes (of : cxx -> list cxx) (p : program) (t : cxx) : list need :=
  flat_map (fun u => [Defaults u; Use u]) (of t).

(** The enumeration at hand. *)
Definition enum_of (p : program) (t : cxx) : enumeration :=
  match t with
  | Ty (EnumT n) _ => enums p n
  | _ => {| to_string := false; from_string := false; underlying := AUChar |}
  end.
Definition class_of (p : program) (t : cxx) : class_decl :=
  match t with
  | Ty (ClassT n) _ => classes p n
  | _ => {| persists := false; visited := []; default_constructible := true; assignable := true |}
  end.

(** serialize_enum.hpp:13-35, write_enum.hpp:13-35. *)
Definition enum_output (p : program) (t : cxx) : list need :=
  [Use (if to_string (enum_of p t) then string_view else arithmetic (underlying (enum_of p t)))].

(** A visited member: the overload for optional members is chosen only for [MEMBER_VARIABLE]
    (serialize_object.hpp:20-43, write_object.hpp:21-44). *)
Definition member_output (m : bool * cxx) : list need :=
  match m with
  | (false, Ty OptionalT [u]) => [Use u]
  | (_, u) => [Use u]
  end.

(** serialize_object.hpp:102-115, write_object.hpp:99-115. *)
Definition class_output (p : program) (t : cxx) : list need := flat_map member_output (visited (class_of p t)).

(** The specializations of [JsonSerializer]. *)
Definition serializers : list specialization :=
  [ full "serialize_fundamental.hpp:9" (name NullptrT)
  ; full "serialize_fundamental.hpp:19" (number ABool)
  ; full "serialize_fundamental.hpp:77" (number AChar)
  ; full "serialize_fundamental.hpp:81" (number ASChar)
  ; full "serialize_fundamental.hpp:85" (number AUChar)
  ; full "serialize_fundamental.hpp:89" (number AShort)
  ; full "serialize_fundamental.hpp:93" (number AUShort)
  ; full "serialize_fundamental.hpp:97" (number AInt)
  ; full "serialize_fundamental.hpp:101" (number AUInt)
  ; full "serialize_fundamental.hpp:105" (number ALong)
  ; full "serialize_fundamental.hpp:109" (number AULong)
  ; full "serialize_fundamental.hpp:113" (number ALLong)
  ; full "serialize_fundamental.hpp:117" (number AULLong)
  ; full "serialize_fundamental.hpp:138" (number AFloat)
  ; full "serialize_fundamental.hpp:142" (number ADouble)
  ; partial "serialize_string.hpp:10" (Form Bracket [number AChar; Any]) nothing
  ; full "serialize_string.hpp:20" (name ViewT)
  ; full "serialize_string.hpp:33" (name StringT)
  ; full "serialize_bytes.hpp:11" (Form VectorT [name ByteT])
  ; full "serialize_datetime.hpp:9" (name TimeT)
  ; full "serialize_date.hpp:12" (name DateT)
  ; conditional "serialize_enum.hpp:50" IsEnum true enum_output
  ; partial "serialize_array.hpp:10" (Form ArrayT [Any; Any]) (uses element)
  ; partial "serialize_vector.hpp:10" (Form VectorT [Any]) (uses element)
  ; partial "serialize_set.hpp:10" (Form SetT [Any]) (uses element)
  ; partial "serialize_tuple.hpp:48" (Form PairT [Any; Any]) (uses listed_types)
  ; partial "serialize_tuple.hpp:54" (Pack TupleT) (uses listed_types)
  ; partial "serialize_variant.hpp:9" (Pack VariantT) (uses listed_types)
  ; partial "serialize_map.hpp:35" (Form VectorT [Form PairT [name ViewT; Any]]) (uses second)
  ; partial "serialize_map.hpp:41" (Form MapT [name ViewT; Any]) (uses mapped)
  ; partial "serialize_map.hpp:47" (Form UMapT [name ViewT; Any]) (uses mapped)
  ; partial "serialize_map.hpp:53" (Form VectorT [Form PairT [name StringT; Any]]) (uses second)
  ; partial "serialize_map.hpp:59" (Form MapT [name StringT; Any]) (uses mapped)
  ; partial "serialize_map.hpp:65" (Form UMapT [name StringT; Any]) (uses mapped)
  ; partial "serialize_pointer.hpp:22" (Form PtrT [Any]) (uses element)
  ; partial "serialize_pointer.hpp:28" (Form UniqueT [Any]) (uses element)
  ; partial "serialize_pointer.hpp:34" (Form SharedT [Any]) (uses element)
  ; conditional "serialize_object.hpp:102" HasPersist true class_output ].

(** The specializations of [JsonWriter]. *)
Definition writers : list specialization :=
  [ full "write_fundamental.hpp:9" (name NullptrT)
  ; full "write_fundamental.hpp:19" (number ABool)
  ; full "write_fundamental.hpp:77" (number AChar)
  ; full "write_fundamental.hpp:81" (number ASChar)
  ; full "write_fundamental.hpp:85" (number AUChar)
  ; full "write_fundamental.hpp:89" (number AShort)
  ; full "write_fundamental.hpp:93" (number AUShort)
  ; full "write_fundamental.hpp:97" (number AInt)
  ; full "write_fundamental.hpp:101" (number AUInt)
  ; full "write_fundamental.hpp:105" (number ALong)
  ; full "write_fundamental.hpp:109" (number AULong)
  ; full "write_fundamental.hpp:113" (number ALLong)
  ; full "write_fundamental.hpp:117" (number AULLong)
  ; full "write_fundamental.hpp:138" (number AFloat)
  ; full "write_fundamental.hpp:142" (number ADouble)
  ; partial "write_string.hpp:9" (Form Bracket [number AChar; Any]) nothing
  ; full "write_string.hpp:19" (name ViewT)
  ; full "write_string.hpp:33" (name StringT)
  ; full "write_bytes.hpp:10" (Form VectorT [name ByteT])
  ; full "write_datetime.hpp:8" (name TimeT)
  ; full "write_date.hpp:11" (name DateT)
  ; conditional "write_enum.hpp:50" IsEnum true enum_output
  ; partial "write_array.hpp:10" (Form ArrayT [Any; Any]) (uses element)
  ; partial "write_vector.hpp:10" (Form VectorT [Any]) (uses element)
  ; partial "write_set.hpp:10" (Form SetT [Any]) (uses element)
  ; partial "write_tuple.hpp:47" (Form PairT [Any; Any]) (uses listed_types)
  ; partial "write_tuple.hpp:53" (Pack TupleT) (uses listed_types)
  ; partial "write_variant.hpp:9" (Pack VariantT) (uses listed_types)
  ; partial "write_map.hpp:33" (Form VectorT [Form PairT [name ViewT; Any]]) (uses second)
  ; partial "write_map.hpp:39" (Form MapT [name ViewT; Any]) (uses mapped)
  ; partial "write_map.hpp:45" (Form UMapT [name ViewT; Any]) (uses mapped)
  ; partial "write_map.hpp:51" (Form VectorT [Form PairT [name StringT; Any]]) (uses second)
  ; partial "write_map.hpp:57" (Form MapT [name StringT; Any]) (uses mapped)
  ; partial "write_map.hpp:63" (Form UMapT [name StringT; Any]) (uses mapped)
  ; partial "write_pointer.hpp:22" (Form PtrT [Any]) (uses element)
  ; partial "write_pointer.hpp:28" (Form UniqueT [Any]) (uses element)
  ; partial "write_pointer.hpp:34" (Form SharedT [Any]) (uses element)
  ; conditional "write_object.hpp:99" HasPersist true class_output ].

(** deserialize_enum.hpp:12-62. *)
Definition enum_input (p : program) (t : cxx) : list need :=
  if from_string (enum_of p t) then [] else [Use (arithmetic (underlying (enum_of p t)))].

(** deserialize_array.hpp:26-38. *)
Definition array_input (p : program) (t : cxx) : list need :=
  flat_map (fun u => [Defaults u; Use u; Copies u]) (element t).

(** deserialize_variant.hpp:17-45. *)
Definition variant_input (p : program) (t : cxx) : list need :=
  flat_map (fun u => [Defaults u; Use u; Once u (listed_types t)]) (listed_types t).

(** deserialize_object.hpp:32-83. *)
Definition member_input (m : bool * cxx) : list need :=
  match m with
  | (false, Ty OptionalT [u]) => [Defaults u; Use u]
  | (_, u) => [Use u]
  end.

(** deserialize_object.hpp:121-138. *)
Definition class_input (p : program) (t : cxx) : list need := flat_map member_input (visited (class_of p t)).

(** The specializations of [JsonDeserializer]: the template parameter [Exception] makes them all partial ones. *)
Definition never (p : program) (t : cxx) : list need := [Never].
Definition deserializers : list specialization :=
  [ partial "deserialize_fundamental.hpp:162" (name NullptrT) nothing
  ; partial "deserialize_fundamental.hpp:185" (number ABool) nothing
  ; partial "deserialize_fundamental.hpp:208" (number ASChar) nothing
  ; partial "deserialize_fundamental.hpp:214" (number AUChar) nothing
  ; partial "deserialize_fundamental.hpp:220" (number AChar) nothing
  ; partial "deserialize_fundamental.hpp:226" (number AShort) nothing
  ; partial "deserialize_fundamental.hpp:232" (number AUShort) nothing
  ; partial "deserialize_fundamental.hpp:238" (number AInt) nothing
  ; partial "deserialize_fundamental.hpp:244" (number AUInt) nothing
  ; partial "deserialize_fundamental.hpp:250" (number ALong) nothing
  ; partial "deserialize_fundamental.hpp:256" (number AULong) nothing
  ; partial "deserialize_fundamental.hpp:262" (number ALLong) nothing
  ; partial "deserialize_fundamental.hpp:268" (number AULLong) nothing
  ; partial "deserialize_fundamental.hpp:299" (number AFloat) nothing
  ; partial "deserialize_fundamental.hpp:305" (number ADouble) nothing
  ; partial "deserialize_string.hpp:10" (name StringT) nothing
  ; partial "deserialize_bytes.hpp:11" (Form VectorT [name ByteT]) nothing
  ; partial "deserialize_datetime.hpp:11" (name TimeT) nothing
  ; partial "deserialize_date.hpp:14" (name DateT) nothing
  ; conditional "deserialize_enum.hpp:94" IsEnum true enum_input
  ; partial "deserialize_array.hpp:11" (Form ArrayT [Any; Any]) array_input
  ; partial "deserialize_vector.hpp:11" (Form VectorT [Any]) (makes element)
  ; partial "deserialize_set.hpp:11" (Form SetT [Any]) (makes element)
  ; partial "deserialize_tuple.hpp:46" (Form PairT [Any; Any]) (uses listed_types)
  ; partial "deserialize_tuple.hpp:52" (Pack TupleT) (uses listed_types)
  ; partial "deserialize_variant.hpp:12" (Pack VariantT) variant_input
  ; partial "deserialize_map.hpp:37" (Form MapT [name StringT; Any]) (makes mapped)
  ; partial "deserialize_map.hpp:43" (Form UMapT [name StringT; Any]) (makes mapped)
  ; partial "deserialize_pointer.hpp:11" (Form PtrT [Any]) never
  ; partial "deserialize_pointer.hpp:17" (Form UniqueT [Any]) (makes element)
  ; partial "deserialize_pointer.hpp:34" (Form SharedT [Any]) (makes element)
  ; conditional "deserialize_object.hpp:122" HasPersist true class_input ].

(** parse_enum.hpp:14-104: [std::from_chars] on the underlying type. *)
Definition enum_parse (p : program) (t : cxx) : list need :=
  if from_string (enum_of p t) then [] else [FromChars (underlying (enum_of p t))].

(** parse_array.hpp:8-144: the items are instantiated one by one, so none for [std::array<T, 0>]. *)
Definition array_parse (p : program) (t : cxx) : list need :=
  match t with
  | Ty _ [u; Ty (Size 0) _] => []
  | _ => uses element p t
  end.

(** parse_object.hpp:87-247: [make_array()] of no names has no type (detail/make_array.hpp:21-38). *)
Definition class_parse (p : program) (t : cxx) : list need :=
  match visited (class_of p t) with
  | [] => [Never]
  | ms => map (fun m => Use (snd m)) ms
  end.

(** The specializations of [JsonParser]. *)
Definition parsers : list specialization :=
  [ full "parse_fundamental.hpp:10" (name NullptrT)
  ; full "parse_fundamental.hpp:31" (number ABool)
  ; full "parse_fundamental.hpp:144" (number AChar)
  ; full "parse_fundamental.hpp:150" (number ASChar)
  ; full "parse_fundamental.hpp:156" (number AUChar)
  ; full "parse_fundamental.hpp:162" (number AShort)
  ; full "parse_fundamental.hpp:168" (number AUShort)
  ; full "parse_fundamental.hpp:174" (number AInt)
  ; full "parse_fundamental.hpp:180" (number AUInt)
  ; full "parse_fundamental.hpp:186" (number ALong)
  ; full "parse_fundamental.hpp:192" (number AULong)
  ; full "parse_fundamental.hpp:198" (number ALLong)
  ; full "parse_fundamental.hpp:204" (number AULLong)
  ; full "parse_fundamental.hpp:210" (number AFloat)
  ; full "parse_fundamental.hpp:216" (number ADouble)
  ; full "parse_string.hpp:8" (name StringT)
  ; full "parse_bytes.hpp:8" (Form VectorT [name ByteT])
  ; full "parse_datetime.hpp:9" (name TimeT)
  ; full "parse_date.hpp:12" (name DateT)
  ; conditional "parse_enum.hpp:135" IsEnum true enum_parse
  ; partial "parse_array.hpp:140" (Form ArrayT [Any; Any]) array_parse
  ; partial "parse_array.hpp:148" (Form PairT [Any; Any]) (uses listed_types)
  ; partial "parse_array.hpp:156" (Pack TupleT) (uses listed_types)
  ; partial "parse_vector.hpp:225" (Form VectorT [Any]) (makes element)
  ; partial "parse_set.hpp:234" (Form SetT [Any]) (makes element)
  ; partial "parse_map.hpp:57" (Form MapT [name StringT; Any]) (makes mapped)
  ; partial "parse_map.hpp:63" (Form UMapT [name StringT; Any]) (makes mapped)
  ; partial "parse_pointer.hpp:8" (Form PtrT [Any]) never
  ; partial "parse_pointer.hpp:14" (Form UniqueT [Any]) (makes element)
  ; partial "parse_pointer.hpp:29" (Form SharedT [Any]) (makes element)
  ; partial "parse_object.hpp:79" (Form OptionalT [Any]) (makes element)
  ; conditional "parse_object.hpp:225" HasPersist true class_parse ].

(** schema.hpp:475-490: a pointer passes the context on. *)
Definition pointer_schema (p : program) (t : cxx) : list need :=
  flat_map (fun u => [Use u; Contextual u]) (element t).

(** schema.hpp:413-447: there is no overload for [MEMBER_VARIABLE_DEFAULT]. *)
Definition member_schema (m : bool * cxx) : list need :=
  match m with
  | (true, _) => [Never]
  | (false, Ty OptionalT [u]) => [Use u]
  | (false, u) => [Use u]
  end.

(** schema.hpp:453-466: [T().persist(visitor)]. *)
Definition class_schema (p : program) (t : cxx) : list need :=
  Defaults t :: flat_map member_schema (visited (class_of p t)).

(** The specializations of [JsonSchema]. *)
Definition schemas : list specialization :=
  [ full "schema.hpp:246" (name NullptrT)
  ; full "schema.hpp:255" (number ABool)
  ; conditional "schema.hpp:264" IsSigned false nothing
  ; conditional "schema.hpp:273" IsUnsigned false nothing
  ; conditional "schema.hpp:282" IsFloating false nothing
  ; full "schema.hpp:291" (name StringT)
  ; full "schema.hpp:300" (Form VectorT [name ByteT])
  ; full "schema.hpp:309" (name TimeT)
  ; full "schema.hpp:319" (name DateT)
  ; conditional "schema.hpp:329" IsEnum false nothing
  ; conditional "schema.hpp:454" HasPersist true class_schema
  ; partial "schema.hpp:469" (Form PtrT [Any]) never
  ; partial "schema.hpp:475" (Form UniqueT [Any]) pointer_schema
  ; partial "schema.hpp:484" (Form SharedT [Any]) pointer_schema
  ; partial "schema.hpp:493" (Form ArrayT [Any; Any]) (uses element)
  ; partial "schema.hpp:521" (Form PairT [Any; Any]) (uses listed_types)
  ; partial "schema.hpp:525" (Pack TupleT) (uses listed_types)
  ; partial "schema.hpp:529" (Pack VariantT) (uses listed_types)
  ; partial "schema.hpp:542" (Form VectorT [Any]) (uses element)
  ; partial "schema.hpp:553" (Form SetT [Any]) (uses element)
  ; partial "schema.hpp:576" (Form MapT [name StringT; Any]) (uses mapped)
  ; partial "schema.hpp:580" (Form UMapT [name StringT; Any]) (uses mapped) ].

Inductive operation := Serialize | Write | Deserialize | Parse | Schema.

Definition specializations (o : operation) : list specialization :=
  match o with
  | Serialize => serializers
  | Write => writers
  | Deserialize => deserializers
  | Parse => parsers
  | Schema => schemas
  end.

(** The specialization can be used for the type. *)
Definition candidate (p : program) (t : cxx) (s : specialization) : bool :=
  matches (arguments_ s) t && match given s with None => true | Some c => satisfied p c t end.

(** One specialization is more specialized than another.  Those with a condition are not comparable to any. *)
Definition more_specialized (s r : specialization) : bool :=
  match given s, given r with
  | None, None => deducible (arguments_ r) (arguments_ s) && negb (deducible (arguments_ s) (arguments_ r))
  | _, _ => false
  end.

(** What the compiler finds.  The primary templates do not compile (serialize_base.hpp:12-17, write_base.hpp:14-19,
    deserialize_base.hpp:13-18, parse_base.hpp:157-162), or have no function [type] (schema.hpp:242-243). *)
Inductive finding := Primary | Selected (s : specialization) | Ambiguous.

(** An explicit specialization is no template any more and comes first; otherwise the matching partial specialization that
    is more specialized than all other matching ones. *)
Definition select (p : program) (o : operation) (t : cxx) : finding :=
  let found := filter (candidate p t) (specializations o) in
  match find explicit found with
  | Some s => Selected s
  | None =>
    match found with
    | [] => Primary
    | _ =>
      match find (fun s => forallb (fun r => String.eqb (place s) (place r) || more_specialized s r) found) found with
      | Some s => Selected s
      | None => Ambiguous
      end
    end
  end.

(** [std::from_chars] has overloads for the integer types, and none for [bool], [wchar_t] and the like. *)
Definition scanned (a : arith) : bool :=
  match a with
  | AChar | ASChar | AUChar | AShort | AUShort | AInt | AUInt | ALong | AULong | ALLong | AULLong => true
  | _ => false
  end.

Definition cxx_eq_dec : forall t u : cxx, {t = u} + {t <> u}.
Proof.
  fix same 1. intros [g ts] [h us]. destruct (tag_eq_dec g h) as [->|N]; [|right; congruence].
  destruct (list_eq_dec same ts us) as [->|N]; [left; reflexivity|right; congruence].
Defined.

(** A need that is not an instantiation is met. *)
Definition met (p : program) (o : operation) (n : need) : bool :=
  match n with
  | Use _ => true
  | Defaults t => defaults p t
  | Copies t => copies p t
  | Contextual t => match select p o t with Selected s => contextual s | _ => false end
  | FromChars a => scanned a
  | Once t ts => Nat.eqb (count_occ cxx_eq_dec ts t) 1
  | Never => false
  end.

(** The instantiation of one template compiles. *)
Definition instantiates (p : program) (o : operation) (t : cxx) : Prop :=
  exists s, select p o t = Selected s /\ forallb (met p o) (body s p t) = true.

(** The instantiations that one instantiation causes, directly or not. *)
Inductive caused (p : program) (o : operation) (t : cxx) : cxx -> Prop :=
| caused_itself : caused p o t t
| caused_next : forall u v s, caused p o t u -> select p o u = Selected s -> In (Use v) (body s p u) -> caused p o t v.

(** The operation compiles for a type: everything instantiated compiles. *)
Definition compiles (p : program) (o : operation) (t : cxx) : Prop :=
  forall u, caused p o t u -> instantiates p o u.
