(** The lists of types that the documentation gives (README.md:7-24), operation by operation: which shapes are
    supported, and of which other types a type consists that have to be supported, too.  Nothing here knows of templates. *)
From Coq Require Import List Bool Arith.
From Verif Require Import SupportModel.
Import ListNotations.

(** Integer types of all operations. *)
Definition integers : list arith :=
  [AChar; ASChar; AUChar; AShort; AUShort; AInt; AUInt; ALong; AULong; ALLong; AULLong].

(** Types that consist of nothing else and are supported by all operations. *)
Definition simple_types : list cxx :=
  Ty NullptrT [] :: map arithmetic (ABool :: integers ++ [AFloat; ADouble]) ++
  [Ty StringT []; Ty TimeT []; Ty DateT []; Ty ByteT []].

(** Arithmetic types that only have a schema. *)
Definition wide_types : list cxx := map arithmetic [AWChar; AChar16; AChar32; ALongDouble].

Definition output (o : operation) : Prop := o = Serialize \/ o = Write.
Definition input (o : operation) : Prop := o = Deserialize \/ o = Parse.

(** The underlying type of an enumeration is an integral type. *)
Definition well_formed (p : program) : Prop :=
  forall n, ~ In (underlying (enums p n)) [AFloat; ADouble; ALongDouble].

(** What an operation does with enumerations: names, or numbers of a type that it can handle. *)
Inductive enum_supported (d : enumeration) : operation -> Prop :=
| named_output o : output o -> to_string d = true -> enum_supported d o
| named_input o : input o -> from_string d = true -> enum_supported d o
| numeric o : o <> Schema -> In (underlying d) integers -> enum_supported d o
| boolean o : output o \/ o = Deserialize -> underlying d = ABool -> enum_supported d o
| described : enum_supported d Schema.

(** Types whose values are arrays and objects in JSON, or pointers to such. *)
Inductive structured (p : program) : cxx -> Prop :=
| structured_vector u : u <> Ty ByteT [] -> structured p (Ty VectorT [u])
| structured_set u : structured p (Ty SetT [u])
| structured_array u n : structured p (Ty ArrayT [u; n])
| structured_pair a b : structured p (Ty PairT [a; b])
| structured_items g us : In g [TupleT; VariantT] -> structured p (Ty g us)
| structured_map g u : In g [MapT; UMapT] -> structured p (Ty g [Ty StringT []; u])
| structured_pointer g u : In g [UniqueT; SharedT] -> structured p (Ty g [u])
| structured_class n : persists (classes p n) = true -> structured p (Ty (ClassT n) []).

(** The value that a member variable holds, if any: an empty optional is left out of the object.  The parser takes
    optionals anywhere. *)
Definition held (o : operation) (m : bool * cxx) : cxx :=
  match m, o with
  | (false, Ty OptionalT [u]), (Serialize | Write | Deserialize | Schema) => u
  | (_, u), _ => u
  end.

(** Shapes that an operation supports. *)
Inductive supported_shape (p : program) : operation -> cxx -> Prop :=
| shape_simple o t : In t simple_types -> supported_shape p o t
| shape_wide t : In t wide_types -> supported_shape p Schema t
| shape_view o : output o -> supported_shape p o (Ty ViewT [])
| shape_literal o n : output o -> supported_shape p o (Ty Bracket [Ty (Arith AChar) []; n])
| shape_enum o n : enum_supported (enums p n) o -> supported_shape p o (Ty (EnumT n) [])
| shape_container o g u : In g [VectorT; SetT] -> (input o -> defaults p u = true) -> supported_shape p o (Ty g [u])
| shape_array o u n : (o = Deserialize -> defaults p u = true /\ copies p u = true) -> supported_shape p o (Ty ArrayT [u; n])
| shape_map o g u : In g [MapT; UMapT] -> (input o -> defaults p u = true) -> supported_shape p o (Ty g [Ty StringT []; u])
| shape_literal_map o g u : In g [MapT; UMapT] -> output o -> supported_shape p o (Ty g [Ty ViewT []; u])
| shape_pair o a b : supported_shape p o (Ty PairT [a; b])
| shape_tuple o us : supported_shape p o (Ty TupleT us)
| shape_variant o us : o <> Parse ->
    (o = Deserialize -> NoDup us /\ forall u, In u us -> defaults p u = true) -> supported_shape p o (Ty VariantT us)
| shape_smart o g u : In g [UniqueT; SharedT] -> (input o -> defaults p u = true) -> (o = Schema -> structured p u) ->
    supported_shape p o (Ty g [u])
| shape_raw o u : output o -> supported_shape p o (Ty PtrT [u])
| shape_optional u : defaults p u = true -> supported_shape p Parse (Ty OptionalT [u])
| shape_class o n : persists (classes p n) = true ->
    (o = Deserialize -> forall u, In (false, Ty OptionalT [u]) (visited (classes p n)) -> defaults p u = true) ->
    (o = Parse -> visited (classes p n) <> []) ->
    (o = Schema -> default_constructible (classes p n) = true /\ forall m, In m (visited (classes p n)) -> fst m = false) ->
    supported_shape p o (Ty (ClassT n) []).

(** The types that a type consists of. *)
Inductive part_of (p : program) (o : operation) : cxx -> cxx -> Prop :=
| part_element g u : In g [VectorT; SetT; UniqueT; SharedT; PtrT; OptionalT] -> part_of p o (Ty g [u]) u
| part_item u n : (o = Parse -> forall l, n <> Ty (Size 0) l) -> part_of p o (Ty ArrayT [u; n]) u
| part_value g k u : In g [MapT; UMapT] -> part_of p o (Ty g [k; u]) u
| part_first a b : part_of p o (Ty PairT [a; b]) a
| part_second a b : part_of p o (Ty PairT [a; b]) b
| part_component g us u : In g [TupleT; VariantT] -> In u us -> part_of p o (Ty g us) u
| part_member n m : In m (visited (classes p n)) -> part_of p o (Ty (ClassT n) []) (held o m).

(** A type, its parts, their parts, and so on. *)
Inductive within (p : program) (o : operation) (t : cxx) : cxx -> Prop :=
| within_itself : within p o t t
| within_part u v : within p o t u -> part_of p o u v -> within p o t v.

(** The type is supported. *)
Definition supported (p : program) (o : operation) (t : cxx) : Prop :=
  forall u, within p o t u -> supported_shape p o u.

(** Optionals occur only as member variables without a default, elements of arrays can be default constructed and copied,
    and arrays have elements. *)
Definition plain (p : program) (t : cxx) : Prop :=
  (forall v, t <> Ty OptionalT [v]) /\
  (forall u n, within p Parse t (Ty ArrayT [u; n]) ->
     defaults p u = true /\ copies p u = true /\ forall l, n <> Ty (Size 0) l) /\
  (forall u v, within p Parse t u -> part_of p Parse u (Ty OptionalT [v]) ->
     exists n, u = Ty (ClassT n) [] /\ ~ In (true, Ty OptionalT [v]) (visited (classes p n))).
