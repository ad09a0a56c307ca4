(** The test-suite of the library (test/ in the repository) evaluated in the model. These are not
    properties: they check that the definitions say what the code does where its authors wrote
    down the outcome. Left out are tests of performance, of string_view and string literals as
    values, of the offset in JsonParseError, of the types of member_variable, and of the
    enumerations described with Boost, which repeat those with a converter. *)
From Coq Require Import List Arith ZArith NArith Ascii String Bool.
From Verif Require Import Base Float Decimal10 NumericModel EnumModel Base64Model DatetimeModel HashModel StackModel Json Events
  PathModel Types SerializeModel DeserializeModel WriteModel ParseModel TextModel SchemaModel.
Import ListNotations.
Local Open Scope string_scope.
Local Open Scope list_scope.

(** * The program: test/example_classes.hpp, example_enums.hpp and example_enum_traits.hpp *)

Definition req (name : string) (t : ty) : member := {| m_name := name; m_kind := MRequired; m_ty := t |}.
Definition plain (ms : list member) (init : list val) : cls :=
  {| c_members := ms; c_root := List.length ms; c_default := init; c_value := init |}.

Definition TestValue := TClass 0.
Definition TestDefault := TClass 1.
Definition TestDerived := TClass 2.
Definition TestNonCopyable := TClass 3.
Definition TestPair := TClass 4.
Definition SubObject := TClass 5.
Definition TransferObject := TClass 6.
Definition OptionalMember := TClass 7.
Definition BackReferenceArray := TClass 8.
Definition BackReferenceObject := TClass 9.
Definition UserDefined := TClass 10.
Definition Documented := TClass 11.
Definition Derived := TClass 12.

Definition suite_classes : list cls := [
  plain [req "value" TString] [VStr ""];
  plain [{| m_name := "value"; m_kind := MDefault; m_ty := TString |}] [VStr "default"];
  {| c_members := [req "value" TString; req "member" TString]; c_root := 1; c_default := [VStr ""; VStr ""]; c_value := [VStr ""; VStr ""] |};
  plain [req "member" TestValue] [VObj [VStr ""]];
  plain [req "first" (TInt int32); req "second" (TInt int32)] [VInt 1; VInt 2];
  plain [req "member_value" TString] [VStr ""];
  plain [req "bool_value" TBool; req "bool_list" (TVector TBool); req "int_value" (TInt int32); req "int_list" (TVector (TInt int32));
         req "string_value" TString; req "string_list" (TVector TString); req "object_value" SubObject; req "object_list" (TVector SubObject)]
        [VBool false; VList []; VInt 0; VList []; VStr ""; VList []; VObj [VStr ""]; VList []];
  plain [{| m_name := "optional_value"; m_kind := MOptional; m_ty := TInt int32 |}] [VNone];
  plain [req "values" (TVector (TShared TestValue))] [VList []];
  plain [req "outer" (TShared TestValue); req "inner" (TVector (TShared TestValue))] [VPtrNull; VList []];
  plain [req "value" TString] [VStr ""];
  plain [req "bool_value" TBool; req "string_value" TString; req "string_list" (TVector TString);
         {| m_name := "optional_value"; m_kind := MOptional; m_ty := TInt int32 |}; req "custom_value" UserDefined]
        [VBool false; VStr ""; VList []; VNone; VObj [VStr ""]];
  {| c_members := [req "base_member" TString; req "derived_member" TString]; c_root := 1;
     c_default := [VStr "base"; VStr "derived"]; c_value := [VStr "base"; VStr "derived"] |}].

(** operator< of the element types of the sets. *)
Fixpoint suite_less (v w : val) : bool :=
  match v, w with
  | VInt a, VInt b => Z.ltb a b
  | VFlt a, VFlt b => negb (fle b a)
  | VStr a, VStr b => str_ltb a b
  | VObj [a], VObj [b] => suite_less a b
  | _, _ => false
  end.

Definition suite : env := {|
  classes := suite_classes; tick := 1000000000; endian := little; after := fun _ => [];
  less := fun _ => suite_less; iteration := fun keys => seq 0 (List.length keys) |}.

Definition Side : ty := TEnumInt {| width := 16; is_signed := true |}.
Definition Suit : ty := TEnumInt int32.
Definition Esper : ty := TEnumStr [(0%Z, "Unu"); (1%Z, "Du"); (2%Z, "Tri"); (3%Z, "Kvar"); (4%Z, "Kvin"); (5%Z, "Ses"); (6%Z, "Sep");
  (7%Z, "Ok"); (8%Z, "Naux"); (9%Z, "Dek")].

Definition integer_types : list ity := [
  {| width := 8; is_signed := true |}; {| width := 8; is_signed := false |};
  {| width := 16; is_signed := true |}; {| width := 16; is_signed := false |};
  int32; uint32; int64; uint64].

(** The parameters of the text model, for the numbers that occur: decimal digits to the nearest
    number of a format, and the shortest digits of some doubles. *)
Definition digits_of (s : list ascii) : list ascii := filter is_digit s.
Definition exact_or_near (s : bool) (n : N) (ex : Z) : fl :=
  match ex with
  | Zneg p => let d := (10 ^ N.pos p)%N in let q := (N.shiftl n 200 / d)%N in
    mk s (2 * Z.of_N q + (if (N.shiftl n 200 mod d =? 0)%N then 0 else 1)) (-201)
  | _ => mk s (Z.of_N n * 10 ^ ex) 0
  end.
Definition decimal (fm : format) (text : list ascii) : option fl :=
  let '(s, s1) := match starts "-" text with Some s' => (true, s') | None => (false, text) end in
  match read_int_part s1 with
  | None => None
  | Some (ds, s2) =>
    match read_fraction s2 with
    | None => None
    | Some (frac, s3) =>
      let f := digits_of frac in
      let ex := match s3 with
                | _ :: "-"%char :: l => (- Z.of_N (digits_val (digits_of l)))%Z
                | l => Z.of_N (digits_val (digits_of l))
                end in
      Some (Float.round fm (exact_or_near s (digits_val (ds ++ f)) (ex - Z.of_nat (List.length f))))
    end
  end.
Definition number_of (fm : format) (text : string) : val :=
  match decimal fm (list_ascii_of_string text) with Some f => VFlt f | None => VIndet end.
Definition flt := number_of binary32.
Definition dbl := number_of binary64.

Definition print (f : fl) : list ascii :=
  list_ascii_of_string match f with
  | FZero false => "0.0" | FFin false 1 0 => "1.0" | FFin true 1 0 => "-1.0" | FFin false 9 (-1) => "4.5"
  | FFin false 3 (-1) => "1.5" | FFin false 5 (-1) => "2.5" | FFin false 7 (-1) => "3.5" | _ => "?" end.

(** * The helper functions: test_serialize.hpp and test_deserialize.hpp *)

(** The text of the document and the text written directly. *)
Definition written_twice (t : ty) (v : val) : option string * option (bool * string) :=
  (match serialize_to_document suite t v with
   | SOk _ j => Some (document_to_string (written print) j)
   | _ => None
   end,
   write_to_string (written print) suite t v "").

Definition writes (cases : list (ty * val * string)) : Prop :=
  map (fun '(t, v, _) => written_twice t v) cases = map (fun '(_, _, text) => (Some text, Some (true, text))) cases.

Inductive outcome : Type := Accepted (v : val) | Refused | Other.

Definition by_document (t : ty) (text : string) : outcome :=
  match deserialize_string (decimal binary64) suite t text (dinit suite t) with
  | DRet true _ v => Accepted v | DRet false _ _ => Refused | _ => Other end.
Definition by_document_throw (t : ty) (text : string) : outcome :=
  match deserialize_string_throw (decimal binary64) suite t text with
  | Document (Returned v) => Accepted v | Document (Threw _ _) => Refused | _ => Other end.
Definition by_parser (t : ty) (text : string) : outcome :=
  match parse_string_into (decimal binary64) suite 1000 real_capacity t text (dinit suite t) with
  | Parsed true v => Accepted v | Parsed false _ => Refused | _ => Other end.
Definition by_parser_throw (t : ty) (text : string) : outcome :=
  match parse_string (decimal binary64) suite 1000 real_capacity t text with
  | PReturned v => Accepted v | PError => Refused | _ => Other end.
Definition four_ways (t : ty) (text : string) : list outcome :=
  [by_document t text; by_document_throw t text; by_parser t text; by_parser_throw t text].

Definition reads (cases : list (string * ty * val)) : Prop :=
  map (fun '(text, t, _) => four_ways t text) cases = map (fun '(_, _, v) => repeat (Accepted v) 4) cases.
Definition refuses (t : ty) (texts : list string) : Prop :=
  map (four_ways t) texts = map (fun _ => repeat Refused 4) texts.

Ltac run := vm_compute; reflexivity.
Ltac runs := repeat (apply conj; [run|]); run.


(** * Serialization *)


(** serialize_fundamental.cpp *)
Example suite_write_fundamental :
  writes [
    (TNull, VNull, "null");
    (TBool, VBool true, "true");
    (TBool, VBool false, "false");
    (TFloat, flt "0.0", "0.0");
    (TFloat, flt "1.0", "1.0");
    (TFloat, flt "-1.0", "-1.0");
    (TFloat, flt "4.5", "4.5");
    (TDouble, dbl "0.0", "0.0");
    (TDouble, dbl "1.0", "1.0");
    (TDouble, dbl "-1.0", "-1.0");
    (TDouble, dbl "4.5", "4.5")].
Proof. run. Qed.

(** serialize_fundamental.cpp *)
Example suite_write_integers :
  writes (flat_map (fun k => [(TInt k, VInt 0, "0"); (TInt k, VInt 1, "1");
    (TInt k, VInt (tmin k), string_of_list_ascii (decZ (tmin k))); (TInt k, VInt (tmax k), string_of_list_ascii (decZ (tmax k)))]) integer_types).
Proof. run. Qed.

(** the limits that serialize_fundamental.cpp takes from std::numeric_limits *)
Example suite_write_limits :
  map (fun k => (string_of_list_ascii (decZ (tmin k)), string_of_list_ascii (decZ (tmax k)))) integer_types =
    [("-128", "127"); ("0", "255"); ("-32768", "32767"); ("0", "65535"); ("-2147483648", "2147483647"); ("0", "4294967295");
     ("-9223372036854775808", "9223372036854775807"); ("0", "18446744073709551615")].
Proof. run. Qed.

(** serialize_string.cpp *)
Example suite_write_string :
  writes [
    (TString, VStr "", """""");
    (TString, VStr "test string", """test string""");
    (TString, VStr ("test" ++ String "000" "string"), """test\u0000string""");
    (TString, VStr "árvíztűrő tükörfúrógép", """árvíztűrő tükörfúrógép""")].
Proof. run. Qed.

(** serialize_container.cpp *)
Example suite_write_vector :
  writes [
    (TVector (TInt int32), VList [], "[]");
    (TVector (TInt int32), VList [VInt 1; VInt 2; VInt 3], "[1,2,3]");
    (TVector TFloat, VList [flt "1.5"; flt "2.5"; flt "3.5"], "[1.5,2.5,3.5]");
    (TVector (TVector (TInt int32)), VList [VList [VInt 1]; VList [VInt 1; VInt 2]; VList [VInt 1; VInt 2; VInt 3]], "[[1],[1,2],[1,2,3]]");
    (TVector TestDefault, VList [VObj [VStr "a"]; VObj [VStr "b"]; VObj [VStr "default"]], "[{""value"":""a""},{""value"":""b""},{""value"":""default""}]");
    (TVector TestValue, VList [VObj [VStr "a"]; VObj [VStr "b"]; VObj [VStr "c"]], "[{""value"":""a""},{""value"":""b""},{""value"":""c""}]");
    (TVector TString, VList [VStr "one"; VStr "two"], "[""one"",""two""]")].
Proof. run. Qed.

(** serialize_container.cpp *)
Example suite_write_set :
  writes [
    (TSet (TInt int32), VList [], "[]");
    (TSet (TInt int32), VList [VInt 1; VInt 2; VInt 3], "[1,2,3]");
    (TSet TFloat, VList [flt "1.5"; flt "2.5"; flt "3.5"], "[1.5,2.5,3.5]");
    (TSet TString, VList [VStr "one"; VStr "two"], "[""one"",""two""]");
    (TSet TestDefault, VList [VObj [VStr "a"]; VObj [VStr "b"]; VObj [VStr "c"]], "[{""value"":""a""},{""value"":""b""},{""value"":""c""}]");
    (TSet TestValue, VList [VObj [VStr "a"]; VObj [VStr "b"]; VObj [VStr "c"]], "[{""value"":""a""},{""value"":""b""},{""value"":""c""}]")].
Proof. run. Qed.

(** serialize_container.cpp *)
Example suite_write_map :
  writes [
    (TMap true (TInt int32), VMap [], "{}");
    (TMap true (TInt int32), VMap [("key1", VInt 1); ("key2", VInt 2); ("key3", VInt 3)], "{""key1"":1,""key2"":2,""key3"":3}");
    (TMap true TString, VMap [("key1", VStr "a"); ("key2", VStr "b"); ("key3", VStr "c")], "{""key1"":""a"",""key2"":""b"",""key3"":""c""}");
    (TMap true (TVector (TInt int32)), VMap [("key1", VList [VInt 1; VInt 2]); ("key2", VList [VInt 4; VInt 8; VInt 16; VInt 32])], "{""key1"":[1,2],""key2"":[4,8,16,32]}");
    (TMap true TestValue, VMap [("key1", VObj [VStr "a"]); ("key2", VObj [VStr "b"]); ("key3", VObj [VStr "c"])], "{""key1"":{""value"":""a""},""key2"":{""value"":""b""},""key3"":{""value"":""c""}}");
    (TMap false (TInt int32), VMap [], "{}");
    (TMap false (TInt int32), VMap [("key", VInt 1)], "{""key"":1}");
    (TMap false TString, VMap [("key1", VStr "a")], "{""key1"":""a""}");
    (TMap false TestValue, VMap [("key1", VObj [VStr "a"])], "{""key1"":{""value"":""a""}}")].
Proof. run. Qed.

(** serialize_tuple.cpp *)
Example suite_write_tuple :
  writes [
    (TArray 0 (TInt int32), VList [], "[]");
    (TArray 3 (TInt int32), VList [VInt 1; VInt 2; VInt 3], "[1,2,3]");
    (TArray 3 TestValue, VList [VObj [VStr "a"]; VObj [VStr "b"]; VObj [VStr "c"]], "[{""value"":""a""},{""value"":""b""},{""value"":""c""}]");
    (TArray 2 TString, VList [VStr "one"; VStr "two"], "[""one"",""two""]");
    (TPair (TInt int32) TString, VList [VInt 19; VStr "eighty-two"], "[19,""eighty-two""]");
    (TTuple [], VList [], "[]");
    (TTuple [TString], VList [VStr "value"], "[""value""]");
    (TTuple [TInt int32; TString], VList [VInt 19; VStr "eighty-two"], "[19,""eighty-two""]");
    (TTuple [TInt int32; TestValue], VList [VInt 23; VObj [VStr "string"]], "[23,{""value"":""string""}]")].
Proof. run. Qed.

(** serialize_variant.cpp *)
Example suite_write_variant :
  writes [
    (TVariant [TInt int32; TString], VVariant 1 (VStr "value"), """value""");
    (TVariant [TInt int32; TString], VVariant 0 (VInt 23), "23");
    (TVariant [TString; TestValue], VVariant 0 (VStr "value"), """value""");
    (TVariant [TString; TestValue], VVariant 1 (VObj [VStr "string"]), "{""value"":""string""}");
    (TVariant [TestValue; TestNonCopyable], VVariant 0 (VObj [VStr "string"]), "{""value"":""string""}");
    (TVariant [TestValue; TestNonCopyable], VVariant 1 (VObj [VObj [VStr "string"]]), "{""member"":{""value"":""string""}}")].
Proof. run. Qed.

(** serialize_enum.cpp *)
Example suite_write_enum :
  writes [
    (Side, VInt 1, "1");
    (Side, VInt 2, "2");
    (Suit, VInt 0, "0");
    (Suit, VInt 1, "1");
    (Suit, VInt 2, "2");
    (Suit, VInt 3, "3");
    (Esper, VInt 0, """Unu""");
    (Esper, VInt 1, """Du""");
    (Esper, VInt 4, """Kvin""");
    (Esper, VInt 9, """Dek""")].
Proof. run. Qed.

(** serialize_bytes.cpp *)
Example suite_write_bytes :
  writes [
    (TBytes, VBytes (list_ascii_of_string ""), """""");
    (TBytes, VBytes (list_ascii_of_string "f"), """Zg==""");
    (TBytes, VBytes (list_ascii_of_string "fo"), """Zm8=""");
    (TBytes, VBytes (list_ascii_of_string "foo"), """Zm9v""");
    (TBytes, VBytes (list_ascii_of_string "foob"), """Zm9vYg==""");
    (TBytes, VBytes (list_ascii_of_string "fooba"), """Zm9vYmE=""");
    (TBytes, VBytes (list_ascii_of_string "foobar"), """Zm9vYmFy""")].
Proof. run. Qed.

(** serialize_datetime.cpp *)
Example suite_write_datetime :
  writes [
    (TTime, VTime match make_datetime 1000000000 1982 10 23 1 20 40 with Some z => z | None => 0 end, """1982-10-23T01:20:40Z""");
    (TTime, VTime match make_datetime 1000000000 2022 2 1 23 2 1 with Some z => z | None => 0 end, """2022-02-01T23:02:01Z""");
    (TDate, VDate (days_from_civil 1982 10 23), """1982-10-23""");
    (TDate, VDate (days_from_civil 2022 2 1), """2022-02-01""")].
Proof. run. Qed.

(** serialize_object.cpp *)
Example suite_write_pointer :
  writes [
    (TUnique (TInt int32), VPtr (VInt 23), "23");
    (TShared (TInt int32), VShared 1 (VInt 23), "23");
    (TUnique TString, VPtr (VStr "string"), """string""");
    (TShared TString, VShared 1 (VStr "string"), """string""");
    (TPtr TestValue, VPtr (VObj [VStr "string"]), "{""value"":""string""}");
    (TUnique TestValue, VPtr (VObj [VStr "string"]), "{""value"":""string""}");
    (TShared TestValue, VShared 1 (VObj [VStr "string"]), "{""value"":""string""}")].
Proof. run. Qed.

(** serialize_object.cpp and main.cpp *)
Example suite_write_object :
  writes [
    (TestValue, VObj [VStr "test string"], "{""value"":""test string""}");
    (TestDefault, dinit suite TestDefault, "{""value"":""default""}");
    (TestDerived, VObj [VStr "base"; VStr "derived"], "{""value"":""base"",""member"":""derived""}");
    (TransferObject, VObj [VBool true; VList [VBool false; VBool false; VBool true]; VInt 42; VList [VInt 82; VInt 10; VInt 23]; VStr "test string"; VList [VStr "one"; VStr "two"; VStr "three"]; VObj [VStr "value"]; VList [VObj [VStr "value"]; VObj [VStr "value"]]], "{""bool_value"":true,""bool_list"":[false,false,true],""int_value"":42,""int_list"":[82,10,23],""string_value"":""test string"",""string_list"":[""one"",""two"",""three""],""object_value"":{""member_value"":""value""},""object_list"":[{""member_value"":""value""},{""member_value"":""value""}]}");
    (OptionalMember, VObj [VNone], "{}");
    (OptionalMember, VObj [VSome (VInt 42)], "{""optional_value"":42}");
    (Derived, dinit suite Derived, "{""base_member"":""base"",""derived_member"":""derived""}")].
Proof. run. Qed.

(** serialize_object.cpp *)
Example suite_write_references :
  writes [
    (BackReferenceArray, VObj [VList [VShared 1 (VObj [VStr "one"]); VShared 2 (VObj [VStr "two"]); VShared 2 (VObj [VStr "two"]); VShared 2 (VObj [VStr "two"])]], "{""values"":[{""value"":""one""},{""value"":""two""},{""$ref"":""/values/1""},{""$ref"":""/values/1""}]}");
    (BackReferenceObject, VObj [VShared 1 (VObj [VStr "string"]); VList [VShared 1 (VObj [VStr "string"]); VShared 1 (VObj [VStr "string"])]], "{""outer"":{""value"":""string""},""inner"":[{""$ref"":""/outer""},{""$ref"":""/outer""}]}")].
Proof. run. Qed.

(** * Deserialization *)


(** deserialize_fundamental.cpp *)
Example suite_read_fundamental :
  reads [
    ("null", TNull, VNull);
    ("true", TBool, VBool true);
    ("false", TBool, VBool false)].
Proof. run. Qed.

(** deserialize_fundamental.cpp *)
Example suite_refuse_bool :
  refuses (TBool) ["0"; "1"; """string"""; "[]"; "{}"].
Proof. run. Qed.

(** deserialize_fundamental.cpp *)
Example suite_read_integers :
  reads (flat_map (fun k => [("0", TInt k, VInt 0); ("1", TInt k, VInt 1)] ++
    (if is_signed k then [("-1", TInt k, VInt (-1))] else []) ++
    [(string_of_list_ascii (decZ (tmin k)), TInt k, VInt (tmin k)); (string_of_list_ascii (decZ (tmax k)), TInt k, VInt (tmax k))]) integer_types).
Proof. run. Qed.

(** deserialize_fundamental.cpp *)
Example suite_refuse_integers :
  Forall (fun k => refuses (TInt k) ["1.0"; "-1.0"; "true"; """string"""; "[]"; "{}"]) integer_types.
Proof. repeat (apply Forall_cons; [run|]). apply Forall_nil. Qed.

(** deserialize_fundamental.cpp *)
Example suite_read_float :
  reads (map (fun s => (s, TFloat, flt s)) ["0"; "0.0"; "1"; "1.0"; "-1"; "-1.0"; "0.125"; "-4.5"; "2.5e8"; "2.5e-8"; "-2.5e8"; "2.5e04"; "2.5e-04"; "-2.5e04"; "2.500e4"; "2.500e-4"; "-2.500e4"; "2.5e16"; "2.5e-16"; "-2.5e16"]).
Proof. run. Qed.

(** deserialize_fundamental.cpp *)
Example suite_refuse_float :
  refuses (TFloat) ["true"; """string"""; "[]"; "{}"].
Proof. run. Qed.

(** deserialize_fundamental.cpp *)
Example suite_read_double :
  reads (map (fun s => (s, TDouble, dbl s)) ["0"; "0.0"; "1"; "1.0"; "-1"; "-1.0"; "0.125"; "-4.5"; "2.5e8"; "2.5e-8"; "-2.5e8"; "2.5e04"; "2.5e-04"; "-2.5e04"; "2.500e4"; "2.500e-4"; "-2.500e4"; "2.5e16"; "2.5e-16"; "-2.5e16"]).
Proof. run. Qed.

(** deserialize_fundamental.cpp *)
Example suite_refuse_double :
  refuses (TDouble) ["true"; """string"""; "[]"; "{}"].
Proof. run. Qed.

(** deserialize_string.cpp *)
Example suite_read_string :
  reads [
    ("""""", TString, VStr "");
    ("""test string""", TString, VStr "test string");
    ("""test\u0000string""", TString, VStr ("test" ++ String "000" "string"));
    ("""árvíztűrő tükörfúrógép""", TString, VStr "árvíztűrő tükörfúrógép")].
Proof. run. Qed.

(** deserialize_string.cpp *)
Example suite_refuse_string :
  refuses (TString) ["true"; "23"; "[]"; "{}"].
Proof. run. Qed.

(** deserialize_container.cpp *)
Example suite_read_vector :
  reads [
    ("[]", TVector (TInt int32), VList []);
    ("[1, 2, 3]", TVector (TInt int32), VList [VInt 1; VInt 2; VInt 3]);
    ("[1.5, 2.5, 3.5]", TVector TFloat, VList [flt "1.5"; flt "2.5"; flt "3.5"]);
    ("[""one"", ""two""]", TVector TString, VList [VStr "one"; VStr "two"]);
    ("[[1], [1, 2], [1, 2, 3]]", TVector (TVector (TInt int32)), VList [VList [VInt 1]; VList [VInt 1; VInt 2]; VList [VInt 1; VInt 2; VInt 3]]);
    ("[{""value"":""a""}, {""value"":""b""}, {}]", TVector TestDefault, VList [VObj [VStr "a"]; VObj [VStr "b"]; VObj [VStr "default"]]);
    ("[{""value"":""a""}, {""value"":""b""}, {""value"":""default""}]", TVector TestDefault, VList [VObj [VStr "a"]; VObj [VStr "b"]; VObj [VStr "default"]]);
    ("[{""value"":""a""}, {""value"":""b""}, {""value"":""c""}]", TVector TestValue, VList [VObj [VStr "a"]; VObj [VStr "b"]; VObj [VStr "c"]])].
Proof. run. Qed.

(** deserialize_container.cpp *)
Example suite_refuse_vector :
  refuses (TVector (TInt int32)) ["[""one""]"; "true"; "23"; """string"""; "{}"].
Proof. run. Qed.

(** deserialize_container.cpp *)
Example suite_refuse_strings :
  refuses (TVector TString) ["[2,3]"].
Proof. run. Qed.

(** deserialize_container.cpp *)
Example suite_read_set :
  reads [
    ("[]", TSet (TInt int32), VList []);
    ("[]", TSet TString, VList []);
    ("[1, 2, 3]", TSet (TInt int32), VList [VInt 1; VInt 2; VInt 3]);
    ("[1.5, 2.5, 3.5]", TSet TFloat, VList [flt "1.5"; flt "2.5"; flt "3.5"]);
    ("[""one"", ""two""]", TSet TString, VList [VStr "one"; VStr "two"]);
    ("[{""value"":""a""}, {""value"":""b""}, {""value"":""c""}]", TSet TestDefault, VList [VObj [VStr "a"]; VObj [VStr "b"]; VObj [VStr "c"]]);
    ("[{""value"":""a""}, {""value"":""b""}, {""value"":""c""}]", TSet TestValue, VList [VObj [VStr "a"]; VObj [VStr "b"]; VObj [VStr "c"]])].
Proof. run. Qed.

(** deserialize_container.cpp *)
Example suite_refuse_set :
  refuses (TSet (TInt int32)) ["[""one""]"; "true"; "23"; """string"""; "{}"].
Proof. run. Qed.

(** deserialize_container.cpp *)
Example suite_refuse_string_set :
  refuses (TSet TString) ["[2,3]"].
Proof. run. Qed.

(** deserialize_container.cpp *)
Example suite_read_map :
  reads [
    ("{}", TMap true (TInt int32), VMap []);
    ("{}", TMap true TString, VMap []);
    ("{""key1"": 1, ""key2"": 2, ""key3"": 3}", TMap true (TInt int32), VMap [("key1", VInt 1); ("key2", VInt 2); ("key3", VInt 3)]);
    ("{""key1"": ""value1"", ""key2"": ""value2""}", TMap true TString, VMap [("key1", VStr "value1"); ("key2", VStr "value2")]);
    ("{""key1"": [1, 2], ""key2"": [4, 8, 16, 32]}", TMap true (TVector (TInt int32)), VMap [("key1", VList [VInt 1; VInt 2]); ("key2", VList [VInt 4; VInt 8; VInt 16; VInt 32])]);
    ("{""key1"":{""value"":""a""},""key2"":{""value"":""b""},""key3"":{""value"":""c""}}", TMap true TestValue, VMap [("key1", VObj [VStr "a"]); ("key2", VObj [VStr "b"]); ("key3", VObj [VStr "c"])])].
Proof. run. Qed.

(** deserialize_container.cpp *)
Example suite_refuse_map :
  refuses (TMap true (TInt int32)) ["true"; "23"; """string"""; "[]"; "[1]"].
Proof. run. Qed.

(** deserialize_container.cpp *)
Example suite_read_unordered_map :
  reads [
    ("{}", TMap false (TInt int32), VMap []);
    ("{}", TMap false TString, VMap []);
    ("{""key1"": 1, ""key2"": 2, ""key3"": 3}", TMap false (TInt int32), VMap [("key1", VInt 1); ("key2", VInt 2); ("key3", VInt 3)]);
    ("{""key1"": ""value1"", ""key2"": ""value2""}", TMap false TString, VMap [("key1", VStr "value1"); ("key2", VStr "value2")]);
    ("{""key1"":{""value"":""a""}}", TMap false TestValue, VMap [("key1", VObj [VStr "a"])])].
Proof. run. Qed.

(** deserialize_container.cpp *)
Example suite_refuse_unordered_map :
  refuses (TMap false (TInt int32)) ["true"; "23"; """string"""; "[]"; "[1]"].
Proof. run. Qed.

(** deserialize_tuple.cpp *)
Example suite_read_tuple :
  reads [
    ("[]", TArray 0 (TInt int32), VList []);
    ("[1, 2, 3]", TArray 3 (TInt int32), VList [VInt 1; VInt 2; VInt 3]);
    ("[""one"", ""two""]", TArray 2 TString, VList [VStr "one"; VStr "two"]);
    ("[{""value"":""a""},{""value"":""b""},{""value"":""c""}]", TArray 3 TestValue, VList [VObj [VStr "a"]; VObj [VStr "b"]; VObj [VStr "c"]]);
    ("[19, ""eighty-two""]", TPair (TInt int32) TString, VList [VInt 19; VStr "eighty-two"]);
    ("[]", TTuple [], VList []);
    ("[""value""]", TTuple [TString], VList [VStr "value"]);
    ("[19, ""eighty-two""]", TTuple [TInt int32; TString], VList [VInt 19; VStr "eighty-two"]);
    ("[23, {""value"": ""string""}]", TTuple [TInt int32; TestValue], VList [VInt 23; VObj [VStr "string"]])].
Proof. run. Qed.

(** deserialize_tuple.cpp *)
Example suite_refuse_array :
  refuses (TArray 2 (TInt int32)) ["[]"; "[1]"; "[1,2,3]"; "[""one"",""two""]"; "true"; "23"; """string"""; "{}"].
Proof. run. Qed.

(** deserialize_tuple.cpp *)
Example suite_refuse_string_array :
  refuses (TArray 2 TString) ["[1,2]"].
Proof. run. Qed.

(** deserialize_tuple.cpp *)
Example suite_refuse_pair :
  refuses (TPair (TInt int32) TString) ["[1]"; "[1,""string1"",23,""string2""]"; "true"; "23"; """string"""; "{}"].
Proof. run. Qed.

(** deserialize_tuple.cpp *)
Example suite_refuse_tuple :
  refuses (TTuple [TInt int32; TString]) ["[1]"; "[1,""string1"",23,""string2""]"; "true"; "23"; """string"""; "{}"].
Proof. run. Qed.

(** deserialize_variant.cpp: only documents. *)
Example suite_read_variant : map (fun '(text, t, _) => by_document_throw t text) [
    ("""value""", TVariant [TInt int32; TString], tt);
    ("23", TVariant [TInt int32; TString], tt);
    ("""value""", TVariant [TString; TestValue], tt);
    ("{""value"": ""string""}", TVariant [TString; TestValue], tt);
    ("{""value"": ""string""}", TVariant [TestValue; TestNonCopyable], tt);
    ("{""member"":{""value"": ""string""}}", TVariant [TestValue; TestNonCopyable], tt)] = [Accepted (VVariant 1 (VStr "value")); Accepted (VVariant 0 (VInt 23)); Accepted (VVariant 0 (VStr "value")); Accepted (VVariant 1 (VObj [VStr "string"])); Accepted (VVariant 0 (VObj [VStr "string"])); Accepted (VVariant 1 (VObj [VObj [VStr "string"]]))].
Proof. run. Qed.
Example suite_refuse_variant : map (by_document (TVariant [TInt int32; TString])) [""; "null"; "true"; "4.5"; "[23]"; "{}"] = repeat Refused 6.
Proof. run. Qed.

(** deserialize_enum.cpp *)
Example suite_read_enum :
  reads [
    ("1", Side, VInt 1);
    ("2", Side, VInt 2);
    ("0", Suit, VInt 0);
    ("1", Suit, VInt 1);
    ("2", Suit, VInt 2);
    ("3", Suit, VInt 3);
    ("""Unu""", Esper, VInt 0);
    ("""Du""", Esper, VInt 1);
    ("""Kvin""", Esper, VInt 4);
    ("""Dek""", Esper, VInt 9)].
Proof. run. Qed.

(** deserialize_enum.cpp *)
Example suite_refuse_side :
  refuses (Side) ["""Left"""; """Right"""; "true"; """string"""; "[]"; "{}"].
Proof. run. Qed.

(** deserialize_enum.cpp *)
Example suite_refuse_suit :
  refuses (Suit) ["""Diamonds"""; """Spades"""].
Proof. run. Qed.

(** deserialize_enum.cpp *)
Example suite_refuse_esper :
  refuses (Esper) ["0"; "1"; """"""; """NaN"""].
Proof. run. Qed.

(** deserialize_bytes.cpp *)
Example suite_read_bytes :
  reads [
    ("""""", TBytes, VBytes (list_ascii_of_string ""));
    ("""Zg==""", TBytes, VBytes (list_ascii_of_string "f"));
    ("""Zm8=""", TBytes, VBytes (list_ascii_of_string "fo"));
    ("""Zm9v""", TBytes, VBytes (list_ascii_of_string "foo"));
    ("""Zm9vYg==""", TBytes, VBytes (list_ascii_of_string "foob"));
    ("""Zm9vYmE=""", TBytes, VBytes (list_ascii_of_string "fooba"));
    ("""Zm9vYmFy""", TBytes, VBytes (list_ascii_of_string "foobar"))].
Proof. run. Qed.

(** deserialize_bytes.cpp *)
Example suite_refuse_bytes :
  refuses (TBytes) ["""A"""; """AA"""; """AAA"""; "true"; "23"; "[]"; "[""Z"",""m"",""9"",""v""]"; "{}"].
Proof. run. Qed.

(** deserialize_datetime.cpp *)
Example suite_read_datetime :
  reads [
    ("""1982-10-23T01:20:40Z""", TTime, VTime match make_datetime 1000000000 1982 10 23 1 20 40 with Some z => z | None => 0 end);
    ("""2022-02-01T23:02:01Z""", TTime, VTime match make_datetime 1000000000 2022 2 1 23 2 1 with Some z => z | None => 0 end);
    ("""2000-02-29T00:00:00Z""", TTime, VTime match make_datetime 1000000000 2000 2 29 0 0 0 with Some z => z | None => 0 end);
    ("""2000-03-31T00:00:00Z""", TTime, VTime match make_datetime 1000000000 2000 3 31 0 0 0 with Some z => z | None => 0 end);
    ("""2022-02-01 23:02:01Z""", TTime, VTime match make_datetime 1000000000 2022 2 1 23 2 1 with Some z => z | None => 0 end);
    ("""1982-10-23""", TDate, VDate (days_from_civil 1982 10 23));
    ("""2022-02-01""", TDate, VDate (days_from_civil 2022 2 1));
    ("""2000-02-29""", TDate, VDate (days_from_civil 2000 2 29));
    ("""2000-03-31""", TDate, VDate (days_from_civil 2000 3 31))].
Proof. run. Qed.

(** deserialize_datetime.cpp *)
Example suite_refuse_datetime :
  refuses (TTime) ["""22-02-01T23:02:01Z"""; """2022-02-01T23:02:01"""; """2022-02-01T23:02:01A"""; """YYYY-02-01T23:02:01Z"""; """2022-MM-01T23:02:01Z"""; """2022-00-01T23:02:01Z"""; """2022-99-01T23:02:01Z"""; """2022-02-DDT23:02:01Z"""; """2022-02-00T23:02:01Z"""; """2022-02-30T23:02:01Z"""; """2022-02-99T23:02:01Z"""; """2022-02-01THH:02:01Z"""; """2022-02-01T99:02:01Z"""; """2022-02-01T23:MM:01Z"""; """2022-02-01T23:99:01Z"""; """2022-02-01T23:02:SSZ"""; """2022-02-01T23:02:99Z"""; """2022 02-01T23:02:01Z"""; """2022-02 01T23:02:01Z"""; """2022-02-01X23:02:01Z"""; """2022-02-01T23 02:01Z"""; """2022-02-01T23:02 01Z"""; "true"; "23"; "[]"; "{}"].
Proof. run. Qed.

(** deserialize_datetime.cpp *)
Example suite_refuse_date :
  refuses (TDate) ["""22-02-01"""; """YYYY-02-01"""; """2022-MM-01"""; """2022-00-01"""; """2022-99-01"""; """2022-02-DD"""; """2022-02-00"""; """2022-02-30"""; """2022-02-99"""; """2022 02-01"""; """2022-02 01"""; "true"; "23"; "[]"; "{}"].
Proof. run. Qed.

(** deserialize_object.cpp *)
Example suite_read_unique :
  reads [
    ("23", TUnique (TInt int32), VPtr (VInt 23));
    ("""string""", TUnique TString, VPtr (VStr "string"));
    ("{""value"": ""string""}", TUnique TestValue, VPtr (VObj [VStr "string"]))].
Proof. run. Qed.

(** deserialize_object.cpp: the content of the object that is pointed to. *)
Definition pointed (o : outcome) : option val := match o with Accepted (VShared _ v) => Some v | _ => None end.
Example suite_read_shared : map (fun '(text, t, _) => map pointed (four_ways t text)) [
    ("23", TShared (TInt int32), tt); ("""string""", TShared TString, tt); ("{""value"": ""string""}", TShared TestValue, tt); ("{}", TShared TestDefault, tt)] =
  map (fun v => repeat (Some v) 4) [VInt 23; VStr "string"; VObj [VStr "string"]; VObj [VStr "default"]].
Proof. run. Qed.

(** deserialize_object.cpp *)
Example suite_read_object :
  reads [
    ("{""value"":""test string""}", TestValue, VObj [VStr "test string"]);
    ("{}", TestDefault, VObj [VStr "default"]);
    ("{""value"":""test string""}", TestDefault, VObj [VStr "test string"]);
    ("{""value"":""base"",""member"":""derived""}", TestDerived, VObj [VStr "base"; VStr "derived"]);
    ("{""first"":1,""second"":2}", TestPair, VObj [VInt 1; VInt 2]);
    ("{""member"": {""value"": ""string""}}", TestNonCopyable, VObj [VObj [VStr "string"]]);
    ("{}", OptionalMember, VObj [VNone]);
    ("{""optional_value"": 42}", OptionalMember, VObj [VSome (VInt 42)])].
Proof. run. Qed.

(** deserialize_object.cpp *)
Example suite_refuse_object :
  refuses (TestNonCopyable) ["{""member"": {""value"": 23}}"].
Proof. run. Qed.

(** deserialize_object.cpp *)
Example suite_read_transfer_object : let text := "{""bool_value"":true,""bool_list"":[false,false,true],""int_value"":42,""int_list"":[82,10,23],""string_value"":""test string"",""string_list"":[""one"",""two"",""three""],""object_value"":{""member_value"":""value""},""object_list"":[{""member_value"":""value""},{""member_value"":""value""}]}" in let v := VObj [VBool true; VList [VBool false; VBool false; VBool true]; VInt 42; VList [VInt 82; VInt 10; VInt 23]; VStr "test string"; VList [VStr "one"; VStr "two"; VStr "three"]; VObj [VStr "value"]; VList [VObj [VStr "value"]; VObj [VStr "value"]]] in
  by_document TransferObject text = Accepted v /\ by_document_throw TransferObject text = Accepted v /\ by_parser TransferObject text = Accepted v.
Proof. runs. Qed.

(** deserialize_object.cpp *)
Example suite_read_references :
  by_document_throw BackReferenceArray "{""values"":[{""value"":""string""},{""value"":""string""},{""$ref"":""/values/1""},{""$ref"":""/values/1""}]}" =
    Accepted (VObj [VList [VShared 0 (VObj [VStr "string"]); VShared 1 (VObj [VStr "string"]); VShared 1 (VObj [VStr "string"]); VShared 1 (VObj [VStr "string"])]]) /\
  by_document_throw BackReferenceObject "{""outer"": {""value"": ""string""},""inner"": [{""$ref"": ""/outer""},{""$ref"": ""/outer""}]}" =
    Accepted (VObj [VShared 0 (VObj [VStr "string"]); VList [VShared 0 (VObj [VStr "string"]); VShared 0 (VObj [VStr "string"])]]) /\
  by_parser_throw BackReferenceObject "{""outer"": {""value"": ""string""},""inner"": [{""$ref"": ""/outer""},{""$ref"": ""/outer""}]}" = Refused.
Proof. runs. Qed.

(** main.cpp: a text that is not JSON, a document of another shape, and the path of an error. *)
Example suite_errors :
  by_parser_throw Documented "{""bool_value"": true, []}" = Refused /\
  by_parser_throw Documented "{""bool_value"": true, ""string_value"": []}" = Refused /\
  deserialize_string_throw (decimal binary64) suite Documented "{""bool_value"": true,""string_value"": """",""string_list"": [""a"",23]}" =
    Document (Threw (WrongType "string") (list_ascii_of_string "/string_list/1")).
Proof. runs. Qed.

(** main.cpp: the example of the documentation. *)
Example suite_documentation : let obj := VObj [VBool true; VStr "string"; VList [VStr "a"; VStr "b"; VStr "c"]; VNone; VObj [VStr "xyz"]] in
  exists text, write_to_string (written print) suite Documented obj "" = Some (true, text) /\ by_parser_throw Documented text = Accepted obj.
Proof.
  exists "{""bool_value"":true,""string_value"":""string"",""string_list"":[""a"",""b"",""c""],""custom_value"":{""value"":""xyz""}}".
  split; run.
Qed.

(** * Schemas *)

(** schema_document_to_string, with names that stand for typeid(T).name(); schema_to_string is
    the same without the first member. *)
Definition type_name (c : nat) : string := match c with O => "9TestValue" | _ => "?" end.
Definition schema_document_text (t : ty) : option string :=
  match schema_document suite type_name 20 t with GOk j _ => Some (document_to_string (written print) j) | _ => None end.
Definition schema_text (t : ty) : option string :=
  match schema_document suite type_name 20 t with
  | GOk (JObj (_ :: l)) _ => Some (document_to_string (written print) (JObj l))
  | _ => None
  end.

(** schema.cpp *)
Example suite_schema : map schema_text [
    TNull;
    TBool;
    TInt {| width := 16; is_signed := true |};
    TInt {| width := 16; is_signed := false |};
    TInt {| width := 32; is_signed := true |};
    TInt {| width := 32; is_signed := false |};
    TInt {| width := 64; is_signed := true |};
    TInt {| width := 64; is_signed := false |};
    TFloat;
    TDouble;
    TString;
    TTime;
    TDate;
    TArray 23 TString;
    TPair (TInt int32) TString;
    TTuple [TInt int32; TDouble; TString];
    TVariant [TInt int32; TDouble; TString];
    TVector TString;
    TSet TString;
    TMap true TDouble;
    TMap false TDouble;
    TestValue;
    OptionalMember;
    TestDerived;
    TVector TestValue;
    TUnique TestValue;
    TShared TestValue] = map Some [
    "{""type"":""null""}";
    "{""type"":""boolean""}";
    "{""type"":""integer"",""minimum"":-32768,""maximum"":32767}";
    "{""type"":""integer"",""minimum"":0,""maximum"":65535}";
    "{""type"":""integer"",""minimum"":-2147483648,""maximum"":2147483647}";
    "{""type"":""integer"",""minimum"":0,""maximum"":4294967295}";
    "{""type"":""integer"",""minimum"":-9223372036854775808,""maximum"":9223372036854775807}";
    "{""type"":""integer"",""minimum"":0,""maximum"":18446744073709551615}";
    "{""type"":""number""}";
    "{""type"":""number""}";
    "{""type"":""string""}";
    "{""type"":""string"",""format"":""date-time""}";
    "{""type"":""string"",""format"":""date""}";
    "{""type"":""array"",""items"":{""type"":""string""},""minItems"":23,""maxItems"":23}";
    "{""type"":""array"",""prefixItems"":[{""type"":""integer"",""minimum"":-2147483648,""maximum"":2147483647},{""type"":""string""}],""minItems"":2,""maxItems"":2}";
    "{""type"":""array"",""prefixItems"":[{""type"":""integer"",""minimum"":-2147483648,""maximum"":2147483647},{""type"":""number""},{""type"":""string""}],""minItems"":3,""maxItems"":3}";
    "{""oneOf"":[{""type"":""integer"",""minimum"":-2147483648,""maximum"":2147483647},{""type"":""number""},{""type"":""string""}]}";
    "{""type"":""array"",""items"":{""type"":""string""}}";
    "{""type"":""array"",""items"":{""type"":""string""},""uniqueItems"":true}";
    "{""type"":""object"",""additionalProperties"":{""type"":""number""}}";
    "{""type"":""object"",""additionalProperties"":{""type"":""number""}}";
    "{""type"":""object"",""properties"":{""value"":{""type"":""string""}},""required"":[""value""],""additionalProperties"":false}";
    "{""type"":""object"",""properties"":{""optional_value"":{""type"":""integer"",""minimum"":-2147483648,""maximum"":2147483647}},""required"":[],""additionalProperties"":false}";
    "{""type"":""object"",""properties"":{""value"":{""type"":""string""},""member"":{""type"":""string""}},""required"":[""value"",""member""],""additionalProperties"":false}";
    "{""definitions"":{""9TestValue"":{""type"":""object"",""properties"":{""value"":{""type"":""string""}},""required"":[""value""],""additionalProperties"":false}},""type"":""array"",""items"":{""$ref"":""#/definitions/9TestValue""}}";
    "{""type"":""object"",""properties"":{""value"":{""type"":""string""}},""required"":[""value""],""additionalProperties"":false}";
    "{""type"":""object"",""properties"":{""value"":{""type"":""string""}},""required"":[""value""],""additionalProperties"":false}"].
Proof. run. Qed.

(** schema.cpp *)
Example suite_schema_document : map schema_document_text [TBool; TestValue] = map Some [
    "{""$schema"":""https://json-schema.org/draft/2020-12/schema"",""type"":""boolean""}";
    "{""$schema"":""https://json-schema.org/draft/2020-12/schema"",""type"":""object"",""properties"":{""value"":{""type"":""string""}},""required"":[""value""],""additionalProperties"":false}"].
Proof. run. Qed.

(** * detail.cpp *)

(** Whether the smallest and the greatest value of a type are assignable. *)
Definition ends (T V : ity) : bool * bool := (assignable_ii T V (tmin V), assignable_ii T V (tmax V)).
Definition fends (F : format) (V : ity) : bool * bool := (assignable_fi F V (tmin V), assignable_fi F V (tmax V)).
Definition greatest (F : format) : fl := mk false (2 ^ prec F - 1) (emax F - prec F).
Definition lowest (F : format) : fl := mk true (2 ^ prec F - 1) (emax F - prec F).
Definition ffends (T V : format) : bool * bool := (assignable_ff T V (lowest V), assignable_ff T V (greatest V)).

Example suite_is_assignable :
  (* unsigned <-- unsigned *)
  ends uint32 uint32 = (true, true) /\ ends uint64 uint32 = (true, true) /\ ends uint32 uint64 = (true, false) /\
  (* signed <-- signed *)
  ends int32 int32 = (true, true) /\ ends int64 int32 = (true, true) /\ ends int32 int64 = (false, false) /\
  (* unsigned <-- signed *)
  ends uint32 int32 = (false, true) /\ ends uint64 int32 = (false, true) /\ ends uint32 int64 = (false, false) /\
  (* signed <-- unsigned *)
  ends int32 uint32 = (true, false) /\ ends int64 uint32 = (true, true) /\ ends int32 uint64 = (true, false) /\
  (* float <-- integer *)
  fends binary32 {| width := 16; is_signed := true |} = (true, true) /\ fends binary32 {| width := 16; is_signed := false |} = (true, true) /\
  fends binary32 int32 = (false, false) /\ fends binary32 uint32 = (true, false) /\
  (* double <-- integer *)
  fends binary64 int32 = (true, true) /\ fends binary64 uint32 = (true, true) /\
  fends binary64 int64 = (false, false) /\ fends binary64 uint64 = (true, false) /\
  (* float and double <-- float or double *)
  ffends binary32 binary32 = (true, true) /\ ffends binary32 binary64 = (false, false) /\
  ffends binary64 binary32 = (true, true) /\ ffends binary64 binary64 = (true, true).
Proof. runs. Qed.

(** Frame ids: 1 for "A a", 2 for "A b", 3 for "B", 4 for "A c". *)
Example suite_polymorphic_stack :
  let A id := Emplace {| f_id := id; f_size := 16; f_align := 8 |} in
  let B id := Emplace {| f_id := id; f_size := 24; f_align := 8 |} in
  let ops := [A 1; A 2; B 3; Pop; A 4] in
  (* what back() gives after each operation *)
  map (fun n => match replay 128 4096 (firstn n ops) (fresh 128) with Some (s, _) => option_map f_id (back s) | None => None end) [1; 2; 3; 4; 5] =
    [Some 1; Some 2; Some 3; Some 2; Some 4] /\
  (* what has been destroyed in the end *)
  match replay 128 4096 ops (fresh 128) with
  | Some (s, answers) => match destroy s with Some s' => Some (answers, s_destroyed s') | None => None end
  | None => None
  end = Some ([true; true; true; true; true], [3; 4; 2; 1]).
Proof. runs. Qed.


Definition text := list_ascii_of_string.
Definition encoded (e : endianness) (s : string) : option (list ascii) := base64_encode e (text s) [].

Example suite_base64 : let cases := [
    ("", "");
    ("f", "Zg==");
    ("fo", "Zm8=");
    ("foo", "Zm9v");
    ("foob", "Zm9vYg==");
    ("fooba", "Zm9vYmE=");
    ("foobar", "Zm9vYmFy");
    ("Hello World", "SGVsbG8gV29ybGQ=");
    ("The quick brown fox jumped over the lazy dogs.", "VGhlIHF1aWNrIGJyb3duIGZveCBqdW1wZWQgb3ZlciB0aGUgbGF6eSBkb2dzLg==")] in
  map (fun '(a, _) => encoded little a) cases = map (fun '(_, b) => Some (text b)) cases /\
  map (fun '(a, _) => encoded big a) cases = map (fun '(_, b) => Some (text b)) cases /\
  map (fun '(_, b) => base64_decode (text b)) cases = map (fun '(a, _) => Some (true, text a)) cases.
Proof. runs. Qed.

Example suite_base64_decode : Forall (fun s => exists b, base64_decode (text s) = Some (false, b))
  ["A"; "AA"; "AAA"; "A==="; "===A"; "==AA"; "=AAA"; "AAA."; ".AAA"; "OOOO==AA"; "OOOO=AAA"; "OOOOAAA."; "OOOO.AAA"].
Proof. repeat (apply Forall_cons; [eexists; run|]). apply Forall_nil. Qed.


(** The words "creamwove" and "quists" have the same hash. *)
Definition indices (items : list string) : res (list nat) :=
  rbind (build 1000 (map text items)) (fun t =>
    fold_right (fun s r => rbind (index (List.length items) t (text s)) (fun i => rbind r (fun l => Ok (i :: l)))) (Ok []) items).
Example suite_perfect_hash :
  indices ["a"] = Ok [0] /\ indices ["a"; "b"; "c"] = Ok [0; 1; 2] /\ indices ["a"; "creamwove"; "quists"] = Ok [0; 1; 2].
Proof. runs. Qed.
