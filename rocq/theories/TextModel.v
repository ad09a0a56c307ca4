(** Texts: what rapidjson::Writer prints and what rapidjson::Reader reads, and the functions of
    the library that take or give a text. RapidJSON is not part of the repository; it is
    modelled from its documentation, with the default flags that the library uses. The
    printing and reading of numbers with fraction or exponent are parameters. *)
From Coq Require Import List Arith ZArith NArith Ascii String Bool.
From Verif Require Import Base Float Decimal10 Json Events Types DeserializeModel ParseModel.
Import ListNotations.
Local Open Scope char_scope.

(** * Writer *)

Definition quote : ascii := """".
Definition backslash : ascii := "\".

Definition hex_upper (n : N) : ascii := if (n <? 10)%N then ascii_of_N (48 + n) else ascii_of_N (55 + n).

(** rapidjson::Writer::WriteString: bytes from 0x80 on are copied. *)
Definition escape (c : ascii) : list ascii :=
  let n := N_of_ascii c in
  if Ascii.eqb c quote then [backslash; quote]
  else if Ascii.eqb c backslash then [backslash; backslash]
  else if (n =? 8)%N then [backslash; "b"]
  else if (n =? 9)%N then [backslash; "t"]
  else if (n =? 10)%N then [backslash; "n"]
  else if (n =? 12)%N then [backslash; "f"]
  else if (n =? 13)%N then [backslash; "r"]
  else if (n <? 32)%N then [backslash; "u"; "0"; "0"; hex_upper (N.shiftr n 4); hex_upper (N.land n 15)]
  else [c].

Definition print_string (s : string) : list ascii := quote :: flat_map escape (list_ascii_of_string s) ++ [quote].

(** The levels that are open: whether it is an array, and how many values it has so far. *)
Definition levels := list (bool * nat).

(** rapidjson::Writer::Prefix *)
Definition prefix (st : levels) : list ascii :=
  match st with
  | (true, S _) :: _ => [","]
  | (false, S n) :: _ => if Nat.even n then [":"] else [","]
  | _ => []
  end.

Definition counted (st : levels) : levels :=
  match st with (a, n) :: st' => (a, S n) :: st' | [] => [] end.

Section Writer.
(** The digits of a double: internal::dtoa. *)
Variable print_double : fl -> list ascii.

Definition print_event (st : levels) (ev : event) : levels * list ascii :=
  let value text := (counted st, prefix st ++ text) in
  match ev with
  | ENull => value (list_ascii_of_string "null")
  | EBool true => value (list_ascii_of_string "true")
  | EBool false => value (list_ascii_of_string "false")
  | EInt z => value (decZ z)
  | EDbl f => value (print_double f)
  | EStr s | EKey s => value (print_string s)
  | EStartArray => ((true, 0) :: counted st, prefix st ++ ["["])
  | EStartObject => ((false, 0) :: counted st, prefix st ++ ["{"])
  | EEndArray => (tl st, ["]"])
  | EEndObject => (tl st, ["}"])
  end.

Fixpoint print_events (st : levels) (evs : list event) : list ascii :=
  match evs with
  | [] => []
  | ev :: evs' => let '(st', text) := print_event st ev in text ++ print_events st' evs'
  end.

(** The content of the string buffer. *)
Definition written (evs : list event) : string := string_of_list_ascii (print_events [] evs).
End Writer.

(** * Reader *)

Definition is_space (c : ascii) : bool :=
  Ascii.eqb c " " || Ascii.eqb c "010" || Ascii.eqb c "013" || Ascii.eqb c "009".

(** rapidjson::SkipWhitespace *)
Fixpoint skip (s : list ascii) : list ascii :=
  match s with
  | c :: s' => if is_space c then skip s' else s
  | [] => []
  end.

(** rapidjson::Reader::ParseHex4, one digit. *)
Definition hex_digit (c : ascii) : option N :=
  let n := N_of_ascii c in
  if ((48 <=? n) && (n <=? 57))%N then Some (n - 48)%N
  else if ((65 <=? n) && (n <=? 70))%N then Some (n - 55)%N
  else if ((97 <=? n) && (n <=? 102))%N then Some (n - 87)%N
  else None.

Definition hex4 (a b c d : ascii) : option N :=
  match hex_digit a, hex_digit b, hex_digit c, hex_digit d with
  | Some w, Some x, Some y, Some z => Some (N.shiftl (N.shiftl (N.shiftl w 4 + x) 4 + y) 4 + z)%N
  | _, _, _, _ => None
  end.

(** rapidjson::UTF8::Encode *)
Definition utf8_bytes (cp : N) : list ascii :=
  let low k := ascii_of_N (N.lor 128 (N.land (N.shiftr cp k) 63)) in
  if (cp <=? 127)%N then [ascii_of_N cp]
  else if (cp <=? 2047)%N then [ascii_of_N (N.lor 192 (N.land (N.shiftr cp 6) 255)); low 0%N]
  else if (cp <=? 65535)%N then [ascii_of_N (N.lor 224 (N.land (N.shiftr cp 12) 255)); low 6%N; low 0%N]
  else [ascii_of_N (N.lor 240 (N.land (N.shiftr cp 18) 255)); low 12%N; low 6%N; low 0%N].

Definition put (l : list ascii) (x : option (list ascii * list ascii)) : option (list ascii * list ascii) :=
  match x with Some (b, r) => Some (l ++ b, r) | None => None end.

(** rapidjson::Reader::ParseStringToStream, after the opening quotation mark: the content of
    the string and the text after the closing one. *)
Fixpoint read_string (s : list ascii) : option (list ascii * list ascii) :=
  match s with
  | [] => None
  | c :: s1 =>
    if Ascii.eqb c quote then Some ([], s1)
    else if Ascii.eqb c backslash then
      match s1 with
      | [] => None
      | x :: s2 =>
        if Ascii.eqb x quote || Ascii.eqb x backslash || Ascii.eqb x "/" then put [x] (read_string s2)
        else if Ascii.eqb x "b" then put ["008"] (read_string s2)
        else if Ascii.eqb x "f" then put ["012"] (read_string s2)
        else if Ascii.eqb x "n" then put ["010"] (read_string s2)
        else if Ascii.eqb x "r" then put ["013"] (read_string s2)
        else if Ascii.eqb x "t" then put ["009"] (read_string s2)
        else if Ascii.eqb x "u" then
          match s2 with
          | h1 :: h2 :: h3 :: h4 :: s3 =>
            match hex4 h1 h2 h3 h4 with
            | None => None
            | Some cp =>
              if ((55296 <=? cp) && (cp <=? 57343))%N then
                if (cp <=? 56319)%N then
                  match s3 with
                  | y :: z :: k1 :: k2 :: k3 :: k4 :: s4 =>
                    if Ascii.eqb y backslash && Ascii.eqb z "u" then
                      match hex4 k1 k2 k3 k4 with
                      | None => None
                      | Some cp2 =>
                        if ((cp2 <? 56320) || (57343 <? cp2))%N then None
                        else put (utf8_bytes (N.lor (N.shiftl (cp - 55296) 10) (cp2 - 56320) + 65536)) (read_string s4)
                      end
                    else None
                  | _ => None
                  end
                else None
              else put (utf8_bytes cp) (read_string s3)
            end
          | _ => None
          end
        else None
      end
    else if (N_of_ascii c <? 32)%N then None
    else put [c] (read_string s1)
  end.

(** The digits at the start of a text. *)
Fixpoint span_digits (s : list ascii) : list ascii * list ascii :=
  match s with
  | c :: s' => if is_digit c then let '(ds, r) := span_digits s' in (c :: ds, r) else ([], s)
  | [] => ([], [])
  end.

Definition starts (c : ascii) (s : list ascii) : option (list ascii) :=
  match s with d :: s' => if Ascii.eqb c d then Some s' else None | [] => None end.

(** The integer part: zero, or digits that do not start with zero. *)
Definition read_int_part (s : list ascii) : option (list ascii * list ascii) :=
  match s with
  | c :: s' => if Ascii.eqb c "0" then Some (["0"], s') else if is_digit c then Some (span_digits s) else None
  | [] => None
  end.

(** The fraction and the exponent, which may be missing. *)
Definition read_fraction (s : list ascii) : option (list ascii * list ascii) :=
  match starts "." s with
  | Some s' => match span_digits s' with ([], _) => None | (ds, r) => Some ("." :: ds, r) end
  | None => Some ([], s)
  end.

Definition read_exponent (s : list ascii) : option (list ascii * list ascii) :=
  match s with
  | c :: s' =>
    if Ascii.eqb c "e" || Ascii.eqb c "E" then
      let '(sign, s'') := match s' with d :: r => if Ascii.eqb d "+" || Ascii.eqb d "-" then ([d], r) else ([], s') | [] => ([], []) end in
      match span_digits s'' with ([], _) => None | (ds, r) => Some (c :: sign ++ ds, r) end
    else Some ([], s)
  | [] => Some ([], s)
  end.

Section Reader.
(** The double nearest to a number that is not an integer of 64 bits; [None] if the number is
    too big. *)
Variable read_double : list ascii -> option fl.

(** rapidjson::Reader::ParseNumber *)
Definition read_number (s : list ascii) : option (json * list ascii) :=
  let '(minus, s1) := match starts "-" s with Some s' => (["-"], s') | None => ([], s) end in
  match read_int_part s1 with
  | None => None
  | Some (ds, s2) =>
    match read_fraction s2 with
    | None => None
    | Some (frac, s3) =>
      match read_exponent s3 with
      | None => None
      | Some (ex, s4) =>
        let z := (match minus with [] => Z.of_N (digits_val ds) | _ => - Z.of_N (digits_val ds) end)%Z in
        match frac, ex, ((- 2 ^ 63 <=? z) && (z <? 2 ^ 64))%Z with
        | [], [], true => Some (JInt z, s4)
        | _, _, _ => match read_double (minus ++ ds ++ frac ++ ex) with Some f => Some (JDbl f, s4) | None => None end
        end
      end
    end
  end.

(** What was read and the rest of the text; or the events sent before an error; or fuel
    exhausted. *)
Inductive rres (A : Type) : Type :=
| ROk (a : A) (rest : list ascii)
| RErr (evs : list event)
| RDeep.
Arguments ROk {A} a rest.
Arguments RErr {A} evs.
Arguments RDeep {A}.

Fixpoint expect (word s : list ascii) : option (list ascii) :=
  match word with
  | [] => Some s
  | c :: word' => match starts c s with Some s' => expect word' s' | None => None end
  end.

Definition literal (word : string) (j : json) (s : list ascii) : rres json :=
  match expect (list_ascii_of_string word) s with Some r => ROk j r | None => RErr [] end.

(** rapidjson::Reader::ParseValue, ParseArray and ParseObject, at a character that is not
    white space. [acc] are the elements and members read before. *)
Fixpoint read_value (n : nat) (s : list ascii) {struct n} : rres json :=
  match n with
  | O => RDeep
  | S n' =>
    match s with
    | [] => RErr []
    | c :: s' =>
      if Ascii.eqb c "n" then literal "ull" JNull s'
      else if Ascii.eqb c "t" then literal "rue" (JBool true) s'
      else if Ascii.eqb c "f" then literal "alse" (JBool false) s'
      else if Ascii.eqb c quote then
        match read_string s' with Some (b, r) => ROk (JStr (string_of_list_ascii b)) r | None => RErr [] end
      else if Ascii.eqb c "[" then
        match starts "]" (skip s') with Some r => ROk (JArr []) r | None => read_items n' [] (skip s') end
      else if Ascii.eqb c "{" then
        match starts "}" (skip s') with Some r => ROk (JObj []) r | None => read_fields n' [] (skip s') end
      else match read_number s with Some (j, r) => ROk j r | None => RErr [] end
    end
  end
with read_items (n : nat) (acc : list json) (s : list ascii) {struct n} : rres json :=
  match n with
  | O => RDeep
  | S n' =>
    match read_value n' s with
    | ROk j r =>
      match starts "," (skip r), starts "]" (skip r) with
      | Some r', _ => read_items n' (acc ++ [j]) (skip r')
      | None, Some r' => ROk (JArr (acc ++ [j])) r'
      | None, None => RErr (EStartArray :: flat_map events (acc ++ [j]))
      end
    | RErr evs => RErr (EStartArray :: flat_map events acc ++ evs)
    | RDeep => RDeep
    end
  end
with read_fields (n : nat) (acc : list (string * json)) (s : list ascii) {struct n} : rres json :=
  match n with
  | O => RDeep
  | S n' =>
    let before := EStartObject :: flat_map (fun p => EKey (fst p) :: events (snd p)) acc in
    match starts quote s with
    | None => RErr before
    | Some s1 =>
      match read_string s1 with
      | None => RErr before
      | Some (b, s2) =>
        let key := string_of_list_ascii b in
        match starts ":" (skip s2) with
        | None => RErr (before ++ [EKey key])
        | Some s3 =>
          match read_value n' (skip s3) with
          | ROk j r =>
            match starts "," (skip r), starts "}" (skip r) with
            | Some r', _ => read_fields n' (acc ++ [(key, j)]) (skip r')
            | None, Some r' => ROk (JObj (acc ++ [(key, j)])) r'
            | None, None => RErr (before ++ EKey key :: events j)
            end
          | RErr evs => RErr (before ++ EKey key :: evs)
          | RDeep => RDeep
          end
        end
      end
    end
  end.

(** rapidjson::Reader::Parse on a NUL-terminated string. *)
Definition read_text (str : string) : rres json :=
  let s := list_ascii_of_string (c_string str) in
  match skip s with
  | [] => RErr []
  | s' =>
    match read_value (2 * List.length s' + 2) s' with
    | ROk j r => match skip r with [] => ROk j [] | _ => RErr (events j) end
    | x => x
    end
  end.

(** utility.hpp:22-40 and rapidjson::Document::Parse: the document, which is null after an
    error, and whether there was no error. *)
Definition string_to_document (str : string) : json * bool :=
  match read_text str with ROk j _ => (j, true) | _ => (JNull, false) end.

(** deserialize.hpp:30-41 and 61-92: the object is not touched after an error. *)
Definition deserialize_string (e : env) (t : ty) (str : string) (obj : val) : dres :=
  match string_to_document str with
  | (j, true) => deserialize e t j obj
  | (_, false) => DRet false start obj
  end.

(** deserialize.hpp:43-59 and 94-118: JsonParseError, or the result for the document. *)
Inductive text_result : Type :=
| NotJson
| Document (r : tres).

Definition deserialize_string_throw (e : env) (t : ty) (str : string) : text_result :=
  match string_to_document str with
  | (j, true) => Document (deserialize_throw e t j)
  | (_, false) => NotJson
  end.

(** parse.hpp:11-31: the handler runs while the text is read. *)
Definition parse_string_into (e : env) (fuel : nat) (fits : capacity) (t : ty) (str : string) (obj : val) : parsed :=
  match read_text str with
  | ROk j _ => parse_into e fuel fits t j obj
  | RErr evs =>
    match parse_events e fuel fits t obj evs with
    | POk s | PFail s => Parsed false (target s)
    | POver => OutOfSpace
    | PUndef => ParseUndef
    | POutside => ParseOutside
    end
  | RDeep => ParseOutside
  end.

(** parse.hpp:33-50 *)
Definition parse_string (e : env) (fuel : nat) (fits : capacity) (t : ty) (str : string) : parse_result :=
  match parse_string_into e fuel fits t str (dinit e t) with
  | Parsed true v => PReturned v
  | Parsed false _ => PError
  | OutOfSpace => POutOfRange
  | ParseUndef => PUndefined
  | ParseOutside => PNotCompiled
  end.
End Reader.
Arguments ROk {A} a rest.
Arguments RErr {A} evs.
Arguments RDeep {A}.
