(** rapidjson::Reader as a program that calls a handler while it reads: the nesting of its
    calls, the code of an error and its offset. RapidJSON is not part of the repository; it is
    modelled from its sources as documented (reader.h, error/en.h). The library runs it in
    parse.hpp:12-21 with the handlers of parse_*.hpp, and through rapidjson::Document in
    utility.hpp:27-40. *)
From Coq Require Import List Arith ZArith NArith Ascii String Bool.
From Verif Require Import Base Float Decimal10 Json Events Types DeserializeModel ParseModel TextModel.
Import ListNotations.
Local Open Scope char_scope.

(** rapidjson::ParseErrorCode, without the codes that these flags cannot give. *)
Inductive fault : Type :=
| DocumentEmpty
| RootNotSingular
| ValueInvalid
| MissName
| MissColon
| MissCommaOrCurlyBracket
| MissCommaOrSquareBracket
| InvalidHex
| SurrogateInvalid
| EscapeInvalid
| MissQuotationMark
| InvalidEncoding
| TooBig
| MissFraction
| MissExponent.

(** An error is reported at a position: here the rest of the text from there on. *)
Definition position := list ascii.

(** ** Tokens *)

Definition prepend (l : list ascii) (x : (list ascii * list ascii) + (fault * position)) : (list ascii * list ascii) + (fault * position) :=
  match x with inl (b, r) => inl (l ++ b, r) | inr f => inr f end.

(** rapidjson::Reader::ParseStringToStream, after the opening quotation mark. Errors in an
    escape sequence are reported at its backslash. *)
Fixpoint scan_string (s : list ascii) : (list ascii * list ascii) + (fault * position) :=
  match s with
  | [] => inr (MissQuotationMark, s)
  | c :: s1 =>
    if Ascii.eqb c quote then inl ([], s1)
    else if Ascii.eqb c backslash then
      match s1 with
      | [] => inr (EscapeInvalid, s)
      | x :: s2 =>
        if Ascii.eqb x quote || Ascii.eqb x backslash || Ascii.eqb x "/" then prepend [x] (scan_string s2)
        else if Ascii.eqb x "b" then prepend ["008"] (scan_string s2)
        else if Ascii.eqb x "f" then prepend ["012"] (scan_string s2)
        else if Ascii.eqb x "n" then prepend ["010"] (scan_string s2)
        else if Ascii.eqb x "r" then prepend ["013"] (scan_string s2)
        else if Ascii.eqb x "t" then prepend ["009"] (scan_string s2)
        else if Ascii.eqb x "u" then
          match s2 with
          | h1 :: h2 :: h3 :: h4 :: s3 =>
            match hex4 h1 h2 h3 h4 with
            | None => inr (InvalidHex, s)
            | Some cp =>
              if ((55296 <=? cp) && (cp <=? 57343))%N then
                if (cp <=? 56319)%N then
                  match s3 with
                  | y :: z :: s4 =>
                    if Ascii.eqb y backslash && Ascii.eqb z "u" then
                      match s4 with
                      | k1 :: k2 :: k3 :: k4 :: s5 =>
                        match hex4 k1 k2 k3 k4 with
                        | None => inr (InvalidHex, s)
                        | Some cp2 =>
                          if ((cp2 <? 56320) || (57343 <? cp2))%N then inr (SurrogateInvalid, s)
                          else prepend (utf8_bytes (N.lor (N.shiftl (cp - 55296) 10) (cp2 - 56320) + 65536)) (scan_string s5)
                        end
                      | _ => inr (InvalidHex, s)
                      end
                    else inr (SurrogateInvalid, s)
                  | _ => inr (SurrogateInvalid, s)
                  end
                else inr (SurrogateInvalid, s)
              else prepend (utf8_bytes cp) (scan_string s3)
            end
          | _ => inr (InvalidHex, s)
          end
        else inr (EscapeInvalid, s)
      end
    else if (N_of_ascii c <? 32)%N then inr (InvalidEncoding, s)
    else prepend [c] (scan_string s1)
  end.

(** What a handler does with an event: it returns true in a new state, it returns false, or it
    leaves by an exception or otherwise. *)
Inductive answer (St Out : Type) : Type :=
| Goes (st : St)
| Refuses (st : St)
| Leaves (x : Out).
Arguments Goes {St Out} st.
Arguments Refuses {St Out} st.
Arguments Leaves {St Out} x.

(** What became of a value: it was read; there is an error in the text; the handler returned
    false; the handler left; there were too many nested calls; fuel exhausted. *)
Inductive driven (St Out : Type) : Type :=
| Passed (st : St) (rest : list ascii)
| Faulty (st : St) (f : fault) (at_ : position)
| Refused (st : St) (at_ : position)
| Left (x : Out)
| Exhausted
| NoFuel.
Arguments Passed {St Out} st rest.
Arguments Faulty {St Out} st f at_.
Arguments Refused {St Out} st at_.
Arguments Left {St Out} x.
Arguments Exhausted {St Out}.
Arguments NoFuel {St Out}.

Section Reader.
Variable read_double : list ascii -> option fl.

(** rapidjson::Reader::ParseNumber. A number that is too big is reported at its start. *)
Definition scan_number (s : list ascii) : (json * list ascii) + (fault * position) :=
  let '(minus, s1) := match starts "-" s with Some s' => (["-"], s') | None => ([], s) end in
  match read_int_part s1 with
  | None => inr (ValueInvalid, s1)
  | Some (ds, s2) =>
    match starts "." s2, read_fraction s2 with
    | Some s', None => inr (MissFraction, s')
    | _, None => inr (ValueInvalid, s2)
    | _, Some (frac, s3) =>
      match read_exponent s3 with
      | None =>
        let s' := tl s3 in
        inr (MissExponent, match s' with d :: r => if Ascii.eqb d "+" || Ascii.eqb d "-" then r else s' | [] => s' end)
      | Some (ex, s4) =>
        let z := (match minus with [] => Z.of_N (digits_val ds) | _ => - Z.of_N (digits_val ds) end)%Z in
        match frac, ex, ((- 2 ^ 63 <=? z) && (z <? 2 ^ 64))%Z with
        | [], [], true => inl (JInt z, s4)
        | _, _, _ => match read_double (minus ++ ds ++ frac ++ ex) with Some f => inl (JDbl f, s4) | None => inr (TooBig, s) end
        end
      end
    end
  end.

(** The characters of a literal, one after the other (Consume): the rest, or where it differs. *)
Fixpoint consume (word s : list ascii) : list ascii + position :=
  match word with
  | [] => inl s
  | c :: word' => match starts c s with Some s' => consume word' s' | None => inr s end
  end.

(** ** The reader and its handler *)

Section Handler.
Context {St Out : Type}.
Variable handle : event -> St -> answer St Out.
Notation driven := (driven St Out).

(** The event is sent; the reader then goes on with [k], or reports the position [at_]. *)
Definition send (ev : event) (st : St) (at_ : position) (k : St -> driven) : driven :=
  match handle ev st with
  | Goes st' => k st'
  | Refuses st' => Refused st' at_
  | Leaves x => Left x
  end.

Definition drive_literal (word : string) (ev : event) (st : St) (s : list ascii) : driven :=
  match consume (list_ascii_of_string word) s with
  | inl r => send ev st r (fun st' => Passed st' r)
  | inr at_ => Faulty st ValueInvalid at_
  end.

(** ParseValue, ParseArray and ParseObject. [k] is the number of calls of ParseArray and
    ParseObject that may be active at a time. A number that is refused is reported at its
    start, every other token at its end. *)
Fixpoint drive_value (n k : nat) (st : St) (s : list ascii) {struct n} : driven :=
  match n with
  | O => NoFuel
  | S n' =>
    match s with
    | [] => Faulty st ValueInvalid s
    | c :: s' =>
      if Ascii.eqb c "n" then drive_literal "ull" ENull st s'
      else if Ascii.eqb c "t" then drive_literal "rue" (EBool true) st s'
      else if Ascii.eqb c "f" then drive_literal "alse" (EBool false) st s'
      else if Ascii.eqb c quote then
        match scan_string s' with
        | inl (b, r) => send (EStr (string_of_list_ascii b)) st r (fun st' => Passed st' r)
        | inr (f, at_) => Faulty st f at_
        end
      else if Ascii.eqb c "[" then
        match k with
        | O => Exhausted
        | S k' =>
          send EStartArray st s' (fun st1 =>
            match starts "]" (skip s') with
            | Some r => send EEndArray st1 r (fun st2 => Passed st2 r)
            | None => drive_items n' k' st1 (skip s')
            end)
        end
      else if Ascii.eqb c "{" then
        match k with
        | O => Exhausted
        | S k' =>
          send EStartObject st s' (fun st1 =>
            match starts "}" (skip s') with
            | Some r => send EEndObject st1 r (fun st2 => Passed st2 r)
            | None => drive_fields n' k' st1 (skip s')
            end)
        end
      else
        match scan_number s with
        | inl (JInt z, r) => send (EInt z) st s (fun st' => Passed st' r)
        | inl (JDbl d, r) => send (EDbl d) st s (fun st' => Passed st' r)
        | inl (_, _) => NoFuel
        | inr (f, at_) => Faulty st f at_
        end
    end
  end
with drive_items (n k : nat) (st : St) (s : list ascii) {struct n} : driven :=
  match n with
  | O => NoFuel
  | S n' =>
    match drive_value n' k st s with
    | Passed st1 r =>
      match starts "," (skip r), starts "]" (skip r) with
      | Some r', _ => drive_items n' k st1 (skip r')
      | None, Some r' => send EEndArray st1 r' (fun st2 => Passed st2 r')
      | None, None => Faulty st1 MissCommaOrSquareBracket (skip r)
      end
    | x => x
    end
  end
with drive_fields (n k : nat) (st : St) (s : list ascii) {struct n} : driven :=
  match n with
  | O => NoFuel
  | S n' =>
    match starts quote s with
    | None => Faulty st MissName s
    | Some s1 =>
      match scan_string s1 with
      | inr (f, at_) => Faulty st f at_
      | inl (b, s2) =>
        send (EKey (string_of_list_ascii b)) st s2 (fun st1 =>
          match starts ":" (skip s2) with
          | None => Faulty st1 MissColon (skip s2)
          | Some s3 =>
            match drive_value n' k st1 (skip s3) with
            | Passed st2 r =>
              match starts "," (skip r), starts "}" (skip r) with
              | Some r', _ => drive_fields n' k st2 (skip r')
              | None, Some r' => send EEndObject st2 r' (fun st3 => Passed st3 r')
              | None, None => Faulty st2 MissCommaOrCurlyBracket (skip r)
              end
            | x => x
            end
          end)
      end
    end
  end.

(** rapidjson::Reader::Parse on a NUL-terminated string. *)
Definition drive_text (k : nat) (st : St) (str : string) : driven :=
  let s := list_ascii_of_string (c_string str) in
  match skip s with
  | [] => Faulty st DocumentEmpty []
  | s' =>
    match drive_value (2 * List.length s' + 2) k st s' with
    | Passed st1 r => match skip r with [] => Passed st1 [] | at_ => Faulty st1 RootNotSingular at_ end
    | x => x
    end
  end.
End Handler.

(** rapidjson::ParseResult::Offset *)
Definition offset (str : string) (at_ : position) : nat := String.length (c_string str) - List.length at_.

(** ** The two uses of the reader *)

(** rapidjson::Document as a handler: it takes every event. Its stack on the heap has the
    values that are not part of another one yet, the latest first; a mark stands for the
    count of elements or members that the reader gives with the end of an array or object. *)
Inductive cell : Type :=
| Done (j : json)
| Name (s : string)
| Mark.

(** The elements, and the members, since the latest mark. *)
Fixpoint elements (acc : list json) (st : list cell) : list json * list cell :=
  match st with
  | Done j :: st' => elements (j :: acc) st'
  | Mark :: st' => (acc, st')
  | _ => (acc, st)
  end.

Fixpoint members (acc : list (string * json)) (st : list cell) : list (string * json) * list cell :=
  match st with
  | Done j :: Name s :: st' => members ((s, j) :: acc) st'
  | Mark :: st' => (acc, st')
  | _ => (acc, st)
  end.

Definition document_handler (ev : event) (st : list cell) : answer (list cell) Empty_set :=
  Goes match ev with
       | ENull => Done JNull :: st
       | EBool b => Done (JBool b) :: st
       | EInt z => Done (JInt z) :: st
       | EDbl f => Done (JDbl f) :: st
       | EStr s => Done (JStr s) :: st
       | EKey s => Name s :: st
       | EStartArray | EStartObject => Mark :: st
       | EEndArray => let '(l, st') := elements [] st in Done (JArr l) :: st'
       | EEndObject => let '(l, st') := members [] st in Done (JObj l) :: st'
       end.

(** utility.hpp:27-32, or the stack overflows. After an error the document is null, and has
    the code and the offset of the error. *)
Inductive document : Type :=
| Whole (j : json)
| Erroneous (f : fault) (offset : nat)
| Crash.

(** With [k] nested calls at most. *)
Definition document_within (k : nat) (str : string) : document :=
  match drive_text document_handler k [] str with
  | Passed [Done j] _ => Whole j
  | Faulty _ f at_ => Erroneous f (offset str at_)
  | _ => Crash
  end.

(** The handlers of the library. *)
Definition machine (e : env) (fuel : nat) (fits : capacity) (ev : event) (s : pstate) : answer pstate pres :=
  match step e fuel fits ev s with
  | POk s' => Goes s'
  | PFail s' => Refuses s'
  | x => Leaves x
  end.

(** parse.hpp:33-50: how parse ends. [Refusal] and [Fault] are JsonParseError. *)
Inductive ending : Type :=
| Filled (v : val)
| Fault (f : fault) (offset : nat) (v : val)
| Refusal (offset : nat) (v : val)
| Overflow               (* std::out_of_range from the stack of handlers *)
| Undefined
| Uncompiled
| StackExhausted.        (* the nested calls of the reader *)

Definition departed (x : pres) : ending :=
  match x with POver => Overflow | PUndef => Undefined | _ => Uncompiled end.

(** parse.hpp:11-31 with [k] nested calls at most. *)
Definition parse_text (e : env) (fuel : nat) (fits : capacity) (k : nat) (t : ty) (str : string) (obj : val) : ending :=
  match open e fits t root_place (initial obj) with
  | POk s =>
    match drive_text (machine e fuel fits) k s str with
    | Passed s' _ => Filled (target s')
    | Faulty s' f at_ => Fault f (offset str at_) (target s')
    | Refused s' at_ => Refusal (offset str at_) (target s')
    | Left x => departed x
    | Exhausted => StackExhausted
    | NoFuel => Uncompiled
    end
  | PFail s => Refusal 0 (target s)
  | x => departed x
  end.
End Reader.
