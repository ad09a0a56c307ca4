(** Reading in place: the overloads for temporary strings use rapidjson::Document::ParseInsitu,
    which writes the content of each string over its text and keeps pointers into the buffer.
    RapidJSON is modelled from its documentation (InsituStringStream, ParseInsitu). *)
From Coq Require Import List Arith ZArith NArith Ascii String Bool.
From Verif Require Import Base Float Decimal10 Json Events Types SerializeModel DeserializeModel ParseModel TextModel.
Import ListNotations.
Local Open Scope char_scope.

(** A piece of a buffer. *)
Record piece : Set := { p_start : nat; p_length : nat }.

(** A document whose strings and names of members are in a buffer. [IPlain] is null, a boolean
    or a number. *)
Inductive idoc : Type :=
| IPlain (j : json)
| IStr (p : piece)
| IArr (l : list idoc)
| IObj (l : list (piece * idoc)).

Section IdocInd.
Variable P : idoc -> Prop.
Hypotheses (Hplain : forall j, P (IPlain j)) (Hstr : forall p, P (IStr p)) (Harr : forall l, Forall P l -> P (IArr l)) (Hobj : forall l, Forall (fun q => P (snd q)) l -> P (IObj l)).
Fixpoint idoc_ind' (d : idoc) : P d :=
  match d with
  | IPlain j => Hplain j
  | IStr p => Hstr p
  | IArr l => Harr l ((fix all (l : list idoc) : Forall P l := match l with [] => Forall_nil P | x :: l' => Forall_cons x (idoc_ind' x) (all l') end) l)
  | IObj l => Hobj l ((fix all (l : list (piece * idoc)) : Forall (fun q => P (snd q)) l :=
      match l with [] => Forall_nil _ | x :: l' => Forall_cons x (idoc_ind' (snd x)) (all l') end) l)
  end.
End IdocInd.

(** Writes to the buffer; [None] if not all of it is in the buffer. *)
Definition poke (mem : list ascii) (at_ : nat) (bytes : list ascii) : option (list ascii) :=
  if Nat.leb (at_ + List.length bytes) (List.length mem) then Some (firstn at_ mem ++ bytes ++ skipn (at_ + List.length bytes) mem) else None.

(** rapidjson::Reader::ParseStringToStream, one turn of the loop: the closing quotation mark, or
    a character with what is to be written for it; and the text after it. *)
Definition one (s : list ascii) : option (option (list ascii) * list ascii) :=
  match s with
  | [] => None
  | c :: s1 =>
    if Ascii.eqb c quote then Some (None, s1)
    else if Ascii.eqb c backslash then
      match s1 with
      | [] => None
      | x :: s2 =>
        if Ascii.eqb x quote || Ascii.eqb x backslash || Ascii.eqb x "/" then Some (Some [x], s2)
        else if Ascii.eqb x "b" then Some (Some ["008"], s2)
        else if Ascii.eqb x "f" then Some (Some ["012"], s2)
        else if Ascii.eqb x "n" then Some (Some ["010"], s2)
        else if Ascii.eqb x "r" then Some (Some ["013"], s2)
        else if Ascii.eqb x "t" then Some (Some ["009"], s2)
        else if Ascii.eqb x "u" then
          match s2 with
          | h1 :: h2 :: h3 :: h4 :: s3 =>
            match hex4 h1 h2 h3 h4 with
            | None => None
            | Some cp =>
              if ((55296 <=? cp) && (cp <=? 57343))%N then
                if (cp <=? 56319)%N then
                  match s3 with
                  | y :: z :: k1 :: k2 :: k3 :: k4 :: s4 =>
                    if Ascii.eqb y backslash && Ascii.eqb z "u" then
                      match hex4 k1 k2 k3 k4 with
                      | None => None
                      | Some cp2 =>
                        if ((cp2 <? 56320) || (57343 <? cp2))%N then None
                        else Some (Some (utf8_bytes (N.lor (N.shiftl (cp - 55296) 10) (cp2 - 56320) + 65536)), s4)
                      end
                    else None
                  | _ => None
                  end
                else None
              else Some (Some (utf8_bytes cp), s3)
            end
          | _ => None
          end
        else None
      end
    else if (N_of_ascii c <? 32)%N then None
    else Some (Some [c], s1)
  end.

(** What came of reading: a result with the buffer and the position afterwards; an error in the
    text; a write outside the buffer; or fuel exhausted. *)
Inductive ires (A : Type) : Type :=
| IOk (a : A) (mem : list ascii) (pos : nat)
| IErr
| IUndef
| IDeep.
Arguments IOk {A} a mem pos.
Arguments IErr {A}.
Arguments IUndef {A}.
Arguments IDeep {A}.

(** The position of the text that is left. *)
Definition position (mem rest : list ascii) : nat := List.length mem - List.length rest.

(** rapidjson::Reader::ParseString in place, after the opening quotation mark: reads at [src],
    writes at [dst]; the content is ended by a NUL character. Gives the end of the content. *)
Fixpoint in_chars (n : nat) (mem : list ascii) (src dst : nat) : ires nat :=
  match n with
  | O => IDeep
  | S n' =>
    match one (skipn src mem) with
    | None => IErr
    | Some (None, r) => match poke mem dst ["000"] with Some mem' => IOk dst mem' (position mem r) | None => IUndef end
    | Some (Some bytes, r) =>
      match poke mem dst bytes with Some mem' => in_chars n' mem' (position mem r) (dst + List.length bytes) | None => IUndef end
    end
  end.

Definition in_string (mem : list ascii) (src : nat) : ires piece :=
  match in_chars (S (List.length mem)) mem src src with
  | IOk dst mem' pos => IOk {| p_start := src; p_length := dst - src |} mem' pos
  | IErr => IErr
  | IUndef => IUndef
  | IDeep => IDeep
  end.

Section Insitu.
Variable read_double : list ascii -> option fl.

(** Null, a boolean or a number: nothing is written. *)
Definition in_plain (mem : list ascii) (r : rres json) : ires idoc :=
  match r with ROk j r => IOk (IPlain j) mem (position mem r) | RErr _ => IErr | RDeep => IDeep end.

(** rapidjson::Reader::ParseValue, ParseArray and ParseObject in place, as [read_value]. *)
Fixpoint in_value (n : nat) (mem : list ascii) (pos : nat) {struct n} : ires idoc :=
  match n with
  | O => IDeep
  | S n' =>
    match skipn pos mem with
    | [] => IErr
    | c :: s' =>
      if Ascii.eqb c "n" then in_plain mem (literal "ull" JNull s')
      else if Ascii.eqb c "t" then in_plain mem (literal "rue" (JBool true) s')
      else if Ascii.eqb c "f" then in_plain mem (literal "alse" (JBool false) s')
      else if Ascii.eqb c quote then
        match in_string mem (S pos) with IOk p mem' pos' => IOk (IStr p) mem' pos' | IErr => IErr | IUndef => IUndef | IDeep => IDeep end
      else if Ascii.eqb c "[" then
        match starts "]" (skip s') with Some r => IOk (IArr []) mem (position mem r) | None => in_items n' [] mem (position mem (skip s')) end
      else if Ascii.eqb c "{" then
        match starts "}" (skip s') with Some r => IOk (IObj []) mem (position mem r) | None => in_fields n' [] mem (position mem (skip s')) end
      else in_plain mem (match read_number read_double (c :: s') with Some (j, r) => ROk j r | None => RErr [] end)
    end
  end
with in_items (n : nat) (acc : list idoc) (mem : list ascii) (pos : nat) {struct n} : ires idoc :=
  match n with
  | O => IDeep
  | S n' =>
    match in_value n' mem pos with
    | IOk d mem pos =>
      let r := skip (skipn pos mem) in
      match starts "," r, starts "]" r with
      | Some r', _ => in_items n' (acc ++ [d]) mem (position mem (skip r'))
      | None, Some r' => IOk (IArr (acc ++ [d])) mem (position mem r')
      | None, None => IErr
      end
    | IErr => IErr
    | IUndef => IUndef
    | IDeep => IDeep
    end
  end
with in_fields (n : nat) (acc : list (piece * idoc)) (mem : list ascii) (pos : nat) {struct n} : ires idoc :=
  match n with
  | O => IDeep
  | S n' =>
    match starts quote (skipn pos mem) with
    | None => IErr
    | Some s1 =>
      match in_string mem (position mem s1) with
      | IOk key mem pos =>
        match starts ":" (skip (skipn pos mem)) with
        | None => IErr
        | Some s3 =>
          match in_value n' mem (position mem (skip s3)) with
          | IOk d mem pos =>
            let r := skip (skipn pos mem) in
            match starts "," r, starts "}" r with
            | Some r', _ => in_fields n' (acc ++ [(key, d)]) mem (position mem (skip r'))
            | None, Some r' => IOk (IObj (acc ++ [(key, d)])) mem (position mem r')
            | None, None => IErr
            end
          | IErr => IErr
          | IUndef => IUndef
          | IDeep => IDeep
          end
        end
      | IErr => IErr
      | IUndef => IUndef
      | IDeep => IDeep
      end
    end
  end.

(** rapidjson::Document::ParseInsitu on a NUL-terminated buffer: the document, and what the
    buffer is afterwards, up to its first NUL before. *)
Definition in_text (str : string) : ires idoc :=
  let mem := list_ascii_of_string (c_string str) in
  match skip mem with
  | [] => IErr
  | s' =>
    match in_value (2 * List.length s' + 2) mem (position mem s') with
    | IOk d mem pos => match skip (skipn pos mem) with [] => IOk d mem pos | _ => IErr end
    | r => r
    end
  end.

(** The bytes of a piece; [None] if the buffer does not exist any more. *)
Definition peek (buffer : option (list ascii)) (p : piece) : option string :=
  match buffer with
  | Some mem => Some (string_of_list_ascii (firstn (p_length p) (skipn (p_start p) mem)))
  | None => None
  end.

(** Looks at the whole document; [None] if this is undefined. *)
Fixpoint view (buffer : option (list ascii)) (d : idoc) : option json :=
  match d with
  | IPlain j => Some j
  | IStr p => option_map JStr (peek buffer p)
  | IArr l => option_map JArr (all_some (map (view buffer) l))
  | IObj l => option_map JObj (all_some (map (fun q =>
      match peek buffer (fst q), view buffer (snd q) with Some key, Some j => Some (key, j) | _, _ => None end) l))
  end.

(** utility.hpp:35-40: the document, whether there was no error, and the buffer of the argument,
    which belongs to the caller. [None] if reading writes outside the buffer; after an error the
    document is null, and what is in the buffer is left open. *)
Definition string_to_document_rvalue (str : string) : option (idoc * bool * list ascii) :=
  match in_text str with
  | IOk d mem _ => Some (d, true, mem)
  | IErr => Some (IPlain JNull, false, [])
  | _ => None
  end.

(** deserialize.hpp:86-92: the buffer is there until the call returns; the strings of the object
    are copies. *)
Definition deserialize_rvalue (e : env) (t : ty) (str : string) (obj : val) : dres :=
  match string_to_document_rvalue str with
  | Some (d, true, mem) => match view (Some mem) d with Some j => deserialize e t j obj | None => DUndef end
  | Some (_, false, _) => DRet false start obj
  | None => DUndef
  end.

(** deserialize.hpp:111-119 *)
Definition deserialize_rvalue_throw (e : env) (t : ty) (str : string) : text_result :=
  match string_to_document_rvalue str with
  | Some (d, true, mem) => match view (Some mem) d with Some j => Document (deserialize_throw e t j) | None => Document TUndef end
  | Some (_, false, _) => NotJson
  | None => Document TUndef
  end.
End Insitu.
