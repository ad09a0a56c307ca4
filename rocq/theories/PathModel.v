(** Model of include/persistence/detail/path.hpp and segment.hpp, and of rapidjson::Pointer. *)
From Coq Require Import List ZArith NArith Ascii String Bool.
From Verif Require Import Decimal10 Json.
Import ListNotations.

(** segment.hpp:13-26 *)
Record segment : Type := { seg_name : list ascii; seg_index : N }.

Definition name_segment (name : list ascii) : segment := {| seg_name := name; seg_index := 0 |}.
Definition index_segment (index : N) : segment := {| seg_name := []; seg_index := index |}.

Definition is_named (s : segment) : bool := negb (Nat.eqb (List.length (seg_name s)) 0).

(** std::numeric_limits<std::size_t>::digits10 *)
Definition max_len : nat := 19.

(** path.hpp:25-40: std::to_chars fails if the digits do not fit the buffer; then the buffer
    shrinks to its former size and no digit is written. *)
Definition segment_text (s : segment) : list ascii :=
  "/"%char ::
  (if is_named s then seg_name s
   else let digits := dec (seg_index s) in
        if Nat.leb (List.length digits) max_len then digits else []).

(** path.hpp:17-43: the segments are stored from the innermost to the outermost. *)
Definition path_str (segments : list segment) : list ascii :=
  match segments with
  | [] => ["/"%char]
  | _ => List.concat (map segment_text (rev segments))
  end.

(** A token of rapidjson::Pointer: its name, and its index unless it is no index. *)
Record token : Type := { tok_name : list ascii; tok_index : option N }.

Definition two32 : N := 2 ^ 32.

(** The conversion to SizeType with its overflow check. *)
Fixpoint token_number (n : N) (s : list ascii) : option N :=
  match s with
  | [] => Some n
  | c :: s' => let m := ((n * 10 + digit_val c) mod two32)%N in
               if (m <? n)%N then None else token_number m s'
  end.

Definition invalid_index : N := (two32 - 1)%N.

Definition token_index (name : list ascii) : option N :=
  if forallb is_digit name
  then match name with
       | [] => None
       | c :: _ :: _ => if Ascii.eqb c "0"%char then None else token_number 0 name
       | _ => token_number 0 name
       end
  else None.

Definition make_token (name : list ascii) : token :=
  {| tok_name := name;
     tok_index := match token_index name with
                  | Some i => if (i =? invalid_index)%N then None else Some i
                  | None => None
                  end |}.

(** Splits the text after a '/' into the first name and the names after it; '~' starts an
    escape. [None] stands for a malformed pointer. *)
Fixpoint pointer_names (s : list ascii) : option (list ascii * list (list ascii)) :=
  match s with
  | [] => Some ([], [])
  | c :: s' =>
    if Ascii.eqb c "/"%char then
      match pointer_names s' with Some (t, ts) => Some ([], t :: ts) | None => None end
    else if Ascii.eqb c "~"%char then
      match s' with
      | d :: s'' =>
        if Ascii.eqb d "0"%char then
          match pointer_names s'' with Some (t, ts) => Some ("~"%char :: t, ts) | None => None end
        else if Ascii.eqb d "1"%char then
          match pointer_names s'' with Some (t, ts) => Some ("/"%char :: t, ts) | None => None end
        else None
      | [] => None
      end
    else match pointer_names s' with Some (t, ts) => Some (c :: t, ts) | None => None end
  end.

(** rapidjson::Pointer::Parse for a text that does not start with '#'. *)
Definition parse_pointer (s : list ascii) : option (list token) :=
  match s with
  | [] => Some []
  | c :: s' =>
    if Ascii.eqb c "/"%char then
      match pointer_names s' with Some (t, ts) => Some (map make_token (t :: ts)) | None => None end
    else None
  end.

(** rapidjson::Pointer::PercentDecodeStream::Take: a hexadecimal digit, and a byte of two. *)
Definition percent_digit (c : ascii) : option N :=
  let n := N_of_ascii c in
  if ((48 <=? n) && (n <=? 57))%N then Some (n - 48)%N
  else if ((65 <=? n) && (n <=? 70))%N then Some (n - 55)%N
  else if ((97 <=? n) && (n <=? 102))%N then Some (n - 87)%N
  else None.

Definition percent_byte (h l : ascii) : option ascii :=
  match percent_digit h, percent_digit l with
  | Some a, Some b => Some (ascii_of_N (a * 16 + b))
  | _, _ => None
  end.

(** rapidjson::Pointer::NeedPercentEncode *)
Definition need_percent (c : ascii) : bool :=
  let n := N_of_ascii c in
  negb (((48 <=? n) && (n <=? 57)) || ((65 <=? n) && (n <=? 90)) || ((97 <=? n) && (n <=? 122)) ||
        (n =? 45) || (n =? 46) || (n =? 95) || (n =? 126))%N.

(** rapidjson::UTF8::Validate: the ranges of the bytes that have to come after a first byte
    from 0x80 on. *)
Definition more_bytes (c : ascii) : option (list (N * N)) :=
  let n := N_of_ascii c in
  let tail := (128, 191)%N in
  if (n <? 194)%N then None
  else if (n <? 224)%N then Some [tail]
  else if (n =? 224)%N then Some [(160, 191)%N; tail]
  else if (n =? 237)%N then Some [(128, 159)%N; tail]
  else if (n <? 240)%N then Some [tail; tail]
  else if (n =? 240)%N then Some [(144, 191)%N; tail; tail]
  else if (n <? 244)%N then Some [tail; tail; tail]
  else if (n =? 244)%N then Some [(128, 143)%N; tail; tail]
  else None.

(** One more character of the first name. *)
Definition push_char (c : ascii) (r : option (list ascii * list (list ascii))) : option (list ascii * list (list ascii)) :=
  match r with Some (t, ts) => Some (c :: t, ts) | None => None end.

(** The names of a URI fragment, after a '/'. [due] are the bytes that the character needs
    yet; they can be given by percent signs only. A tilde may be encoded, the digit after it
    not; an encoded slash is part of a name. *)
Fixpoint fragment_names (due : list (N * N)) (s : list ascii) : option (list ascii * list (list ascii)) :=
  match s with
  | [] => match due with [] => Some ([], []) | _ => None end
  | c :: s1 =>
    if Ascii.eqb c "%"%char then
      match s1 with
      | h :: l :: s2 =>
        match percent_byte h l with
        | None => None
        | Some b =>
          match due with
          | (lo, hi) :: due' =>
            if ((lo <=? N_of_ascii b) && (N_of_ascii b <=? hi))%N then push_char b (fragment_names due' s2) else None
          | [] =>
            if Ascii.eqb b "~"%char then
              match s2 with
              | d :: s3 =>
                if Ascii.eqb d "0"%char then push_char "~"%char (fragment_names [] s3)
                else if Ascii.eqb d "1"%char then push_char "/"%char (fragment_names [] s3)
                else None
              | [] => None
              end
            else if (N_of_ascii b <? 128)%N then push_char b (fragment_names [] s2)
            else match more_bytes b with Some due' => push_char b (fragment_names due' s2) | None => None end
          end
        end
      | _ => None
      end
    else
      match due with
      | _ :: _ => None
      | [] =>
        if Ascii.eqb c "/"%char then
          match fragment_names [] s1 with Some (t, ts) => Some ([], t :: ts) | None => None end
        else if need_percent c then None
        else if Ascii.eqb c "~"%char then
          match s1 with
          | d :: s3 =>
            if Ascii.eqb d "0"%char then push_char "~"%char (fragment_names [] s3)
            else if Ascii.eqb d "1"%char then push_char "/"%char (fragment_names [] s3)
            else None
          | [] => None
          end
        else push_char c (fragment_names [] s1)
      end
  end.

(** rapidjson::Pointer::Parse after a '#'. *)
Definition parse_fragment (s : list ascii) : option (list token) :=
  match s with
  | [] => Some []
  | c :: s' =>
    if Ascii.eqb c "/"%char then
      match fragment_names [] s' with Some (t, ts) => Some (map make_token (t :: ts)) | None => None end
    else None
  end.

(** rapidjson::Pointer::Parse *)
Definition parse_reference (s : list ascii) : option (list token) :=
  match s with
  | c :: s' => if Ascii.eqb c "#"%char then parse_fragment s' else parse_pointer s
  | [] => parse_pointer s
  end.

(** rapidjson::Pointer::Get: the value and its place in the document, given by the positions
    of the members and elements passed. *)
Fixpoint pointer_get (j : json) (ts : list token) : option (list nat * json) :=
  match ts with
  | [] => Some ([], j)
  | t :: ts' =>
    match j with
    | JObj l =>
      match find_index l (string_of_list_ascii (tok_name t)) with
      | Some k =>
        match nth_error l k with
        | Some (_, v) =>
          match pointer_get v ts' with Some (loc, r) => Some (k :: loc, r) | None => None end
        | None => None
        end
      | None => None
      end
    | JArr l =>
      match tok_index t with
      | Some i =>
        if (N.of_nat (List.length l) <=? i)%N then None
        else match nth_error l (N.to_nat i) with
             | Some v =>
               match pointer_get v ts' with Some (loc, r) => Some (N.to_nat i :: loc, r) | None => None end
             | None => None
             end
      | None => None
      end
    | _ => None
    end
  end.

(** The value at a place. *)
Fixpoint at_place (j : json) (loc : list nat) : option json :=
  match loc with
  | [] => Some j
  | k :: loc' =>
    match j with
    | JObj l => match nth_error l k with Some (_, v) => at_place v loc' | None => None end
    | JArr l => match nth_error l k with Some v => at_place v loc' | None => None end
    | _ => None
    end
  end.
