(** JSON Schema 2020-12, as far as the keywords go that the library uses, written from the
    specification. The format and contentEncoding keywords, which validators may ignore, are
    taken as requirements. *)
From Coq Require Import List Arith ZArith NArith Ascii String Bool.
From Verif Require Import Base Float Json Types.
Import ListNotations.
Local Open Scope string_scope.

(** * Numbers *)

(** The number [m * 2 ^ e] that a JSON number stands for. *)
Definition number (j : json) : option (Z * Z) :=
  match j with
  | JInt z => Some (z, 0%Z)
  | JDbl (FZero _) => Some (0%Z, 0%Z)
  | JDbl (FFin s m e) => Some (if s then Z.neg m else Z.pos m, e)
  | _ => None
  end.

(** Compare two numbers. *)
Definition compare_numbers (a b : Z * Z) : comparison :=
  let k := Z.min (snd a) (snd b) in
  Z.compare (fst a * 2 ^ (snd a - k)) (fst b * 2 ^ (snd b - k)).

Definition integral (a : Z * Z) : bool := (0 <=? snd a)%Z || (fst a mod 2 ^ (- snd a) =? 0)%Z.

Definition at_most (a b : json) : bool :=
  match number a, number b with
  | Some x, Some y => match compare_numbers x y with Gt => false | _ => true end
  | _, _ => false
  end.

(** * Equality of instances *)

(** Numbers are equal if they are the same number; the order of members does not matter. *)
Fixpoint same (a b : json) {struct a} : bool :=
  match a, b with
  | JNull, JNull => true
  | JBool x, JBool y => Bool.eqb x y
  | JStr x, JStr y => String.eqb x y
  | JArr l, JArr m =>
    (fix same_items (l m : list json) {struct l} : bool :=
       match l, m with
       | [], [] => true
       | x :: l', y :: m' => same x y && same_items l' m'
       | _, _ => false
       end) l m
  | JObj l, JObj m =>
    forallb (fun p => match find_member m (fst p) with Some y => same (snd p) y | None => false end) l &&
    forallb (fun q => existsb (fun p => String.eqb (fst p) (fst q)) l) m
  | _, _ =>
    match number a, number b with
    | Some x, Some y => match compare_numbers x y with Eq => true | _ => false end
    | _, _ => false
    end
  end.

Fixpoint all_different (l : list json) : bool :=
  match l with
  | [] => true
  | x :: l' => forallb (fun y => negb (same x y)) l' && all_different l'
  end.

(** * Formats *)

Definition digit (c : ascii) : option Z :=
  let n := Z.of_N (N_of_ascii c) in if ((48 <=? n) && (n <=? 57))%Z then Some (n - 48)%Z else None.

Fixpoint digits (l : list ascii) (acc : Z) : option Z :=
  match l with
  | [] => Some acc
  | c :: l' => match digit c with Some d => digits l' (10 * acc + d)%Z | None => None end
  end.

(** Two digits that write a number between [lo] and [hi]. *)
Definition field (a b : ascii) (lo hi : Z) : bool :=
  match digits [a; b] 0 with Some v => ((lo <=? v) && (v <=? hi))%Z | None => false end.

Definition days_in_month (y m : Z) : Z :=
  if (m =? 2)%Z then
    if (y mod 4 =? 0)%Z && (negb (y mod 100 =? 0)%Z || (y mod 400 =? 0)%Z) then 29%Z else 28%Z
  else if existsb (Z.eqb m) [4; 6; 9; 11]%Z then 30%Z else 31%Z.

(** RFC 3339, full-date. *)
Definition full_date (l : list ascii) : bool :=
  match l with
  | [y1; y2; y3; y4; h1; m1; m2; h2; d1; d2] =>
    Ascii.eqb h1 "-" && Ascii.eqb h2 "-" && field m1 m2 1 12 &&
    match digits [y1; y2; y3; y4] 0, digits [m1; m2] 0 with
    | Some y, Some m => field d1 d2 1 (days_in_month y m)
    | _, _ => false
    end
  | _ => false
  end.

(** RFC 3339, time-offset. *)
Definition offset (l : list ascii) : bool :=
  match l with
  | [z] => Ascii.eqb z "Z" || Ascii.eqb z "z"
  | [s; h1; h2; c; m1; m2] => (Ascii.eqb s "+" || Ascii.eqb s "-") && field h1 h2 0 23 && Ascii.eqb c ":" && field m1 m2 0 59
  | _ => false
  end.

(** One or more digits, then an offset. *)
Fixpoint fraction (first : bool) (l : list ascii) : bool :=
  match l with
  | c :: l' => match digit c with Some _ => fraction false l' | None => negb first && offset l end
  | [] => false
  end.

(** RFC 3339, full-time; leap seconds are allowed. *)
Definition full_time (l : list ascii) : bool :=
  match l with
  | h1 :: h2 :: c1 :: m1 :: m2 :: c2 :: s1 :: s2 :: r =>
    field h1 h2 0 23 && Ascii.eqb c1 ":" && field m1 m2 0 59 && Ascii.eqb c2 ":" && field s1 s2 0 60 &&
    match r with c :: r' => if Ascii.eqb c "." then fraction true r' else offset r | [] => false end
  | _ => false
  end.

(** RFC 3339, date-time. *)
Definition date_time (l : list ascii) : bool :=
  full_date (firstn 10 l) &&
  match skipn 10 l with t :: r => (Ascii.eqb t "T" || Ascii.eqb t "t") && full_time r | [] => false end.

Definition base64_char (c : ascii) : bool :=
  existsb (Ascii.eqb c) (list_ascii_of_string "ABCDEFGHIJKLMNOPQRSTUVWXYZabcdefghijklmnopqrstuvwxyz0123456789+/").

(** RFC 4648, section 4: groups of four characters, the last one padded. *)
Fixpoint base64_text (l : list ascii) : bool :=
  match l with
  | [] => true
  | a :: b :: c :: d :: r =>
    base64_char a && base64_char b &&
    match r with
    | [] => (Ascii.eqb c "=" && Ascii.eqb d "=") || (base64_char c && (Ascii.eqb d "=" || base64_char d))
    | _ => base64_char c && base64_char d && base64_text r
    end
  | _ => false
  end.

(** * Validation *)

(** All of them hold; [None] if one is undecided. *)
Definition all_of (l : list (option bool)) : option bool :=
  fold_right (fun (a r : option bool) => match a, r with Some x, Some y => Some (x && y) | _, _ => None end) (Some true) l.

(** How many of them hold. *)
Definition how_many (l : list (option bool)) : option nat :=
  fold_right (fun (a : option bool) (r : option nat) => match a, r with Some x, Some y => Some ((if x then 1 else 0) + y) | _, _ => None end) (Some 0) l.

Definition is_type (name : string) (j : json) : bool :=
  match j with
  | JNull => String.eqb name "null"
  | JBool _ => String.eqb name "boolean"
  | JStr _ => String.eqb name "string"
  | JArr _ => String.eqb name "array"
  | JObj _ => String.eqb name "object"
  | JInt _ | JDbl _ =>
    match number j with
    | Some a => String.eqb name "number" || (String.eqb name "integer" && integral a)
    | None => false
    end
  end.

(** What follows [prefix] in [s]. *)
Fixpoint after_prefix (prefix s : string) : option string :=
  match prefix, s with
  | EmptyString, _ => Some s
  | String c p, String d s' => if Ascii.eqb c d then after_prefix p s' else None
  | _, _ => None
  end.

(** A character that stands for itself in a JSON pointer within a URI fragment. *)
Definition ordinary_char (c : ascii) : bool :=
  existsb (Ascii.eqb c) (list_ascii_of_string "ABCDEFGHIJKLMNOPQRSTUVWXYZabcdefghijklmnopqrstuvwxyz0123456789_$.-").

(** The definition that a reference refers to; references of other forms are not resolved. *)
Definition resolve (root : json) (ref : string) : option json :=
  match after_prefix "#/definitions/" ref, root with
  | Some name, JObj l =>
    if forallb ordinary_char (list_ascii_of_string name) then
      match find_member l "definitions" with Some (JObj d) => find_member d name | _ => None end
    else None
  | _, _ => None
  end.

Definition siblings (kws : list (string * json)) (name : string) : list json :=
  match find_member kws name with Some (JArr l) => l | _ => [] end.

Definition sibling_members (kws : list (string * json)) (name : string) : list (string * json) :=
  match find_member kws name with Some (JObj l) => l | _ => [] end.

(** A list of schemas against the items at the same places; there may be more of either. *)
Fixpoint pairwise (V : json -> json -> option bool) (ss js : list json) : list (option bool) :=
  match ss, js with
  | s :: ss', j :: js' => V s j :: pairwise V ss' js'
  | _, _ => []
  end.

(** One keyword of a schema whose keywords are [kws], given the meaning [V] of subschemas.
    Keywords say nothing about instances of other types than they are made for. *)
Definition keyword (V : json -> json -> option bool) (root : json) (kws : list (string * json)) (key : string) (arg inst : json) : option bool :=
  let is := String.eqb key in
  if is "$ref" then
    match arg with
    | JStr r => match resolve root r with Some s => V s inst | None => Some false end
    | _ => Some false
    end
  else if is "type" then Some (match arg with JStr name => is_type name inst | _ => false end)
  else if is "enum" then Some (match arg with JArr l => existsb (same inst) l | _ => false end)
  else if is "oneOf" then
    match arg with
    | JArr l => option_map (Nat.eqb 1) (how_many (map (fun s => V s inst) l))
    | _ => Some false
    end
  else match inst with
  | JInt _ | JDbl _ =>
    if is "minimum" then Some (at_most arg inst)
    else if is "maximum" then Some (at_most inst arg)
    else Some true
  | JStr s =>
    if is "format" then
      Some (match arg with
            | JStr f =>
              if String.eqb f "date" then full_date (list_ascii_of_string s)
              else if String.eqb f "date-time" then date_time (list_ascii_of_string s)
              else true
            | _ => true
            end)
    else if is "contentEncoding" then
      Some (match arg with JStr f => if String.eqb f "base64" then base64_text (list_ascii_of_string s) else true | _ => true end)
    else Some true
  | JArr l =>
    if is "items" then all_of (map (V arg) (skipn (List.length (siblings kws "prefixItems")) l))
    else if is "prefixItems" then match arg with JArr ss => all_of (pairwise V ss l) | _ => Some false end
    else if is "uniqueItems" then Some (match arg with JBool true => all_different l | _ => true end)
    else if is "minItems" then Some (at_most arg (JInt (Z.of_nat (List.length l))))
    else if is "maxItems" then Some (at_most (JInt (Z.of_nat (List.length l))) arg)
    else Some true
  | JObj l =>
    if is "properties" then
      match arg with
      | JObj props => all_of (map (fun p => match find_member props (fst p) with Some s => V s (snd p) | None => Some true end) l)
      | _ => Some false
      end
    else if is "required" then
      Some (match arg with
            | JArr names => forallb (fun n => match n with JStr name => existsb (fun p => String.eqb (fst p) name) l | _ => false end) names
            | _ => false
            end)
    else if is "additionalProperties" then
      all_of (map (fun p => match find_member (sibling_members kws "properties") (fst p) with Some _ => Some true | None => V arg (snd p) end) l)
    else Some true
  | _ => Some true
  end.

(** The schema [s] of the document [root] against an instance; [None] if references and
    subschemas nest deeper than [fuel]. *)
Fixpoint validate (fuel : nat) (root s inst : json) : option bool :=
  match fuel with
  | O => None
  | S n =>
    match s with
    | JBool b => Some b
    | JObj kws => all_of (map (fun p => keyword (validate n root) root kws (fst p) (snd p) inst) kws)
    | _ => Some false
    end
  end.

(** The instance is valid; it is not valid. *)
Definition accepts (schema inst : json) : Prop := exists n, forall m, n <= m -> validate m schema schema inst = Some true.
Definition rejects (schema inst : json) : Prop := exists n, forall m, n <= m -> validate m schema schema inst = Some false.

(** * The types and values of the theorems *)

(** The JSON type of the documents of a type; not for enumerations, whose schemas are wrong, and
    variants, which have several. *)
Fixpoint json_type (t : ty) : option string :=
  match t with
  | TNull => Some "null"
  | TBool => Some "boolean"
  | TInt _ | TFloat | TDouble => Some "number"
  | TString | TBytes | TTime | TDate => Some "string"
  | TVector _ | TArray _ _ | TSet _ | TPair _ _ | TTuple _ => Some "array"
  | TMap _ _ | TClass _ => Some "object"
  | TUnique u | TShared u => json_type u
  | _ => None
  end.

(** All have a JSON type, and different ones. *)
Fixpoint apart (ts : list ty) : bool :=
  match ts with
  | [] => true
  | t :: ts' =>
    match json_type t with
    | Some k => forallb (fun u => match json_type u with Some k' => negb (String.eqb k k') | None => false end) ts' && apart ts'
    | None => false
    end
  end.

(** No enumerations, and the alternatives of variants have different JSON types. *)
Fixpoint schematic (t : ty) : bool :=
  match t with
  | TEnumInt _ | TEnumStr _ => false
  | TVariant ts => apart ts && forallb schematic ts
  | TVector u | TArray _ u | TSet u | TMap _ u | TUnique u | TShared u | TPtr u => schematic u
  | TPair a b => schematic a && schematic b
  | TTuple ts => forallb schematic ts
  | _ => true
  end.

Definition schematic_classes (e : env) : Prop := forall c m, In m (c_members (class_of e c)) -> schematic (m_ty m) = true.

(** The value with positive zeros instead of negative ones. *)
Fixpoint positive_zeros (v : val) : val :=
  match v with
  | VFlt (FZero _) => VFlt (FZero false)
  | VList l => VList (map positive_zeros l)
  | VObj l => VObj (map positive_zeros l)
  | VMap l => VMap (map (fun p => (fst p, positive_zeros (snd p))) l)
  | VVariant i x => VVariant i (positive_zeros x)
  | VSome x => VSome (positive_zeros x)
  | VPtr x => VPtr (positive_zeros x)
  | VShared a x => VShared a (positive_zeros x)
  | v => v
  end.

(** The order of sets does not tell the zeros apart: neither of two values that are the same
    number is less than the other. *)
Definition zero_blind (e : env) : Prop := forall u x y, positive_zeros x = positive_zeros y -> less e u x y = false.
