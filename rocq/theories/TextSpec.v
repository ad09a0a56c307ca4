(** JSON texts: the grammar of RFC 8259 over bytes, with the document that a text stands for. *)
From Coq Require Import List Arith ZArith Ascii String Bool.
From Verif Require Import Float Json Types.
Import ListNotations.
Local Open Scope char_scope.

Definition code (c : ascii) : Z := Z.of_nat (nat_of_ascii c).
Definition byte (z : Z) : ascii := ascii_of_nat (Z.to_nat z).

(** White space: space, line feed, carriage return, tab. *)
Definition blank (w : list ascii) : Prop := Forall (fun c => In (code c) [32; 10; 13; 9]%Z) w.

(** * Strings *)

Definition short_escapes : list (ascii * Z) :=
  [("""", 34); ("\", 92); ("/", 47); ("b", 8); ("f", 12); ("n", 10); ("r", 13); ("t", 9)]%Z.

(** The value of a hexadecimal digit, in upper or lower case. *)
Definition hex_value (c : ascii) (x : Z) : Prop :=
  (48 <= code c <= 57 /\ x = code c - 48 \/ 65 <= code c <= 70 /\ x = code c - 55 \/ 97 <= code c <= 102 /\ x = code c - 87)%Z.

Definition hex_value4 (a b c d : ascii) (x : Z) : Prop :=
  exists p q r s, hex_value a p /\ hex_value b q /\ hex_value c r /\ hex_value d s /\ (x = 4096 * p + 256 * q + 16 * r + s)%Z.

(** UTF-8 *)
Definition utf8 (cp : Z) : list ascii :=
  (if cp <? 128 then [byte cp]
   else if cp <? 2048 then [byte (192 + cp / 64); byte (128 + cp mod 64)]
   else if cp <? 65536 then [byte (224 + cp / 4096); byte (128 + cp / 64 mod 64); byte (128 + cp mod 64)]
   else [byte (240 + cp / 262144); byte (128 + cp / 4096 mod 64); byte (128 + cp / 64 mod 64); byte (128 + cp mod 64)])%Z.

(** The text between the quotation marks, and the bytes of the string. Bytes from 0x80 on are
    not looked at. *)
Inductive chars : list ascii -> list ascii -> Prop :=
| chars_end : chars [] []
| chars_plain : forall c s b, (32 <= code c)%Z -> code c <> 34%Z -> code c <> 92%Z -> chars s b -> chars (c :: s) (c :: b)
| chars_short : forall x z s b, In (x, z) short_escapes -> chars s b -> chars ("\" :: x :: s) (byte z :: b)
| chars_unicode : forall h1 h2 h3 h4 cp s b, hex_value4 h1 h2 h3 h4 cp -> ~ (55296 <= cp < 57344)%Z -> chars s b ->
    chars ("\" :: "u" :: h1 :: h2 :: h3 :: h4 :: s) (utf8 cp ++ b)
| chars_pair : forall h1 h2 h3 h4 k1 k2 k3 k4 hi lo s b, hex_value4 h1 h2 h3 h4 hi -> (55296 <= hi < 56320)%Z ->
    hex_value4 k1 k2 k3 k4 lo -> (56320 <= lo < 57344)%Z -> chars s b ->
    chars ("\" :: "u" :: h1 :: h2 :: h3 :: h4 :: "\" :: "u" :: k1 :: k2 :: k3 :: k4 :: s)
          (utf8 (65536 + 1024 * (hi - 55296) + (lo - 56320)) ++ b).

(** * Numbers *)

Definition digit (c : ascii) : Prop := (48 <= code c <= 57)%Z.
Definition digits (ds : list ascii) : Prop := ds <> [] /\ Forall digit ds.

Definition integer_part (ds : list ascii) : Prop := digits ds /\ (hd " " ds = "0" -> ds = ["0"]).

Definition fraction (s : list ascii) : Prop := s = [] \/ exists ds, digits ds /\ s = "." :: ds.

Definition exponent (s : list ascii) : Prop := s = [] \/
  exists e sign ds, In e ["e"; "E"] /\ In sign [[]; ["+"]; ["-"]] /\ digits ds /\ s = e :: sign ++ ds.

Fixpoint digits_value (acc : Z) (ds : list ascii) : Z :=
  match ds with [] => acc | c :: ds' => digits_value (10 * acc + (code c - 48)) ds' end.

(** An integer numeral and its value. *)
Inductive integer : list ascii -> Z -> Prop :=
| integer_plus : forall ds, integer_part ds -> integer ds (digits_value 0 ds)
| integer_minus : forall ds, integer_part ds -> integer ("-" :: ds) (- digits_value 0 ds).

(** Any number. *)
Definition number (s : list ascii) : Prop :=
  exists sign ds frac ex, In sign [[]; ["-"]] /\ integer_part ds /\ fraction frac /\ exponent ex /\ s = sign ++ ds ++ frac ++ ex.

(** The integers that are kept as such. *)
Definition kept (z : Z) : Prop := (- 2 ^ 63 <= z < 2 ^ 64)%Z.

(** * Values *)

Section Values.
(** The double that a number stands for. *)
Variable nearest : list ascii -> option fl.

Inductive value : list ascii -> json -> Prop :=
| value_null : value ["n"; "u"; "l"; "l"] JNull
| value_true : value ["t"; "r"; "u"; "e"] (JBool true)
| value_false : value ["f"; "a"; "l"; "s"; "e"] (JBool false)
| value_string : forall s b, chars s b -> value ("""" :: s ++ [""""]) (JStr (string_of_list_ascii b))
| value_integer : forall s z, integer s z -> kept z -> value s (JInt z)
| value_number : forall s f, number s -> (forall z, integer s z -> ~ kept z) -> nearest s = Some f -> value s (JDbl f)
| value_no_items : forall w, blank w -> value ("[" :: w ++ ["]"]) (JArr [])
| value_items : forall s l, items s l -> value ("[" :: s ++ ["]"]) (JArr l)
| value_no_fields : forall w, blank w -> value ("{" :: w ++ ["}"]) (JObj [])
| value_fields : forall s l, fields s l -> value ("{" :: s ++ ["}"]) (JObj l)
with spaced : list ascii -> json -> Prop :=
| spaced_value : forall w s w' j, blank w -> value s j -> blank w' -> spaced (w ++ s ++ w') j
with items : list ascii -> list json -> Prop :=
| items_one : forall s j, spaced s j -> items s [j]
| items_more : forall s j s' l, spaced s j -> items s' l -> items (s ++ "," :: s') (j :: l)
with fields : list ascii -> list (string * json) -> Prop :=
| fields_one : forall w k b w' s j, blank w -> chars k b -> blank w' -> spaced s j ->
    fields (w ++ """" :: k ++ """" :: w' ++ ":" :: s) [(string_of_list_ascii b, j)]
| fields_more : forall w k b w' s j s' l, blank w -> chars k b -> blank w' -> spaced s j -> fields s' l ->
    fields (w ++ """" :: k ++ """" :: w' ++ ":" :: s ++ "," :: s') ((string_of_list_ascii b, j) :: l).

(** A text and its document. *)
Definition json_text (str : string) (j : json) : Prop := spaced (list_ascii_of_string str) j.
End Values.

(** The documents that can be printed: integers fit into 64 bits, and [double f] for the
    doubles [f] in them. *)
Inductive printable (double : fl -> Prop) : json -> Prop :=
| printable_null : printable double JNull
| printable_bool : forall b, printable double (JBool b)
| printable_int : forall z, kept z -> printable double (JInt z)
| printable_double : forall f, double f -> printable double (JDbl f)
| printable_string : forall s, printable double (JStr s)
| printable_array : forall l, Forall (printable double) l -> printable double (JArr l)
| printable_object : forall l, Forall (fun p => printable double (snd p)) l -> printable double (JObj l).

(** A double that is printed as a number and read as the same double. *)
Definition faithful (print : fl -> list ascii) (nearest : list ascii -> option fl) (f : fl) : Prop :=
  number (print f) /\ (forall z, ~ integer (print f) z) /\ nearest (print f) = Some f.

Scheme value_ind' := Minimality for value Sort Prop
  with spaced_ind' := Minimality for spaced Sort Prop
  with items_ind' := Minimality for items Sort Prop
  with fields_ind' := Minimality for fields Sort Prop.
Combined Scheme grammar_ind from value_ind', spaced_ind', items_ind', fields_ind'.

(** The numbers in a value: integers of 64 bits, and doubles as [double] says. *)
Fixpoint numbers (double : fl -> Prop) (v : val) : Prop :=
  match v with
  | VInt z => kept z
  | VFlt f => double f
  | VList l | VObj l => fold_right (fun x P => numbers double x /\ P) True l
  | VMap l => fold_right (fun p P => numbers double (snd p) /\ P) True l
  | VVariant _ x | VSome x | VPtr x | VShared _ x => numbers double x
  | _ => True
  end.
