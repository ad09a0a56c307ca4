(** What is wrong with a text that is not JSON: where a value, a name, a colon, a comma or a
    closing mark is due, and what is there instead. *)
From Coq Require Import List Arith ZArith Ascii String Bool.
From Verif Require Import Float Json TextSpec ReaderModel.
Import ListNotations.
Local Open Scope char_scope.

(** A string with its quotation marks. *)
Definition marked (k : list ascii) : list ascii := """" :: k ++ [""""].

(** The first character is one that satisfies [P]. *)
Definition next (P : ascii -> Prop) (t : list ascii) : Prop := exists c r, t = c :: r /\ P c.
Definition next_is (c : ascii) (t : list ascii) : Prop := next (eq c) t.

Definition white (c : ascii) : Prop := blank [c].

(** The text before ends with this character and white space. *)
Definition just_after (c : ascii) (p : list ascii) : Prop := exists p0 w, p = p0 ++ c :: w /\ blank w.

(** The number [x] is at an end: no number starts with it and the next character. *)
Definition whole (x t : list ascii) : Prop := ~ next (fun c => exists z, number (x ++ c :: z)) t.

Section Places.
Variable nearest : list ascii -> option fl.

(** After [p] a value is due: at the start, after the opening bracket of an array that is a
    value itself, after a comma in it, and after the colon of a member. After [p] a name is
    due: after the opening brace of an object, and after a comma in it. *)
Inductive value_place : list ascii -> Prop :=
| place_root : forall w, blank w -> value_place w
| place_first : forall p w, value_place p -> blank w -> value_place (p ++ "[" :: w)
| place_next : forall p s l w, value_place p -> items nearest s l -> blank w -> value_place (p ++ "[" :: s ++ "," :: w)
| place_member : forall p k b w w', name_place p -> chars k b -> blank w -> blank w' -> value_place (p ++ marked k ++ w ++ ":" :: w')
with name_place : list ascii -> Prop :=
| name_first : forall p w, value_place p -> blank w -> name_place (p ++ "{" :: w)
| name_next : forall p s l w, value_place p -> fields nearest s l -> blank w -> name_place (p ++ "{" :: s ++ "," :: w).

(** The text is cut in two within a number. *)
Definition torn (p t : list ascii) : Prop := exists p0 x, value_place p0 /\ number x /\ p = p0 ++ x /\ ~ whole x t.

(** The characters that a value starts with. *)
Definition opener (c : ascii) : Prop := In c ["n"; "t"; "f"; """"; "["; "{"; "-"] \/ digit c.

Definition literals : list (list ascii) := [["n"; "u"; "l"; "l"]; ["t"; "r"; "u"; "e"]; ["f"; "a"; "l"; "s"; "e"]].

(** Within a string, after its opening mark and the characters [k]. *)
Definition in_string (p : list ascii) : Prop := exists p0 k b, (value_place p0 \/ name_place p0) /\ chars k b /\ p = p0 ++ """" :: k.

(** Four hexadecimal digits. *)
Definition four (t : list ascii) : Prop := exists a b c d x r, t = a :: b :: c :: d :: r /\ hex_value4 a b c d x.

(** The escape sequence of a 16-bit unit that satisfies [P], and what is after it. *)
Definition unit_ (P : Z -> Prop) (t r : list ascii) : Prop :=
  exists a b c d x, t = "\" :: "u" :: a :: b :: c :: d :: r /\ hex_value4 a b c d x /\ P x.
Definition high (x : Z) : Prop := (55296 <= x < 56320)%Z.
Definition low (x : Z) : Prop := (56320 <= x < 57344)%Z.

Definition unit_start (t r : list ascii) : Prop := t = "\" :: "u" :: r.

(** The text [p ++ t] is wrong at [t]: what each error says. *)
Definition wrong (f : fault) (p t : list ascii) : Prop :=
  match f with
  | DocumentEmpty => blank p /\ t = []
  | RootNotSingular => (exists j, spaced nearest p j) /\ t <> [] /\ ~ next white t /\ ~ torn p t
  | ValueInvalid =>
    (* a value is due, but none starts here, *)
    (value_place p /\ ~ (blank p /\ t = []) /\ ~ next white t /\ ~ next opener t /\ ~ (next_is "]" t /\ just_after "[" p)) \/
    (* or a word is not the one that it starts like, *)
    (exists p0 q c y, value_place p0 /\ q <> [] /\ In (q ++ c :: y) literals /\ p = p0 ++ q /\ ~ next_is c t) \/
    (* or there are no digits after a minus. *)
    (exists p0, value_place p0 /\ p = p0 ++ ["-"] /\ ~ next digit t)
  | MissName => name_place p /\ ~ next white t /\ ~ next_is """" t /\ ~ (next_is "}" t /\ just_after "{" p)
  | MissColon => exists p0 k b w, name_place p0 /\ chars k b /\ blank w /\ p = p0 ++ marked k ++ w /\ ~ next white t /\ ~ next_is ":" t
  | MissCommaOrCurlyBracket => exists p0 s l, value_place p0 /\ fields nearest s l /\ p = p0 ++ "{" :: s /\ ~ next white t /\
      ~ next_is "," t /\ ~ next_is "}" t /\ ~ torn p t
  | MissCommaOrSquareBracket => exists p0 s l, value_place p0 /\ items nearest s l /\ p = p0 ++ "[" :: s /\ ~ next white t /\
      ~ next_is "," t /\ ~ next_is "]" t /\ ~ torn p t
  | MissFraction => exists p0 sign ds, value_place p0 /\ In sign [[]; ["-"]] /\ integer_part ds /\ p = p0 ++ sign ++ ds ++ ["."] /\ ~ next digit t
  | MissExponent => exists p0 sign ds fr e sg, value_place p0 /\ In sign [[]; ["-"]] /\ integer_part ds /\ fraction fr /\ In e ["e"; "E"] /\
      In sg [[]; ["+"]; ["-"]] /\ p = p0 ++ sign ++ ds ++ fr ++ e :: sg /\ ~ next digit t /\ (sg = [] -> ~ next_is "+" t /\ ~ next_is "-" t)
  | TooBig => value_place p /\ exists x r, t = x ++ r /\ number x /\ nearest x = None /\ (forall z, integer x z -> ~ kept z) /\ whole x r
  | MissQuotationMark => in_string p /\ t = []
  | InvalidEncoding => in_string p /\ next (fun c => (code c < 32)%Z) t
  | EscapeInvalid => in_string p /\ exists r, t = "\" :: r /\ ~ next (fun c => c = "u" \/ exists z, In (c, z) short_escapes) r
  | InvalidHex => in_string p /\
      ((exists r, unit_start t r /\ ~ four r) \/ (exists r r', unit_ high t r /\ unit_start r r' /\ ~ four r'))
  | SurrogateInvalid => in_string p /\
      ((exists r, unit_ low t r) \/
       (exists r, unit_ high t r /\ ~ (exists r', unit_start r r')) \/
       (exists r r', unit_ high t r /\ unit_ (fun y => ~ low y) r r'))
  end.
End Places.

Scheme value_place_ind' := Minimality for value_place Sort Prop
  with name_place_ind' := Minimality for name_place Sort Prop.
Combined Scheme places_ind from value_place_ind', name_place_ind'.
