(** RFC 4648 base64, written from the RFC and independent of the model. *)
From Coq Require Import List Arith NArith Ascii String Bool.
From Verif Require Import Base.
Import ListNotations.

(** Eight bits of a byte, most significant first. *)
Definition bits8 (b : byte) : list bool :=
  match b with Ascii b0 b1 b2 b3 b4 b5 b6 b7 => [b7; b6; b5; b4; b3; b2; b1; b0] end.

(** Number written by a list of bits, most significant first. *)
Fixpoint bits_val_aux (acc : N) (bs : list bool) : N :=
  match bs with
  | [] => acc
  | b :: bs' => bits_val_aux (2 * acc + (if b then 1 else 0)) bs'
  end.
Definition bits_val := bits_val_aux 0.

(** RFC 4648 table 1. *)
Definition alphabet (v : N) : ascii :=
  if (v <? 26)%N then ascii_of_N (65 + v)
  else if (v <? 52)%N then ascii_of_N (97 + (v - 26))
  else if (v <? 62)%N then ascii_of_N (48 + (v - 52))
  else if (v =? 62)%N then "+"%char
  else "/"%char.

(** Cut a bit string in groups of six, the last one filled with zero bits. *)
Fixpoint sextets (bs : list bool) : list (list bool) :=
  match bs with
  | [] => []
  | [a] => [[a; false; false; false; false; false]]
  | [a; b] => [[a; b; false; false; false; false]]
  | [a; b; c] => [[a; b; c; false; false; false]]
  | [a; b; c; d] => [[a; b; c; d; false; false]]
  | [a; b; c; d; e] => [[a; b; c; d; e; false]]
  | a :: b :: c :: d :: e :: f :: r => [a; b; c; d; e; f] :: sextets r
  end.

(** Encoding: characters of the groups, then '=' up to a multiple of four. *)
Definition rfc4648 (data : list byte) : list ascii :=
  let chars := map (fun g => alphabet (bits_val g)) (sextets (flat_map bits8 data)) in
  chars ++ repeat "="%char ((4 - List.length chars mod 4) mod 4).

(** The value of a character of the alphabet. *)
Definition char_value (c : ascii) (v : N) : Prop := (v < 64)%N /\ alphabet v = c.

(** Six bits of a number below 64, most significant first. *)
Definition bits6 (v : N) : list bool :=
  [N.testbit v 5; N.testbit v 4; N.testbit v 3; N.testbit v 2; N.testbit v 1; N.testbit v 0].

(** Whole bytes of a bit string; fewer than eight remaining bits are dropped. *)
Fixpoint whole_bytes (bs : list bool) : list byte :=
  match bs with
  | b7 :: b6 :: b5 :: b4 :: b3 :: b2 :: b1 :: b0 :: r =>
      Ascii b0 b1 b2 b3 b4 b5 b6 b7 :: whole_bytes r
  | _ => []
  end.

(** The bits left over after the whole bytes. *)
Fixpoint left_over (bs : list bool) : list bool :=
  match bs with
  | _ :: _ :: _ :: _ :: _ :: _ :: _ :: _ :: r => left_over r
  | _ => bs
  end.

(** [decodes text values data]: text is characters with the given 6-bit values
    followed by at most two '=', of length a multiple of four, and spells [data]. *)
Definition decodes (text : list ascii) (values : list N) (data : list byte) : Prop :=
  exists body pads,
    text = body ++ repeat "="%char pads /\ (pads <= 2)%nat /\
    (List.length text mod 4 = 0)%nat /\
    Forall2 char_value body values /\
    data = whole_bytes (flat_map bits6 values).

(** An accepted text whose unused trailing bits are all zero. *)
Definition trailing_zero (text : list ascii) : Prop :=
  exists values data, decodes text values data /\
    Forall (fun b => b = false) (left_over (flat_map bits6 values)).

(** Largest number of bytes the encoder touches after the end of its input. *)
Definition over_read (n : nat) : nat :=
  if Nat.ltb n 24 then 0
  else match Nat.modulo n 24 with
       | 0 => 2
       | 1 => 1
       | _ => 0
       end.
