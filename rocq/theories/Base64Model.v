(** Model of include/persistence/base64.hpp.

    Memory is explicit: a buffer is a list of bytes, a store or load outside
    the buffer gives [None] (undefined behaviour). *)
From Coq Require Import List NArith Ascii String Bool.
From Verif Require Import Base.
Import ListNotations.
Local Open Scope N_scope.

(** base64.hpp:10-21, the byte order of the machine. *)
Inductive endianness := little | big.

(** base64.hpp:23-28, [encode_table]. *)
Definition encode_table : list byte :=
  list_ascii_of_string "ABCDEFGHIJKLMNOPQRSTUVWXYZabcdefghijklmnopqrstuvwxyz0123456789+/".

(** Indexing of [encode_table]; every index used is below 64, the default
    is never reached (an out-of-range index would be undefined). *)
Definition enc_char (i : N) : byte := nth (N.to_nat i) encode_table Ascii.zero.

(** Store a list of characters at consecutive positions ([*out++ = c]). *)
Fixpoint store_all (buf : list byte) (r : nat) (cs : list byte) : option (list byte) :=
  match cs with
  | [] => Some buf
  | c :: cs' => do! buf' <- store buf r c; store_all buf' (S r) cs'
  end.

(** base64.hpp:38-48, [encode_triplet]; arguments are byte values. *)
Definition encode_triplet (a b c : N) (buf : list byte) (r : nat) : option (list byte) :=
  store_all buf r
    [ enc_char (N.shiftr a 2);
      enc_char (N.lor (N.shiftl (N.land a 3) 4) (N.shiftr b 4));
      enc_char (N.lor (N.shiftl (N.land b 15) 2) (N.shiftr c 6));
      enc_char (N.land c 63) ].

(** base64.hpp:56-66, [encode_sextet_big_endian]. *)
Definition encode_sextet_big_endian (value : N) (buf : list byte) (r : nat) : option (list byte) :=
  store_all buf r
    [ enc_char (N.land (N.shiftr value 58) 63);
      enc_char (N.land (N.shiftr value 52) 63);
      enc_char (N.land (N.shiftr value 46) 63);
      enc_char (N.land (N.shiftr value 40) 63);
      enc_char (N.land (N.shiftr value 34) 63);
      enc_char (N.land (N.shiftr value 28) 63);
      enc_char (N.land (N.shiftr value 22) 63);
      enc_char (N.land (N.shiftr value 16) 63) ].

(** base64.hpp:74-84, [encode_sextet_little_endian]. *)
Definition encode_sextet_little_endian (value : N) (buf : list byte) (r : nat) : option (list byte) :=
  store_all buf r
    [ enc_char (N.land (N.shiftr value 2) 63);
      enc_char (N.lor (N.shiftl (N.land value 3) 4) (N.land (N.shiftr value 12) 15));
      enc_char (N.lor (N.shiftl (N.land (N.shiftr value 8) 15) 2) (N.land (N.shiftr value 22) 3));
      enc_char (N.land (N.shiftr value 16) 63);
      enc_char (N.land (N.shiftr value 26) 63);
      enc_char (N.lor (N.shiftl (N.land (N.shiftr value 24) 3) 4) (N.land (N.shiftr value 36) 15));
      enc_char (N.lor (N.shiftl (N.land (N.shiftr value 32) 15) 2) (N.land (N.shiftr value 46) 3));
      enc_char (N.land (N.shiftr value 40) 63) ].

(** Value of eight consecutive bytes as a 64-bit word in either byte order. *)
Fixpoint le_value (bs : list byte) : N :=
  match bs with
  | [] => 0
  | b :: bs' => byte_val b + 256 * le_value bs'
  end.

Definition be_value (bs : list byte) : N := le_value (rev bs).

(** base64.hpp:115, the 64-bit load [*reinterpret_cast<const uint64_t*>(p)]. All eight
    bytes must be readable. Alignment and aliasing rules are not modelled. *)
Definition load64 (e : endianness) (mem : list byte) (p : nat) : option N :=
  if Nat.leb (p + 8) (List.length mem) then
    let w := firstn 8 (skipn p mem) in
    Some (match e with little => le_value w | big => be_value w end)
  else None.

(** base64.hpp:116-120. *)
Definition encode_sextet (e : endianness) (value : N) (buf : list byte) (r : nat) : option (list byte) :=
  match e with
  | little => encode_sextet_little_endian value buf r
  | big => encode_sextet_big_endian value buf r
  end.

(** base64.hpp:113-123, the loop over 64-bit words. *)
Fixpoint fast_loop (e : endianness) (mem : list byte) (k p r : nat) (buf : list byte)
  : option (list byte) :=
  match k with
  | O => Some buf
  | S k' =>
    do! value <- load64 e mem p;
    do! buf' <- encode_sextet e value buf r;
    fast_loop e mem k' (p + 6) (r + 8) buf'
  end.

(** base64.hpp:125-132, the loop over the remaining full triplets. *)
Fixpoint triplet_loop (mem : list byte) (k p r : nat) (buf : list byte) : option (list byte) :=
  match k with
  | O => Some buf
  | S k' =>
    do! a <- load mem p;
    do! b <- load mem (p + 1);
    do! c <- load mem (p + 2);
    do! buf' <- encode_triplet (byte_val a) (byte_val b) (byte_val c) buf r;
    triplet_loop mem k' (p + 3) (r + 4) buf'
  end.

(** base64.hpp:94-150, [base64_encode]. [input] is the view, [tail] is the readable
    memory that happens to follow it. The boolean result is always true. The output
    is cleared first (line 98), so its old content does not enter the model. *)
Definition base64_encode (e : endianness) (input tail : list byte) : option (list byte) :=
  let size := List.length input in
  if Nat.eqb size 0 then Some []
  else
    let fast_sextets := (Nat.div size 24 * 4)%nat in
    let full_triplets := Nat.div size 3 in
    let remaining_triplets := (full_triplets - fast_sextets * 2)%nat in
    let remaining_bytes := Nat.modulo size 3 in
    let output_size := (full_triplets * 4 + (if Nat.ltb 0 remaining_bytes then 4 else 0))%nat in
    let mem := input ++ tail in
    let buf0 := repeat Ascii.zero output_size in
    do! buf1 <- fast_loop e mem fast_sextets 0 0 buf0;
    do! buf2 <- triplet_loop mem remaining_triplets (6 * fast_sextets) (8 * fast_sextets) buf1;
    let r := (8 * fast_sextets + 4 * remaining_triplets)%nat in
    if Nat.eqb remaining_bytes 2 then
      do! a <- load input (size - 2);
      do! b <- load input (size - 1);
      do! buf3 <- encode_triplet (byte_val a) (byte_val b) 0 buf2 r;
      store buf3 (r + 3) "="%char
    else if Nat.eqb remaining_bytes 1 then
      do! a <- load input (size - 1);
      do! buf3 <- encode_triplet (byte_val a) 0 0 buf2 r;
      do! buf4 <- store buf3 (r + 2) "="%char;
      store buf4 (r + 3) "="%char
    else Some buf2.

(** base64.hpp:190-207, [decode_table], row by row. *)
Definition decode_table : list N :=
  repeat 255 32 ++
  repeat 255 11 ++ [62] ++ repeat 255 3 ++ [63] ++
  [52; 53; 54; 55; 56; 57; 58; 59; 60; 61] ++ repeat 255 6 ++
  [255; 0; 1; 2; 3; 4; 5; 6; 7; 8; 9; 10; 11; 12; 13; 14] ++
  [15; 16; 17; 18; 19; 20; 21; 22; 23; 24; 25; 255; 255; 255; 255; 255] ++
  [255; 26; 27; 28; 29; 30; 31; 32; 33; 34; 35; 36; 37; 38; 39; 40] ++
  [41; 42; 43; 44; 45; 46; 47; 48; 49; 50; 51; 255; 255; 255; 255; 255] ++
  repeat 255 128.

Definition dec_val (c : byte) : N := nth (N.to_nat (byte_val c)) decode_table 255.

(** Conversion of an [int] to [std::byte]. *)
Definition to_byte (v : N) : byte := ascii_of_N (v mod 256).

(** base64.hpp:218-233, [decode_quadruplet]: success flag and buffer. *)
Definition decode_quadruplet (a b c d : byte) (buf : list byte) (r : nat)
  : option (bool * list byte) :=
  let out_a := dec_val a in
  let out_b := dec_val b in
  let out_c := dec_val c in
  let out_d := dec_val d in
  if negb (N.land (N.lor (N.lor (N.lor out_a out_b) out_c) out_d) 192 =? 0) then Some (false, buf)
  else
    do! buf' <- store_all buf r
      [ to_byte (N.lor (N.shiftl out_a 2) (N.shiftr out_b 4));
        to_byte (N.lor (N.shiftl (N.land out_b 15) 4) (N.shiftr out_c 2));
        to_byte (N.lor (N.shiftl (N.land out_c 3) 6) out_d) ];
    Some (true, buf').

(** base64.hpp:262-275, the loop over all but the last quadruplet; gives the flag,
    the buffer and the write position. *)
Fixpoint quad_loop (input : list byte) (k p r : nat) (buf : list byte)
  : option (bool * list byte) :=
  match k with
  | O => Some (true, buf)
  | S k' =>
    do! a <- load input p;
    do! b <- load input (p + 1);
    do! c <- load input (p + 2);
    do! d <- load input (p + 3);
    do! res <- decode_quadruplet a b c d buf r;
    if fst res then quad_loop input k' (p + 4) (r + 3) (snd res)
    else Some (false, snd res)
  end.

(** [vector::pop_back]; undefined on an empty vector. *)
Definition pop_back (buf : list byte) : option (list byte) :=
  match buf with
  | [] => None
  | _ => Some (removelast buf)
  end.

(** base64.hpp:243-321, [base64_decode]: result flag and final output content. *)
Definition base64_decode (input : list byte) : option (bool * list byte) :=
  let size := List.length input in
  if Nat.eqb size 0 then Some (true, [])
  else if negb (Nat.eqb (Nat.modulo size 4) 0) then Some (false, [])
  else
    let quadruplets := Nat.div size 4 in
    let buf0 := repeat Ascii.zero (quadruplets * 3) in
    do! res <- quad_loop input (quadruplets - 1) 0 0 buf0;
    if negb (fst res) then Some res
    else
      let r := ((quadruplets - 1) * 3)%nat in
      do! c4 <- load input (size - 4);
      do! c3 <- load input (size - 3);
      do! c2 <- load input (size - 2);
      do! c1 <- load input (size - 1);
      if Ascii.eqb c2 "=" then
        if negb (Ascii.eqb c1 "=") then Some (false, snd res)
        else
          do! res2 <- decode_quadruplet c4 c3 "A" "A" (snd res) r;
          if fst res2 then
            do! o1 <- pop_back (snd res2);
            do! o2 <- pop_back o1;
            Some (true, o2)
          else Some (false, snd res2)
      else if Ascii.eqb c1 "=" then
        do! res2 <- decode_quadruplet c4 c3 c2 "A" (snd res) r;
        if fst res2 then
          do! o1 <- pop_back (snd res2);
          Some (true, o1)
        else Some (false, snd res2)
      else decode_quadruplet c4 c3 c2 c1 (snd res) r.
