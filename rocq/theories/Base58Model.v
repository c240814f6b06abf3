(** * Model of base58 text (/repo/src/util/base58_util.go). *)
From Coq Require Import List NArith ZArith Bool.
From Coq Require Import Strings.Byte Strings.String.
From Verif Require Import Base EndianModel.
Import ListNotations.
Local Open Scope N_scope.

(** const alphabet, base58_util.go:7. Go strings are byte strings. *)
Definition b58_alphabet : bytes :=
  list_byte_of_string "123456789ABCDEFGHJKLMNPQRSTUVWXYZabcdefghijkmnopqrstuvwxyz"%string.
(** const alphabetIdx0, base58_util.go:9. *)
Definition b58_idx0 : byte := "1"%byte.

(** var b58, base58_util.go:12-45, row by row. *)
Definition b58_table : list N :=
  [255; 255; 255; 255; 255; 255; 255; 255;
   255; 255; 255; 255; 255; 255; 255; 255;
   255; 255; 255; 255; 255; 255; 255; 255;
   255; 255; 255; 255; 255; 255; 255; 255;
   255; 255; 255; 255; 255; 255; 255; 255;
   255; 255; 255; 255; 255; 255; 255; 255;
   255; 0; 1; 2; 3; 4; 5; 6;
   7; 8; 255; 255; 255; 255; 255; 255;
   255; 9; 10; 11; 12; 13; 14; 15;
   16; 255; 17; 18; 19; 20; 21; 255;
   22; 23; 24; 25; 26; 27; 28; 29;
   30; 31; 32; 255; 255; 255; 255; 255;
   255; 33; 34; 35; 36; 37; 38; 39;
   40; 41; 42; 43; 255; 44; 45; 46;
   47; 48; 49; 50; 51; 52; 53; 54;
   55; 56; 57; 255; 255; 255; 255; 255;
   255; 255; 255; 255; 255; 255; 255; 255;
   255; 255; 255; 255; 255; 255; 255; 255;
   255; 255; 255; 255; 255; 255; 255; 255;
   255; 255; 255; 255; 255; 255; 255; 255;
   255; 255; 255; 255; 255; 255; 255; 255;
   255; 255; 255; 255; 255; 255; 255; 255;
   255; 255; 255; 255; 255; 255; 255; 255;
   255; 255; 255; 255; 255; 255; 255; 255;
   255; 255; 255; 255; 255; 255; 255; 255;
   255; 255; 255; 255; 255; 255; 255; 255;
   255; 255; 255; 255; 255; 255; 255; 255;
   255; 255; 255; 255; 255; 255; 255; 255;
   255; 255; 255; 255; 255; 255; 255; 255;
   255; 255; 255; 255; 255; 255; 255; 255;
   255; 255; 255; 255; 255; 255; 255; 255;
   255; 255; 255; 255; 255; 255; 255; 255]%N.

(** [b58[c]]: the index is a byte and the array has 256 entries, so the access cannot fail. *)
Definition b58_lookup (c : byte) : N := nth (N.to_nat (b2n c)) b58_table 255.

(** The loop of Base58Encode, base58_util.go:57-61; big.Int is unbounded. [fuel] bounds the number of rounds; the
    caller passes the bit length of [x], and running out of fuel is reported as [Err] (never happens, see
    [b58_digits_spec]). The digits come out least significant first. *)
Fixpoint b58_digits (fuel : nat) (x : N) : res bytes :=
  if 0 <? x
  then match fuel with
       | O => Err
       | S fuel' =>
           let? c := go_index b58_alphabet (Z.of_N (x mod 58)) in
           let? rest := b58_digits fuel' (x / 58) in
           Ok (c :: rest)
       end
  else Ok [].

(** Number of leading elements equal to [z]: the loops base58_util.go:64-69 and 101-105. *)
Fixpoint leading (z : byte) (l : bytes) : nat :=
  match l with
  | [] => O
  | b :: l' => if byte_eqb b z then S (leading z l') else O
  end.

(** Base58Encode, base58_util.go:51-78. The in-place reversal of lines 72-75 is [rev]. *)
Definition base58_encode (b : bytes) : res bytes :=
  let x := be_get b in
  let? ds := b58_digits (N.to_nat (N.size x)) x in
  Ok (rev (ds ++ repeat b58_idx0 (leading x00 b))).

(** The loop of Base58Decode, base58_util.go:87-96, over the reversed text; [None] is [return nil]. *)
Fixpoint b58_sum (rb : bytes) (answer j : N) : option N :=
  match rb with
  | [] => Some answer
  | c :: rb' =>
      let tmp := b58_lookup c in
      if tmp =? 255 then None else b58_sum rb' (answer + j * tmp) (j * 58)
  end.

(** Base58Decode, base58_util.go:81-111. [None] is the nil slice. *)
Definition base58_decode (b : bytes) : gslice :=
  match b58_sum (rev b) 0 1 with
  | None => None
  | Some answer => Some (repeat x00 (leading b58_idx0 b) ++ big_bytes (Z.of_N answer))
  end.
