(** * Model of crc32.ChecksumIEEE (Go standard library, used by lc_util.go:238, 322, 361, 368 and pdb/sstable.go) and of package
    encoding/hex. *)
From Coq Require Import List NArith Bool.
From Coq Require Import Strings.Byte.
From Verif Require Import Base.
Import ListNotations.
Local Open Scope N_scope.

(** The reflected CRC-32 with polynomial 0xEDB88320, one bit at a time. The library uses tables, which compute the same function. *)
Definition crc_poly : N := 0xEDB88320.
Definition crc_bit (s : N) : N := if N.odd s then N.lxor (N.div2 s) crc_poly else N.div2 s.
Fixpoint crc_bits (k : nat) (s : N) : N := match k with O => s | S k' => crc_bits k' (crc_bit s) end.
Definition crc_byte (s : N) (b : byte) : N := crc_bits 8 (N.lxor s (b2n b)).
Definition crc_mask : N := 0xFFFFFFFF.
Definition crc32 (l : bytes) : N := N.lxor (fold_left crc_byte l crc_mask) crc_mask.

(** The published check value: the CRC of "123456789". *)
Example crc32_check : crc32 [x31; x32; x33; x34; x35; x36; x37; x38; x39] = 0xCBF43926.
Proof. reflexivity. Qed.

(** hex.Decode: two digits of either case per byte; an odd length or another character is an error. *)
Definition hex_val (c : byte) : option N :=
  let n := b2n c in
  if (48 <=? n) && (n <=? 57) then Some (n - 48)
  else if (65 <=? n) && (n <=? 70) then Some (n - 55)
  else if (97 <=? n) && (n <=? 102) then Some (n - 87)
  else None.
Fixpoint hex_decode (t : bytes) : res bytes :=
  match t with
  | [] => Ok []
  | [_] => Err
  | a :: b :: t' =>
      match hex_val a, hex_val b with
      | Some x, Some y => let? r := hex_decode t' in Ok (n2b (16 * x + y) :: r)
      | _, _ => Err
      end
  end.
(** The verb %X on a byte slice: two upper case digits per byte. *)
Definition hex_digit (n : N) : byte := if n <? 10 then n2b (48 + n) else n2b (55 + n).
Fixpoint hex_encode (l : bytes) : bytes :=
  match l with [] => [] | b :: l' => hex_digit (b2n b / 16) :: hex_digit (b2n b mod 16) :: hex_encode l' end.
