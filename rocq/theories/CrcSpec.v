(** * The cyclic redundancy check of IEEE 802.3, by polynomials over GF(2), independent of the model. *)
From Coq Require Import List NArith.
From Coq Require Import Strings.Byte.
Import ListNotations.
Local Open Scope N_scope.

(** A polynomial is a number: bit i is the coefficient of x^i. Addition is [N.lxor]. *)
Fixpoint pmul_pos (a : positive) (b : N) : N :=
  match a with
  | xH => b
  | xO a' => 2 * pmul_pos a' b
  | xI a' => N.lxor b (2 * pmul_pos a' b)
  end.
Definition pmul (a b : N) : N := match a with 0 => 0 | Npos p => pmul_pos p b end.
Definition congruent (g a b : N) : Prop := exists q, N.lxor a b = pmul q g.

(** The generator x^32 + x^26 + x^23 + x^22 + x^16 + x^12 + x^11 + x^10 + x^8 + x^7 + x^5 + x^4 + x^2 + x + 1. *)
Definition g32 : N :=
  2 ^ 32 + 2 ^ 26 + 2 ^ 23 + 2 ^ 22 + 2 ^ 16 + 2 ^ 12 + 2 ^ 11 + 2 ^ 10 + 2 ^ 8 + 2 ^ 7 + 2 ^ 5 + 2 ^ 4 + 2 ^ 2 + 2 + 1.
(** The message: the bits of the bytes in order, the least significant bit of each byte first, are the coefficients from the highest on. *)
Definition byte_bits (b : byte) : list bool := map (N.testbit (Byte.to_N b)) [0; 1; 2; 3; 4; 5; 6; 7].
Definition message (l : list byte) : N := fold_left (fun m b => 2 * m + N.b2n b) (flat_map byte_bits l) 0.
(** The k coefficients of a polynomial in reverse order. *)
Fixpoint reflect (k : nat) (s : N) : N :=
  match k with O => 0 | S k' => N.lxor (N.b2n (N.odd s) * 2 ^ N.of_nat k') (reflect k' (N.div2 s)) end.
Definition ones32 : N := 2 ^ 32 - 1.

(** [c] is the CRC-32 of [l]: the reversed complement of [c] is the remainder, by the generator, of the message times x^32 with its first 32
    coefficients complemented. *)
Definition is_crc32 (l : list byte) (c : N) : Prop :=
  c < 2 ^ 32 /\
  congruent g32 (N.lxor (2 ^ 32 * message l) (2 ^ N.of_nat (8 * length l) * ones32)) (N.lxor (reflect 32 c) ones32).
