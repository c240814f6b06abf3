(** * SHA-256 and MD5 as FIPS 180-4 and RFC 1321 describe them, independently of the model. *)
From Coq Require Import List NArith ZArith Bool Sorted Znumtheory.
From Coq Require Import Strings.Byte.
Import ListNotations.
Local Open Scope N_scope.
Local Open Scope list_scope.

(** ** Words of 32 bits, given bit by bit *)
Definition word_of (f : nat -> bool) : N := fold_right (fun i a => N.b2n (f i) + 2 * a) 0 (seq 0 32).
Definition bit (x : N) (i : nat) : bool := N.testbit x (N.of_nat i).
Definition is_word (x : N) : Prop := x < 2 ^ 32.
Definition ROTR (n : nat) (x : N) : N := word_of (fun i => bit x (Nat.modulo (i + n) 32)).
Definition ROTL (n : nat) (x : N) : N := word_of (fun i => bit x (Nat.modulo (i + (32 - n)) 32)).
Definition SHR (n : nat) (x : N) : N := word_of (fun i => Nat.ltb (i + n) 32 && bit x (i + n)).
Definition xor3 (x y z : N) : N := word_of (fun i => xorb (xorb (bit x i) (bit y i)) (bit z i)).
Definition Ch (x y z : N) : N := word_of (fun i => if bit x i then bit y i else bit z i).
Definition Maj (x y z : N) : N := word_of (fun i => Nat.leb 2 (Nat.b2n (bit x i) + Nat.b2n (bit y i) + Nat.b2n (bit z i))).

(** ** Padding and chaining, common to both *)
(** The data, a one bit, as few zero bits as it takes, and the length in bits, in blocks of 64 bytes. *)
Definition is_padded (length_field : N -> list byte) (m p : list byte) : Prop :=
  exists k, (k < 64)%nat /\ p = m ++ x80 :: repeat x00 k ++ length_field (8 * N.of_nat (List.length m)) /\
            Nat.modulo (List.length p) 64 = 0%nat.
Inductive chain (step : list N -> list byte -> list N -> Prop) : list N -> list byte -> list N -> Prop :=
| chain_end : forall h, chain step h [] h
| chain_block : forall h b h1 l h2, step h b h1 -> chain step h1 l h2 -> chain step h (b ++ l) h2.
(** Bytes of a number, most or least significant first. *)
Definition byte_at (x : N) (j : nat) : byte := match Byte.of_N ((x / 256 ^ N.of_nat j) mod 256) with Some b => b | None => x00 end.
Definition big_endian (k : nat) (x : N) : list byte := map (byte_at x) (rev (seq 0 k)).
Definition little_endian (k : nat) (x : N) : list byte := map (byte_at x) (seq 0 k).
(** Word [t] of a block. *)
Definition octet (b : list byte) (i : nat) : N := Byte.to_N (nth i b x00).
Definition be_word (b : list byte) (t : nat) : N :=
  octet b (4 * t) * 2 ^ 24 + octet b (4 * t + 1) * 2 ^ 16 + octet b (4 * t + 2) * 2 ^ 8 + octet b (4 * t + 3).
Definition le_word (b : list byte) (t : nat) : N :=
  octet b (4 * t) + octet b (4 * t + 1) * 2 ^ 8 + octet b (4 * t + 2) * 2 ^ 16 + octet b (4 * t + 3) * 2 ^ 24.

(** ** SHA-256 *)
(** The constants: the first 32 bits of the fractional parts of the square roots of the first 8 primes (5.3.3) and of the cube roots of the first 64 (4.2.2). *)
Definition first_primes (n : nat) (ps : list Z) : Prop :=
  List.length ps = n /\ StronglySorted Z.lt ps /\ forall q, (q <= last ps 0%Z)%Z -> (prime q <-> In q ps).
Definition is_root_fraction (e : N) (p : Z) (k : N) : Prop :=
  is_word k /\ exists i, (i * 2 ^ 32 + k) ^ e <= Z.to_N p * 2 ^ (32 * e) < (i * 2 ^ 32 + k + 1) ^ e.
Definition is_sha_constants (iv k : list N) : Prop :=
  exists ps, first_primes 64 ps /\ Forall2 (is_root_fraction 2) (firstn 8 ps) iv /\ Forall2 (is_root_fraction 3) ps k.
(** 4.1.2 *)
Definition Sigma0 (x : N) : N := xor3 (ROTR 2 x) (ROTR 13 x) (ROTR 22 x).
Definition Sigma1 (x : N) : N := xor3 (ROTR 6 x) (ROTR 11 x) (ROTR 25 x).
Definition sigma0 (x : N) : N := xor3 (ROTR 7 x) (ROTR 18 x) (SHR 3 x).
Definition sigma1 (x : N) : N := xor3 (ROTR 17 x) (ROTR 19 x) (SHR 10 x).
(** 6.2.2: the message schedule and the 64 rounds. *)
Definition is_sha_round (k w : N) (s s' : list N) : Prop :=
  exists a b c d e f g h, s = [a; b; c; d; e; f; g; h] /\
    let T1 := h + Sigma1 e + Ch e f g + k + w in
    let T2 := Sigma0 a + Maj a b c in
    s' = [(T1 + T2) mod 2 ^ 32; a; b; c; (d + T1) mod 2 ^ 32; e; f; g].
Definition is_sha_step (k : list N) (H : list N) (b : list byte) (H' : list N) : Prop :=
  List.length b = 64%nat /\ List.length H = 8%nat /\ Forall is_word H /\
  exists (W : nat -> N) (s : nat -> list N),
    (forall t, (t < 16)%nat -> W t = be_word b t) /\
    (forall t, (16 <= t < 64)%nat -> W t = (sigma1 (W (t - 2)%nat) + W (t - 7)%nat + sigma0 (W (t - 15)%nat) + W (t - 16)%nat) mod 2 ^ 32) /\
    s 0%nat = H /\ (forall t, (t < 64)%nat -> is_sha_round (nth t k 0) (W t) (s t) (s (S t))) /\
    List.length H' = 8%nat /\ forall i, (i < 8)%nat -> nth i H' 0 = (nth i (s 64%nat) 0 + nth i H 0) mod 2 ^ 32.
Definition is_sha256 (m d : list byte) : Prop :=
  exists iv k p H, is_sha_constants iv k /\ is_padded (big_endian 8) m p /\ chain (is_sha_step k) iv p H /\ d = flat_map (big_endian 4) H.

(** ** MD5, RFC 1321, section 3 *)
Definition md5_F (x y z : N) : N := word_of (fun i => (bit x i && bit y i) || (negb (bit x i) && bit z i)).
Definition md5_G (x y z : N) : N := word_of (fun i => (bit x i && bit z i) || (bit y i && negb (bit z i))).
Definition md5_H (x y z : N) : N := word_of (fun i => xorb (xorb (bit x i) (bit y i)) (bit z i)).
Definition md5_I (x y z : N) : N := word_of (fun i => xorb (bit y i) (bit x i || negb (bit z i))).
(** [abcd k s i] with the function [f]: a = b + ((a + f(b,c,d) + X[k] + T[i]) <<< s); the next operation has the registers dabc. *)
Definition operation (f : N -> N -> N -> N) (x t : N) (s : nat) (r r' : list N) : Prop :=
  exists a b c d, r = [a; b; c; d] /\ r' = [d; (b + ROTL s ((a + f b c d + x + t) mod 2 ^ 32)) mod 2 ^ 32; b; c].
(** The operations in the order of the document: for each of the four rounds the pairs [k s], the [i] just counting. *)
Definition round1 : list (nat * nat) := [(0,7);(1,12);(2,17);(3,22);(4,7);(5,12);(6,17);(7,22);(8,7);(9,12);(10,17);(11,22);(12,7);(13,12);(14,17);(15,22)]%nat.
Definition round2 : list (nat * nat) := [(1,5);(6,9);(11,14);(0,20);(5,5);(10,9);(15,14);(4,20);(9,5);(14,9);(3,14);(8,20);(13,5);(2,9);(7,14);(12,20)]%nat.
Definition round3 : list (nat * nat) := [(5,4);(8,11);(11,16);(14,23);(1,4);(4,11);(7,16);(10,23);(13,4);(0,11);(3,16);(6,23);(9,4);(12,11);(15,16);(2,23)]%nat.
Definition round4 : list (nat * nat) := [(0,6);(7,10);(14,15);(5,21);(12,6);(3,10);(10,15);(1,21);(8,6);(15,10);(6,15);(13,21);(4,6);(11,10);(2,15);(9,21)]%nat.
Definition md5_operations : list ((N -> N -> N -> N) * (nat * nat)) :=
  map (pair md5_F) round1 ++ map (pair md5_G) round2 ++ map (pair md5_H) round3 ++ map (pair md5_I) round4.
Definition is_md5_step (T : list N) (H : list N) (b : list byte) (H' : list N) : Prop :=
  List.length b = 64%nat /\ List.length H = 4%nat /\ Forall is_word H /\
  exists r : nat -> list N, r 0%nat = H /\
    (forall i f k s, nth_error md5_operations i = Some (f, (k, s)) -> operation f (le_word b k) (nth i T 0) s (r i) (r (S i))) /\
    List.length H' = 4%nat /\ forall i, (i < 4)%nat -> nth i H' 0 = (nth i (r 64%nat) 0 + nth i H 0) mod 2 ^ 32.
(** [T]: 4294967296 times abs(sin(i)), see DigestModel.md5_t; the sine is not modelled. *)
Definition is_md5 (T : list N) (m d : list byte) : Prop :=
  exists p H, is_padded (little_endian 8) m p /\ chain (is_md5_step T) [0x67452301; 0xefcdab89; 0x98badcfe; 0x10325476] p H /\ d = flat_map (little_endian 4) H.

(** ** Collisions of one step *)
Definition step_collision (step : list N -> list byte -> list N -> Prop) : Prop :=
  exists h b h' b' o, step h b o /\ step h' b' o /\ (h, b) <> (h', b').
