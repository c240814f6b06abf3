(** * AES and GCM as FIPS 197 and NIST SP 800-38D describe them, independently of the model. *)
From Coq Require Import List NArith Bool.
From Coq Require Import Strings.Byte.
Import ListNotations.
Local Open Scope N_scope.

(** ** The field of 256 elements: a byte is a polynomial over the field of two elements, bit [i] the coefficient of x^i *)
Fixpoint poly_product (n : nat) (a b : N) : N :=
  match n with
  | O => 0
  | S n' => N.lxor (poly_product n' a b) (if N.testbit a (N.of_nat n') then N.shiftl b (N.of_nat n') else 0)
  end.
(** Subtract multiples of x^8 + x^4 + x^3 + x + 1 until the degree is below 8. *)
Fixpoint poly_reduce (n : nat) (p : N) : N :=
  match n with
  | O => p
  | S n' => poly_reduce n' (if N.testbit p (N.of_nat (8 + n')) then N.lxor p (N.shiftl 0x11b (N.of_nat n')) else p)
  end.
Definition gmul (a b : N) : N := poly_reduce 7 (poly_product 8 a b).
(** The S-box (5.1.1): the multiplicative inverse, then bit [i] becomes b_i + b_(i+4) + b_(i+5) + b_(i+6) + b_(i+7) + c_i with c = 63 hex. *)
Definition affine_bit (b i : N) : bool :=
  xorb (xorb (xorb (N.testbit b i) (N.testbit b ((i + 4) mod 8))) (xorb (N.testbit b ((i + 5) mod 8)) (N.testbit b ((i + 6) mod 8))))
       (xorb (N.testbit b ((i + 7) mod 8)) (N.testbit 0x63 i)).
Definition is_inverse (a b : N) : Prop := b < 256 /\ ((a = 0 /\ b = 0) \/ gmul a b = 1).
Definition is_sbox (sbox : N -> N) : Prop := forall a, a < 256 ->
  sbox a < 256 /\ exists b, is_inverse a b /\ forall i, i < 8 -> N.testbit (sbox a) i = affine_bit b i.

(** ** The cipher: a state has four rows and four columns *)
Definition state := nat -> nat -> N.
Definition input_state (x : list byte) : state := fun r c => Byte.to_N (nth (r + 4 * c) x x00).
Definition shift (s : state) : state := fun r c => s r (Nat.modulo (c + r) 4).
Definition coefficient (r k : nat) : N := nth (Nat.modulo (k + 4 - r) 4) [2; 3; 1; 1] 0.
Definition mix (s : state) : state := fun r c =>
  N.lxor (N.lxor (gmul (coefficient r 0) (s 0%nat c)) (gmul (coefficient r 1) (s 1%nat c)))
         (N.lxor (gmul (coefficient r 2) (s 2%nat c)) (gmul (coefficient r 3) (s 3%nat c))).
(** [w i r]: byte [r] of word [i] of the key schedule. *)
Definition add_key (w : nat -> nat -> N) (i : nat) (s : state) : state := fun r c => N.lxor (s r c) (w (4 * i + c)%nat r).
Section Cipher.
  Context (sbox : N -> N) (w : nat -> nat -> N).
  Definition sub (s : state) : state := fun r c => sbox (s r c).
  Fixpoint after_rounds (i : nat) (s : state) : state :=
    match i with O => add_key w 0 s | S i' => add_key w i (mix (shift (sub (after_rounds i' s)))) end.
  Definition cipher (nr : nat) (s : state) : state := add_key w nr (shift (sub (after_rounds (nr - 1) s))).
  (** Key expansion (5.2): the round constant is the power of x. *)
  Fixpoint round_constant (j : nat) : N := match j with O => 1 | S j' => gmul 2 (round_constant j') end.
  Definition transformed (nk i r : nat) : N :=
    if Nat.eqb (Nat.modulo i nk) 0
    then N.lxor (sbox (w (i - 1)%nat (Nat.modulo (r + 1) 4))) (if Nat.eqb r 0 then round_constant (Nat.div i nk - 1) else 0)
    else if Nat.ltb 6 nk && Nat.eqb (Nat.modulo i nk) 4 then sbox (w (i - 1)%nat r)
    else w (i - 1)%nat r.
  Definition key_expansion (nk : nat) (key : list byte) : Prop := forall r, (r < 4)%nat ->
    (forall i, (i < nk)%nat -> w i r = Byte.to_N (nth (4 * i + r) key x00)) /\
    (forall i, (nk <= i < 4 * (nk + 7))%nat -> w i r = N.lxor (w (i - nk)%nat r) (transformed nk i r)).
End Cipher.

(** ** GCM: a block of 128 bits is a polynomial with bit 127 - [i] the coefficient of x^i *)
(** Multiplication by x modulo x^128 + x^7 + x^2 + x + 1. *)
Definition times_x (v : N) : N := N.lxor (v / 2) (if N.testbit v 0 then 2 ^ 127 + 2 ^ 126 + 2 ^ 125 + 2 ^ 120 else 0).
Fixpoint times_x_power (i : nat) (v : N) : N := match i with O => v | S i' => times_x (times_x_power i' v) end.
(** The sum of x_i * (x^i * y) for i below [n]. *)
Fixpoint block_product (n : nat) (x y : N) : N :=
  match n with
  | O => 0
  | S i => N.lxor (block_product i x y) (if N.testbit x (127 - N.of_nat i) then times_x_power i y else 0)
  end.
Definition block_mul (x y : N) : N := block_product 128 x y.
(** The number whose bytes are those of [l] from [16 * i] on, zero bytes where [l] ends. *)
Definition block_value (l : list byte) (i : nat) : N :=
  fold_left (fun acc j => 256 * acc + Byte.to_N (nth (16 * i + j) l x00)) (seq 0 16) 0.
Fixpoint hash_blocks (h : N) (x : nat -> N) (m : nat) : N :=
  match m with O => 0 | S i => block_mul (N.lxor (hash_blocks h x i) (x i)) h end.
Definition hash_text (h : N) (c : list byte) : N :=
  block_mul (N.lxor (hash_blocks h (block_value c) (Nat.div (length c + 15) 16)) (8 * N.of_nat (length c))) h.

(** ** What it means to be AES, and to be GCM *)
Definition is_aes (key : list byte) (E : list byte -> list byte) : Prop :=
  exists sbox w nk, length key = (4 * nk)%nat /\ is_sbox sbox /\ key_expansion sbox w nk key /\
  forall b, length b = 16%nat -> length (E b) = 16%nat /\
    forall r c, (r < 4)%nat -> (c < 4)%nat -> Byte.to_N (nth (r + 4 * c) (E b) x00) = cipher sbox w (nk + 6) (input_state b) r c.
(** Four bytes, the most significant first. *)
Definition low_byte (n : N) : byte := match Byte.of_N (n mod 256) with Some b => b | None => x00 end.
Definition counter (i : N) : list byte := [low_byte (i / 2 ^ 24); low_byte (i / 2 ^ 16); low_byte (i / 2 ^ 8); low_byte i].
(** The ciphertext is the text added to the encrypted counters from 2 on; the tag is the hash added to the encrypted counter 1. *)
Definition is_gcm (E : list byte -> list byte) (nonce p out : list byte) : Prop :=
  exists c t, out = c ++ t /\ length c = length p /\ length t = 16%nat /\
  (forall j, (j < length p)%nat ->
     Byte.to_N (nth j c x00) =
     N.lxor (Byte.to_N (nth j p x00)) (Byte.to_N (nth (Nat.modulo j 16) (E (nonce ++ counter (N.of_nat (Nat.div j 16) + 2))) x00))) /\
  block_value t 0 = N.lxor (hash_text (block_value (E (repeat x00 16)) 0) c) (block_value (E (nonce ++ counter 1)) 0).
