(** * MurmurHash3_x86_32 as published (Appleby; pseudo-code in the Wikipedia article the source cites),
    written by recursion on the byte string with rotations and multiplications modulo 2^32. *)
From Coq Require Import List NArith.
From Coq Require Import Strings.Byte.
Import ListNotations.
Local Open Scope N_scope.

Definition M : N := 2 ^ 32.

(** Circular left shift of a 32-bit word. *)
Definition rol32 (r x : N) : N := (x * 2 ^ r) mod M + x / 2 ^ (32 - r).

(** Value of a byte string read least significant byte first. *)
Fixpoint little_endian (l : list byte) : N :=
  match l with [] => 0 | b :: l' => Byte.to_N b + 256 * little_endian l' end.

Definition scramble (k : N) : N := rol32 15 ((k * 0xcc9e2d51) mod M) * 0x1b873593 mod M.

Fixpoint body (h : N) (key : list byte) {struct key} : N :=
  match key with
  | b0 :: b1 :: b2 :: b3 :: rest =>
      body ((rol32 13 (N.lxor h (scramble (little_endian [b0; b1; b2; b3]))) * 5 + 0xe6546b64) mod M) rest
  | [] => h
  | tail => N.lxor h (scramble (little_endian tail))
  end.

Definition avalanche (h : N) : N :=
  let h := N.lxor h (h / 2 ^ 16) in
  let h := (h * 0x85ebca6b) mod M in
  let h := N.lxor h (h / 2 ^ 13) in
  let h := (h * 0xc2b2ae35) mod M in
  N.lxor h (h / 2 ^ 16).

(** [len] in the published code is a 32-bit word. *)
Definition murmur3_32 (seed : N) (key : list byte) : N :=
  avalanche (N.lxor (body seed key) (N.of_nat (length key) mod M)).
