(** * Model of MurmurSeed.Hash (/repo/src/collection/hash.go:287-351).

    uint32 values are [N] below 2^32. The blocks slice is the memory of [b] seen through a []uint32 header of
    length [l/4]; words are little-endian, as on every platform the project runs on (amd64, arm64). *)
From Coq Require Import List NArith ZArith.
From Verif Require Import Base.
Import ListNotations.
Local Open Scope N_scope.

(** uint32 arithmetic. *)
Definition mul32 (a b : N) : N := (a * b) mod two32.
Definition add32 (a b : N) : N := (a + b) mod two32.
Definition shl32 (a k : N) : N := N.shiftl a k mod two32.
Definition shr32 (a k : N) : N := N.shiftr a k.

(** hash.go:295-304 *)
Definition mm_c1 : N := 0xcc9e2d51.
Definition mm_c2 : N := 0x1b873593.
Definition mm_m : N := 5.
Definition mm_n : N := 0xe6546b64.

(** The scrambling of [k], hash.go:318-320 and 338-340. *)
Definition mm_scramble (k : N) : N :=
  let k := mul32 k mm_c1 in
  let k := N.lor (shl32 k 15) (shr32 k 17) in
  mul32 k mm_c2.

(** One round of the block loop, hash.go:317-324. *)
Definition mm_round (h k : N) : N :=
  let h := N.lxor h (mm_scramble k) in
  let h := N.lor (shl32 h 13) (shr32 h 19) in
  add32 (mul32 h mm_m) mm_n.

(** The word at block index [i]. *)
Definition mm_word (b : bytes) (i : nat) : res N :=
  let? b0 := go_index b (Z.of_nat (4 * i)) in
  let? b1 := go_index b (Z.of_nat (4 * i + 1)) in
  let? b2 := go_index b (Z.of_nat (4 * i + 2)) in
  let? b3 := go_index b (Z.of_nat (4 * i + 3)) in
  Ok (b2n b0 + 2 ^ 8 * b2n b1 + 2 ^ 16 * b2n b2 + 2 ^ 24 * b2n b3).

Fixpoint mm_blocks (b : bytes) (is : list nat) (h : N) : res N :=
  match is with
  | [] => Ok h
  | i :: is' => let? k := mm_word b i in mm_blocks b is' (mm_round h k)
  end.

(** The switch on the tail, hash.go:326-342. *)
Definition mm_tail (b : bytes) (h : N) : res N :=
  let l := length b in
  let ntail := (l mod 4)%nat in
  let itail := Z.of_nat (l - ntail) in
  let? k := (if Nat.leb 3 ntail then let? x := go_index b (itail + 2) in Ok (N.lxor 0 (shl32 (b2n x) 16)) else Ok 0) in
  let? k := (if Nat.leb 2 ntail then let? x := go_index b (itail + 1) in Ok (N.lxor k (shl32 (b2n x) 8)) else Ok k) in
  if Nat.leb 1 ntail then
    let? x := go_index b itail in
    Ok (N.lxor h (mm_scramble (N.lxor k (b2n x))))
  else Ok h.

(** hash.go:344-350 *)
Definition mm_final (h l : N) : N :=
  let h := N.lxor h (l mod two32) in
  let h := N.lxor h (shr32 h 16) in
  let h := mul32 h 0x85ebca6b in
  let h := N.lxor h (shr32 h 13) in
  let h := mul32 h 0xc2b2ae35 in
  N.lxor h (shr32 h 16).

(** Hash, hash.go:307-351. *)
Definition murmur_hash (seed : N) (b : bytes) : res N :=
  let? h := mm_blocks b (seq 0 (length b / 4)) seed in
  let? h := mm_tail b h in
  Ok (mm_final h (N.of_nat (length b))).
