(** * Model of SumSHA256, SumSHA256d and SumMD5 (ecdsa_util.go:15-28).

    The sums are those of crypto/sha256 and crypto/md5, library code that is modelled here after the way the library works:
    a digest takes the data, keeps the incomplete block, and pads at the end. DigestProps.v proves that the results are
    those of FIPS 180-4 and RFC 1321 (DigestSpec.v). *)
From Coq Require Import List NArith Bool.
From Coq Require Import Strings.Byte.
From Verif Require Import Base EndianModel.
Import ListNotations.
Local Open Scope N_scope.
Local Open Scope list_scope.

(** ** uint32 *)
Definition m32 : N := 0x100000000.
Definition add32 (a b : N) : N := (a + b) mod m32.
Definition shl32 (x n : N) : N := N.shiftl x n mod m32.
Definition rotr32 (x n : N) : N := N.lor (N.shiftr x n) (shl32 x (32 - n)).
Definition rotl32 (x n : N) : N := N.lor (shl32 x n) (N.shiftr x (32 - n)).
Definition not32 (x : N) : N := N.lxor x 0xffffffff.
Definition add_words (a b : list N) : list N := map (fun p => add32 (fst p) (snd p)) (combine a b).

(** ** The digest: its words, the bytes of the incomplete block, and the number of bytes so far *)
Record digest := Digest { d_h : list N; d_x : bytes; d_len : N }.
(** The loop of the block functions: as long as 64 bytes are left. *)
Fixpoint absorb (block : list N -> bytes -> list N) (fuel : nat) (h : list N) (p : bytes) : list N :=
  match fuel with
  | O => h
  | S fuel' => if Nat.leb 64 (length p) then absorb block fuel' (block h (firstn 64 p)) (skipn 64 p) else h
  end.
(** Write: first complete the block that is there, then take all complete blocks, then keep the rest. *)
Definition fill (block : list N -> bytes -> list N) (h : list N) (x p : bytes) : list N * bytes * bytes :=
  match x with
  | [] => (h, [], p)
  | _ =>
      let n := Nat.min (Nat.sub 64 (length x)) (length p) in
      let x' := x ++ firstn n p in
      if Nat.eqb (length x') 64 then (block h x', [], skipn n p) else (h, x', skipn n p)
  end.
Definition bulk (block : list N -> bytes -> list N) (h : list N) (x p : bytes) : list N * bytes :=
  let n := if Nat.leb 64 (length p) then Nat.mul (Nat.div (length p) 64) 64 else O in
  let h' := absorb block (length p) h (firstn n p) in
  match skipn n p with [] => (h', x) | r => (h', r) end.
Definition write (block : list N -> bytes -> list N) (d : digest) (p : bytes) : digest :=
  let '(h1, x1, p1) := fill block (d_h d) (d_x d) p in
  let '(h2, x2) := bulk block h1 x1 p1 in
  Digest h2 x2 ((d_len d + N.of_nat (length p)) mod 2 ^ 64).
(** checkSum: a byte 0x80 and zeros up to 56 bytes modulo 64, then the length in bits. A block that is not complete then panics. *)
Definition check_sum (block : list N -> bytes -> list N) (put_len : N -> bytes) (d : digest) : res (list N) :=
  let r := d_len d mod 64 in
  let n := if r <? 56 then 56 - r else 120 - r in
  let d1 := write block d (x80 :: repeat x00 (Nat.pred (N.to_nat n))) in
  let d2 := write block d1 (put_len (d_len d * 8 mod 2 ^ 64)) in
  match d_x d2 with [] => Ok (d_h d2) | _ => Panic end.

(** ** SHA-256 *)
Definition sha_iv : list N :=
  [ 0x6a09e667; 0xbb67ae85; 0x3c6ef372; 0xa54ff53a; 0x510e527f; 0x9b05688c; 0x1f83d9ab; 0x5be0cd19 ].
Definition sha_k : list N :=
  [ 0x428a2f98; 0x71374491; 0xb5c0fbcf; 0xe9b5dba5; 0x3956c25b; 0x59f111f1; 0x923f82a4; 0xab1c5ed5;
    0xd807aa98; 0x12835b01; 0x243185be; 0x550c7dc3; 0x72be5d74; 0x80deb1fe; 0x9bdc06a7; 0xc19bf174;
    0xe49b69c1; 0xefbe4786; 0x0fc19dc6; 0x240ca1cc; 0x2de92c6f; 0x4a7484aa; 0x5cb0a9dc; 0x76f988da;
    0x983e5152; 0xa831c66d; 0xb00327c8; 0xbf597fc7; 0xc6e00bf3; 0xd5a79147; 0x06ca6351; 0x14292967;
    0x27b70a85; 0x2e1b2138; 0x4d2c6dfc; 0x53380d13; 0x650a7354; 0x766a0abb; 0x81c2c92e; 0x92722c85;
    0xa2bfe8a1; 0xa81a664b; 0xc24b8b70; 0xc76c51a3; 0xd192e819; 0xd6990624; 0xf40e3585; 0x106aa070;
    0x19a4c116; 0x1e376c08; 0x2748774c; 0x34b0bcb5; 0x391c0cb3; 0x4ed8aa4a; 0x5b9cca4f; 0x682e6ff3;
    0x748f82ee; 0x78a5636f; 0x84c87814; 0x8cc70208; 0x90befffa; 0xa4506ceb; 0xbef9a3f7; 0xc67178f2 ].
Definition sha_words (b : bytes) : list N := map (fun i => be_get (firstn 4 (skipn (Nat.mul 4 i) b))) (seq 0 16).
Definition sha_next (ws : list N) : N :=
  let i := length ws in
  let v1 := nth (Nat.sub i 2) ws 0 in
  let t1 := N.lxor (N.lxor (rotr32 v1 17) (rotr32 v1 19)) (N.shiftr v1 10) in
  let v2 := nth (Nat.sub i 15) ws 0 in
  let t2 := N.lxor (N.lxor (rotr32 v2 7) (rotr32 v2 18)) (N.shiftr v2 3) in
  add32 (add32 (add32 t1 (nth (Nat.sub i 7) ws 0)) t2) (nth (Nat.sub i 16) ws 0).
Fixpoint sha_schedule (n : nat) (ws : list N) : list N :=
  match n with O => ws | S n' => sha_schedule n' (ws ++ [sha_next ws]) end.
Definition sha_round (s : list N) (kw : N * N) : list N :=
  match s with
  | [a; b; c; d; e; f; g; h] =>
      let t1 := add32 (add32 (add32 (add32 h (N.lxor (N.lxor (rotr32 e 6) (rotr32 e 11)) (rotr32 e 25)))
                                    (N.lxor (N.land e f) (N.land (not32 e) g))) (fst kw)) (snd kw) in
      let t2 := add32 (N.lxor (N.lxor (rotr32 a 2) (rotr32 a 13)) (rotr32 a 22))
                      (N.lxor (N.lxor (N.land a b) (N.land a c)) (N.land b c)) in
      [add32 t1 t2; a; b; c; add32 d t1; e; f; g]
  | _ => s
  end.
Definition sha_block (h : list N) (b : bytes) : list N :=
  add_words h (fold_left sha_round (combine sha_k (sha_schedule 48 (sha_words b))) h).
(** SumSHA256, 15-18, and SumSHA256d, 20-22. *)
Definition sum_sha256 (data : bytes) : res bytes :=
  let? h := check_sum sha_block (be_put 8) (write sha_block (Digest sha_iv [] 0) data) in
  Ok (flat_map (be_put 4) h).
Definition sum_sha256d (data : bytes) : res bytes :=
  let? s := sum_sha256 data in sum_sha256 s.

(** ** MD5 *)
Definition le_put (k : nat) (x : N) : bytes := rev (be_put k x).
Definition le_get (l : bytes) : N := be_get (rev l).
Definition md5_iv : list N := [0x67452301; 0xefcdab89; 0x98badcfe; 0x10325476].
Definition md5_t : list N :=
  [ 0xd76aa478; 0xe8c7b756; 0x242070db; 0xc1bdceee; 0xf57c0faf; 0x4787c62a; 0xa8304613; 0xfd469501;
    0x698098d8; 0x8b44f7af; 0xffff5bb1; 0x895cd7be; 0x6b901122; 0xfd987193; 0xa679438e; 0x49b40821;
    0xf61e2562; 0xc040b340; 0x265e5a51; 0xe9b6c7aa; 0xd62f105d; 0x02441453; 0xd8a1e681; 0xe7d3fbc8;
    0x21e1cde6; 0xc33707d6; 0xf4d50d87; 0x455a14ed; 0xa9e3e905; 0xfcefa3f8; 0x676f02d9; 0x8d2a4c8a;
    0xfffa3942; 0x8771f681; 0x6d9d6122; 0xfde5380c; 0xa4beea44; 0x4bdecfa9; 0xf6bb4b60; 0xbebfbc70;
    0x289b7ec6; 0xeaa127fa; 0xd4ef3085; 0x04881d05; 0xd9d4d039; 0xe6db99e5; 0x1fa27cf8; 0xc4ac5665;
    0xf4292244; 0x432aff97; 0xab9423a7; 0xfc93a039; 0x655b59c3; 0x8f0ccc92; 0xffeff47d; 0x85845dd1;
    0x6fa87e4f; 0xfe2ce6e0; 0xa3014314; 0x4e0811a1; 0xf7537e82; 0xbd3af235; 0x2ad7d2bb; 0xeb86d391 ].
Definition md5_words (b : bytes) : list N := map (fun i => le_get (firstn 4 (skipn (Nat.mul 4 i) b))) (seq 0 16).
(** One step of the rounds; [i] counts the steps from 0. *)
Definition md5_round (x : list N) (s : list N) (i : nat) : list N :=
  match s with
  | [a; b; c; d] =>
      let '(f, k, ss) :=
        match Nat.div i 16 with
        | 0%nat => (N.lxor (N.land (N.lxor c d) b) d, i, [7; 12; 17; 22])
        | 1%nat => (N.lxor (N.land (N.lxor b c) d) c, Nat.modulo (1 + 5 * i)%nat 16, [5; 9; 14; 20])
        | 2%nat => (N.lxor (N.lxor b c) d, Nat.modulo (5 + 3 * i)%nat 16, [4; 11; 16; 23])
        | _ => (N.lxor c (N.lor b (not32 d)), Nat.modulo (7 * i)%nat 16, [6; 10; 15; 21])
        end in
      let n := add32 (add32 (add32 a f) (nth k x 0)) (nth i md5_t 0) in
      [d; add32 b (rotl32 n (nth (Nat.modulo i 4) ss 0)); b; c]
  | _ => s
  end.
Definition md5_block (h : list N) (b : bytes) : list N :=
  add_words h (fold_left (md5_round (md5_words b)) (seq 0 64) h).
(** SumMD5, 25-28. *)
Definition sum_md5 (data : bytes) : res bytes :=
  let? h := check_sum md5_block (le_put 8) (write md5_block (Digest md5_iv [] 0) data) in
  Ok (flat_map (le_put 4) h).
