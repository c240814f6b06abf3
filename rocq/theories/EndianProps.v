(** * Final theorems on integer, time and big-integer conversions: C05, C06, C07. *)
From Coq Require Import List NArith ZArith Bool Lia.
From Coq Require Import Strings.Byte.
From Verif Require Import Base BaseProofs CmpSpec EndianModel EndianProofs.
Import ListNotations.

(** ** C05 *)
Theorem C05_int64_roundtrip : forall (i : Z) (suffix : bytes),
  (- 2 ^ 63 <= i < 2 ^ 63)%Z -> bytes_to_int64 (int64_to_bytes i ++ suffix) = i.
Proof. exact int64_roundtrip. Qed.
Print Assumptions C05_int64_roundtrip.

Theorem C05_int32_roundtrip : forall (i : Z) (suffix : bytes),
  (- 2 ^ 31 <= i < 2 ^ 31)%Z -> bytes_to_int32 (int32_to_bytes i ++ suffix) = i.
Proof. exact int32_roundtrip. Qed.
Print Assumptions C05_int32_roundtrip.

Theorem C05_uint32_roundtrip : forall (x : N) (suffix : bytes),
  (x < 2 ^ 32)%N -> bytes_to_uint32 (uint32_to_bytes x ++ suffix) = x.
Proof. exact uint32_roundtrip. Qed.
Print Assumptions C05_uint32_roundtrip.

Theorem C05_lengths : forall (i : Z) (x : N),
  length (int64_to_bytes i) = 8 /\ length (int32_to_bytes i) = 4 /\ length (uint32_to_bytes x) = 4.
Proof. intros. unfold int64_to_bytes, int32_to_bytes, uint32_to_bytes. now rewrite !be_put_length. Qed.
Print Assumptions C05_lengths.

Theorem C05_int64_order : forall i j : Z,
  (0 <= i < 2 ^ 63)%Z -> (0 <= j < 2 ^ 63)%Z ->
  (lex_lt byte_lt (int64_to_bytes i) (int64_to_bytes j) <-> (i < j)%Z).
Proof. exact int64_order. Qed.
Print Assumptions C05_int64_order.

Theorem C05_uint32_order : forall i j : N,
  (i < 2 ^ 32)%N -> (j < 2 ^ 32)%N ->
  (lex_lt byte_lt (uint32_to_bytes i) (uint32_to_bytes j) <-> (i < j)%N).
Proof. exact uint32_order. Qed.
Print Assumptions C05_uint32_order.

(** Every 8-byte string is the encoding of the number it decodes to, so the conversion is a bijection. *)
Theorem C05_int64_bijection : forall buf : bytes,
  length buf = 8 -> int64_to_bytes (bytes_to_int64 buf) = buf.
Proof. exact int64_bytes_inv. Qed.
Print Assumptions C05_int64_bijection.

Example C05_applies :
  int64_to_bytes (-2)%Z = [xff; xff; xff; xff; xff; xff; xff; xfe] /\
  bytes_to_int64 [xff; xff; xff; xff; xff; xff; xff; xfe; x01] = (-2)%Z /\
  uint32_to_bytes 258%N = [x00; x00; x01; x02] /\ int32_to_bytes (-1)%Z = [xff; xff; xff; xff] /\
  bytes_to_int32 [x00; x01] = 0%Z.
Proof. repeat split; vm_compute; reflexivity. Qed.

(** ** C06 *)
Theorem C06_time_roundtrip : forall (t : Z) (suffix : bytes),
  (- 2 ^ 63 <= t < 2 ^ 63)%Z -> bytes_to_time (time_to_bytes t ++ suffix) = Ok t.
Proof. exact time_roundtrip. Qed.
Print Assumptions C06_time_roundtrip.

(** Parsing succeeds exactly on buffers of at least 8 bytes, and then serialising gives the first 8 bytes back. *)
Theorem C06_time_parse : forall buf : bytes,
  (length buf < 8 /\ bytes_to_time buf = Err) \/
  (8 <= length buf /\ exists t, bytes_to_time buf = Ok t /\ (- 2 ^ 63 <= t < 2 ^ 63)%Z /\
                                time_to_bytes t = firstn 8 buf).
Proof. exact bytes_to_time_spec. Qed.
Print Assumptions C06_time_parse.

Example C06_applies :
  bytes_to_time (time_to_bytes (-1500000000)%Z ++ [xaa]) = Ok (-1500000000)%Z /\
  bytes_to_time [x01; x02; x03] = Err.
Proof. split; vm_compute; reflexivity. Qed.

(** ** C07 *)
Theorem C07_big_roundtrip : forall d : Z,
  (0 <= d < 2 ^ 256)%Z -> bytes_to_big (big_to_bytes d) = d.
Proof. exact big_roundtrip. Qed.
Print Assumptions C07_big_roundtrip.

Theorem C07_big_roundtrip_general : forall d : Z,
  length (big_to_bytes d) = 32 /\ bytes_to_big (big_to_bytes d) = (Z.abs d mod 2 ^ 256)%Z.
Proof. intros d. split; [apply big_to_bytes_length|apply big_roundtrip_gen]. Qed.
Print Assumptions C07_big_roundtrip_general.

Theorem C07_bytes_roundtrip : forall l : bytes,
  length l = 32 -> big_to_bytes (bytes_to_big l) = l.
Proof. exact big_bytes_roundtrip. Qed.
Print Assumptions C07_bytes_roundtrip.

Example C07_applies :
  bytes_to_big (big_to_bytes 65537) = 65537%Z /\ bytes_to_big (big_to_bytes (-5)) = 5%Z /\
  bytes_to_big (big_to_bytes (2 ^ 256 + 7)) = 7%Z /\ length (big_to_bytes 0) = 32.
Proof. repeat split; vm_compute; reflexivity. Qed.
