(** * Model of fixed-width and big-integer conversions (/repo/src/collection/util.go:766-850). *)
From Coq Require Import List NArith ZArith Bool.
From Coq Require Import Strings.Byte.
From Verif Require Import Base.
Import ListNotations.
Local Open Scope N_scope.

(** binary.BigEndian.PutUintNN: the [k] low bytes of [x], most significant first (Go standard library). *)
Fixpoint be_put (k : nat) (x : N) : bytes :=
  match k with
  | O => []
  | S k' => n2b (N.shiftr x (8 * N.of_nat k')) :: be_put k' x
  end.

(** Value of a big-endian byte string: binary.BigEndian.UintNN on exactly NN/8 bytes,
    and big.Int.SetBytes (Go standard library). *)
Definition be_get (l : bytes) : N := fold_left (fun acc b => acc * 256 + b2n b) l 0.

(** binary.BigEndian.Uint32/Uint64(buf): reads a prefix, panics on a short buffer. *)
Definition be_read (k : nat) (buf : bytes) : res N :=
  if Nat.ltb (length buf) k then Panic else Ok (be_get (firstn k buf)).

(** Go's conversions uint64(int64) and int64(uint64), and the 32-bit ones. *)
Definition uint64_of_int64 (z : Z) : N := Z.to_N (z mod 2 ^ 64).
Definition int64_of_uint64 (n : N) : Z := wrap_int64 (Z.of_N n).
Definition uint32_of_int32 (z : Z) : N := Z.to_N (z mod 2 ^ 32).
Definition int32_of_uint32 (n : N) : Z := ((Z.of_N n + 2 ^ 31) mod 2 ^ 32 - 2 ^ 31)%Z.

(** Int64ToByteArray, util.go:807-811. *)
Definition int64_to_bytes (i : Z) : bytes := be_put 8 (uint64_of_int64 i).
(** ByteArrayToInt64, util.go:813-820: binary.Read of 8 bytes, 0 if the buffer is short. *)
Definition bytes_to_int64 (buf : bytes) : Z :=
  if Nat.ltb (length buf) 8 then 0%Z else int64_of_uint64 (be_get (firstn 8 buf)).
(** Int32ToByteArray, util.go:822-826. *)
Definition int32_to_bytes (i : Z) : bytes := be_put 4 (uint32_of_int32 i).
(** ByteArrayToInt32, util.go:828-835. *)
Definition bytes_to_int32 (buf : bytes) : Z :=
  if Nat.ltb (length buf) 4 then 0%Z else int32_of_uint32 (be_get (firstn 4 buf)).
(** Uint32ToByteArray, util.go:837-841 (the argument is a uint32). *)
Definition uint32_to_bytes (x : N) : bytes := be_put 4 (x mod 2 ^ 32).
(** ByteArrayToUint32, util.go:843-850. *)
Definition bytes_to_uint32 (buf : bytes) : N :=
  if Nat.ltb (length buf) 4 then 0 else be_get (firstn 4 buf).

(** A time.Time is modelled by its instant in nanoseconds since the Unix epoch (time zone and monotonic
    reading dropped). UnixNano computes in int64, so it wraps outside the int64 range. *)
Definition unix_nano (t : Z) : Z := wrap_int64 t.
(** Int64ToTime, util.go:770-773. *)
Definition int64_to_time (nano : Z) : Z := nano.
(** BytesToTime, util.go:775-781. *)
Definition bytes_to_time (buf : bytes) : res Z :=
  if Nat.ltb (length buf) 8 then Err
  else let? pre := go_upto buf 8 in
       let? nano := be_read 8 pre in
       Ok (int64_to_time (int64_of_uint64 nano)).
(** TimeToBytes, util.go:783-787. *)
Definition time_to_bytes (t : Z) : bytes := be_put 8 (uint64_of_int64 (unix_nano t)).

(** big.Int.Bytes: big-endian magnitude without leading zero bytes (Go standard library). *)
Definition big_bytes (d : Z) : bytes :=
  let n := Z.abs_N d in be_put (N.to_nat ((N.size n + 7) / 8)) n.
(** ByteArrayToBigInt, util.go:789-793. *)
Definition bytes_to_big (data : bytes) : Z := Z.of_N (be_get data).
(** BigIntToByteArray, util.go:795-805. *)
Definition big_to_bytes (d : Z) : bytes :=
  let input := big_bytes d in
  if Nat.eqb (length input) 32 then input
  else if Nat.ltb 32 (length input) then skipn (length input - 32) input
  else repeat x00 (32 - length input) ++ input.
