(** * Model of the random numbers (/repo/src/util/rand_util.go).
    The output of crypto/rand is the argument [data]; its errors (which become panics) are left out. *)
From Coq Require Import List NArith ZArith Bool.
From Coq Require Import Strings.Byte.
From Verif Require Import Base EndianModel.
Local Open Scope Z_scope.

(** Reduction to a signed and to an unsigned integer of [w] bits. *)
Definition wrap_s (w z : Z) : Z := (z + 2 ^ (w - 1)) mod 2 ^ w - 2 ^ (w - 1).
Definition wrap_u (w z : Z) : Z := z mod 2 ^ w.

(** RandUint8, RandUint16, RandUint32, RandUint64 (30-46, 66-82, 102-118, 138-154): big-endian value of the drawn bytes. *)
Definition rand_unsigned (buf : bytes) : Z := Z.of_N (be_get buf).
(** RandInt8, RandInt16, RandInt32, RandInt64 (12-28, 48-64, 84-100, 120-136). *)
Definition rand_signed (buf : bytes) : Z := wrap_s (8 * zlen buf) (Z.of_N (be_get buf)).

(** RandIntNRange, rand_util.go:156-160, 168-172, 180-184, 192-196: [data%(max-min) + min] in [w]-bit signed arithmetic. Go's [%] truncates
    towards zero; a zero divisor panics. *)
Definition rand_signed_range (w data min max : Z) : res Z :=
  let d := wrap_s w (max - min) in
  if d =? 0 then Panic else Ok (wrap_s w (Z.rem data d + min)).
(** RandUintNRange, rand_util.go:162-166, 174-178, 186-190, 198-202, in unsigned arithmetic. *)
Definition rand_unsigned_range (w data min max : Z) : res Z :=
  let d := wrap_u w (max - min) in
  if d =? 0 then Panic else Ok (wrap_u w (data mod d + min)).

(** The seed [uint32(RandUint64Range(2^16, 2^32-1))] of MPHBuild, mph_util.go:279. In Go [^] is exclusive or, of the same precedence as [-]:
    2^16 = 18 and 2^32-1 = (2 xor 32) - 1 = 33. *)
Definition verify_seed_low : Z := Z.lxor 2 16.
Definition verify_seed_high : Z := Z.lxor 2 32 - 1.
Definition verify_seed (data : Z) : res Z :=
  let? r := rand_unsigned_range 64 data verify_seed_low verify_seed_high in Ok (wrap_u 32 r).
