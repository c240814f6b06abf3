(** * Model of the Min and Max functions and of randUint32 (/repo/src/collection/util.go:43-201, 856-872). *)
From Coq Require Import List NArith ZArith Bool.
From Coq Require Import Strings.Byte.
From Verif Require Import Base EndianModel RandModel.
Local Open Scope Z_scope.

(** MinInt, MinInt8 and so on to MinUint64, util.go:43-201: the ten have the same text, [if a < b], with a type of their own. Two functions with
    a name for uint, MinUnt (59-65) and MaxUint (67-73), take and return int. *)
Definition go_min (a b : Z) : Z := if a <? b then a else b.
(** MaxInt, MaxInt8 and so on to MaxUint64: [if a > b]. *)
Definition go_max (a b : Z) : Z := if b <? a then a else b.
(** Calling MinUnt or MaxUint with numbers of type uint needs conversions, which keep the 64 bits: uint(MinUnt(int(a), int(b))). *)
Definition min_of_uint (a b : Z) : Z := wrap_u 64 (go_min (wrap_s 64 a) (wrap_s 64 b)).
Definition max_of_uint (a b : Z) : Z := wrap_u 64 (go_max (wrap_s 64 a) (wrap_s 64 b)).
(** randUint32, util.go:856-872, when rand.Read delivered [buf]; its error (a panic) is left out. A short [buf] panics in binary.Read. *)
Definition rand_uint32 (buf : bytes) : res Z := if zlen buf <? 4 then Panic else Ok (Z.of_N (be_get (firstn 4 buf))).
