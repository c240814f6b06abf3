(** * Model of the public keys (/repo/src/util/ecdsa_util.go) as loaded by lc_load_pub_key (lc_util.go:254-263).

    The curve is P-256 (elliptic.P256()). Signing, verifying and ScalarBaseMult are in CurveModel.v. *)
From Coq Require Import List ZArith Zpow_facts.
From Verif Require Import Base KeyStoreModel.
Local Open Scope Z_scope.

(** elliptic.P256().Params(): the prime P, the coefficient B and the base point. *)
Definition p256 : Z := 2 ^ 256 - 2 ^ 224 + 2 ^ 192 + 2 ^ 96 - 1.
Definition b256 : Z := 0x5ac635d8aa3a93e7b3ebbd55769886bc651d06b0cc53b0f63bce3c3e27d2604b.
Definition gx256 : Z := 0x6b17d1f2e12c4247f8bce6e563a440f277037d812deb33a0f4a13945d898c296.
Definition gy256 : Z := 0x4fe342e2fe1a7f9b8ee7eb4a7c0f9e162bce33576b315ececbb6406837bf51f5.

(** big.Int.ModSqrt for a prime p with p mod 4 = 3: the library computes x^((p+1)/4), after returning nil if the Jacobi symbol says that x is not a
    square. The model replaces the Jacobi symbol by a check of the result; C71_mod_sqrt shows that this returns nil exactly for the non-squares. *)
Definition mod_sqrt (x p : Z) : option Z :=
  let z := Zpow_mod (x mod p) ((p + 1) / 4) p in
  if (z * z) mod p =? x mod p then Some z else None.
(** ECDSACalculateY, ecdsa_util.go:77-97. *)
Definition calculate_y (x : Z) : option Z :=
  let x3 := x * x * x in
  let three_x := x * 2 + x in
  mod_sqrt ((x3 - three_x + b256) mod p256) p256.
(** ECDSAGetPublicKey, ecdsa_util.go:68-75, for the number in the bytes; a nil Y is stored without a check. *)
Definition get_public_key (x : Z) : Z * option Z := (x, calculate_y x).
(** lc_load_pub_key, lc_util.go:254-263. *)
Definition load_pub_point (f : fs) (cls : Z) (id : bytes) : res (Z * option Z) := rmap get_public_key (load_pub_key f cls id).
