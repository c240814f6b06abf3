(** * Model of signing and verifying (/repo/src/util/ecdsa_util.go:40-66), which hand the work to crypto/ecdsa and crypto/elliptic.

    Modelled after the library: the arithmetic of P-256, ecdsa.GenerateKey, ecdsa.Sign and ecdsa.Verify. Simplified: the point at infinity is
    [None] (the library's pair of zeroes is no point of the curve), coordinates are affine, and the library's reader of random bytes is
    the list of the numbers that randFieldElement draws from it. *)
From Coq Require Import List ZArith Zpow_facts Bool.
From Verif Require Import Base EndianModel KeyStoreModel EcdsaModel.
Import ListNotations.
Local Open Scope Z_scope.

Definition point : Type := option (Z * Z).
(** The inverse modulo a prime: big.Int.ModInverse and fermatInverse. *)
Definition inv_mod (x p : Z) : Z := Zpow_mod (x mod p) (p - 2) p.
(** The third point of the line with the slope [l] through (x1, y1) and (x2, y2), mirrored. *)
Definition third (p l x1 y1 x2 : Z) : point :=
  let x3 := (l * l - x1 - x2) mod p in
  Some (x3, (l * (x1 - x3) - y1) mod p).
(** CurveParams.Add and CurveParams.Double. *)
Definition point_add (p a : Z) (P Q : point) : point :=
  match P, Q with
  | None, _ => Q
  | _, None => P
  | Some (x1, y1), Some (x2, y2) =>
      if x1 =? x2 then
        if (y1 + y2) mod p =? 0 then None
        else third p ((3 * (x1 * x1) + a) * inv_mod (2 * y1) p) x1 y1 x2
      else third p ((y2 - y1) * inv_mod (x2 - x1) p) x1 y1 x2
  end.
(** CurveParams.ScalarMult: from the highest bit on, double and add. *)
Fixpoint point_mul_pos (p a : Z) (k : positive) (P : point) : point :=
  match k with
  | xH => P
  | xO k' => let Q := point_mul_pos p a k' P in point_add p a Q Q
  | xI k' => let Q := point_mul_pos p a k' P in point_add p a (point_add p a Q Q) P
  end.
Definition point_mul (p a k : Z) (P : point) : point := match k with Zpos k' => point_mul_pos p a k' P | _ => None end.

(** elliptic.P256(): the order N of the base point and the operations. *)
Definition n256 : Z := 0xffffffff00000000ffffffffffffffffbce6faada7179e84f3b9cac2fc632551.
Definition base256 : point := Some (gx256, gy256).
Definition add256 : point -> point -> point := point_add p256 (-3).
Definition mul256 : Z -> point -> point := point_mul p256 (-3).

(** ECDSAGenerateKey (40-49): [d] is the number drawn from 1 .. N-1. ECDSAGetPrivateKey (59-66): any number, the second result is the
    public key. *)
Definition private_key (d : Z) : Z * point := (d, mul256 d base256).
(** hashToInt: the first 32 bytes as a number. *)
Definition hash_to_int (hash : bytes) : Z := Z.of_N (be_get (firstn 32 hash)).
(** ecdsa.Sign, called by ECDSASign (51-53): the numbers drawn are tried in turn until r and s are not zero. *)
Fixpoint ecdsa_sign (ks : list Z) (d : Z) (hash : bytes) : res (Z * Z) :=
  match ks with
  | [] => Err
  | k :: ks' =>
      match mul256 k base256 with
      | None => ecdsa_sign ks' d hash
      | Some (x, _) =>
          let r := x mod n256 in
          if r =? 0 then ecdsa_sign ks' d hash
          else
            let s := ((d * r + hash_to_int hash) * inv_mod k n256) mod n256 in
            if s =? 0 then ecdsa_sign ks' d hash else Ok (r, s)
      end
  end.
(** ecdsa.Verify, called by ECDSAVerify (55-57). *)
Definition ecdsa_verify (Q : point) (hash : bytes) (r s : Z) : bool :=
  if (r <=? 0) || (s <=? 0) then false
  else if (n256 <=? r) || (n256 <=? s) then false
  else
    let w := inv_mod s n256 in
    let u1 := (hash_to_int hash * w) mod n256 in
    let u2 := (r * w) mod n256 in
    match add256 (mul256 u1 base256) (mul256 u2 Q) with
    | None => false
    | Some (x, _) => x mod n256 =? r
    end.
