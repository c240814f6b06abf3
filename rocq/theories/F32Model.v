(** * Model of the float32 arithmetic in the resize decisions of the hash table
    (/repo/src/collection/hash.go:40-45, 67-101, 141-145, 169-173).

    A finite float is the rational number it stands for. The result of an operation is the exact result
    rounded to nearest, ties to even, with 24 significant bits (53 for float64). All operands are
    positive and far from the ends of the exponent range, so there is neither overflow nor underflow;
    signed zeros play no role. *)
From Coq Require Import ZArith QArith Qround Bool List.
From Verif Require Import Base HashModel.
Import ListNotations.
Local Open Scope Q_scope.

(** 2^e for any integer e. *)
Definition pow2 (e : Z) : Q :=
  match e with
  | Zneg p => 1 # (2 ^ p)
  | _ => inject_Z (2 ^ e)
  end.

(** The exponent of q > 0: the e with 2^e <= q < 2^(e+1). *)
Definition qlog2 (q : Q) : Z :=
  let e := (Z.log2 (Qnum q) - Z.log2 (Zpos (Qden q)))%Z in
  if Qle_bool (pow2 e) q then e else (e - 1)%Z.

(** Rounding to an integer, ties to even. *)
Definition half_even (q : Q) : Z :=
  let z := Qfloor q in
  match Qcompare (q - inject_Z z) (1 # 2) with
  | Lt => z
  | Gt => (z + 1)%Z
  | Eq => if Z.even z then z else (z + 1)%Z
  end.

(** Rounding to [p] significant bits; zero stays zero. *)
Definition round (p : Z) (q : Q) : Q :=
  if Qle_bool q 0 then 0
  else
    let e := (qlog2 q - (p - 1))%Z in
    inject_Z (half_even (q / pow2 e)) * pow2 e.

(** A float32 value: NaN, an infinity or a finite number. *)
Inductive f32 : Type := FNaN | FInf (negative : bool) | FVal (q : Q).

(** The finite values that exist: 24 bits of significand, exponents from -149. *)
Definition is_f32 (f : f32) : Prop :=
  match f with
  | FVal q => exists z e : Z, (Z.abs z < 2 ^ 24)%Z /\ (-149 <= e <= 104)%Z /\ q == inject_Z z * pow2 e
  | _ => True
  end.

(** [a < b] of Go: false when one side is NaN. *)
Definition flt (a b : f32) : bool :=
  match a, b with
  | FNaN, _ | _, FNaN => false
  | FInf true, FInf true => false
  | FInf true, _ => true
  | _, FInf true => false
  | FInf false, _ => false
  | _, FInf false => true
  | FVal x, FVal y => negb (Qle_bool y x)
  end.

(** The constant 1.2 as a float32: the nearest is 10066330 / 2^23. *)
Definition f_1_2 : f32 := FVal (10066330 # 8388608).

(** The checks of NewCustomHash, hash.go:81-93. *)
Definition clamp_multiplier (m : f32) : f32 :=
  if flt (FVal 5) m then FVal 5 else if flt m f_1_2 then f_1_2 else m.
Definition clamp_load (lf : f32) : f32 :=
  if flt (FVal 1) lf then FVal 1 else if flt lf (FVal (1 # 2)) then FVal (1 # 2) else lf.

(** float32(n). *)
Definition of_int (n : Z) : Q := round 24 (inject_Z n).

(** float32(math.Pow(float64(m), k)) for k = 2 and 4. Go's Pow squares repeatedly in float64. *)
Definition pow_2 (m : Q) : Q := round 24 (round 53 (m * m)).
Definition pow_4 (m : Q) : Q := round 24 (round 53 (round 53 (m * m) * round 53 (m * m))).

Section Policy.
  (** int(NaN) is chosen by the machine (amd64: -2^63, arm64: 0). *)
  Context (nan_int : Z).

  (** The test and the new capacity of Put, hash.go:142-144. *)
  Definition float_put (lf m : f32) (size cap : Z) : option Z :=
    match lf with
    | FVal l =>
        if Qle_bool l (round 24 (of_int size / of_int cap)) then
          Some (match m with FVal mu => Qfloor (round 24 (of_int cap * mu)) | _ => nan_int end)
        else None
    | _ => None
    end.

  (** The test and the new capacity of Remove, hash.go:170-172. *)
  Definition float_remove (lf m : f32) (size cap : Z) : option Z :=
    match lf, m with
    | FVal l, FVal mu =>
        if negb (Qle_bool (round 24 (l / pow_4 mu)) (round 24 (of_int size / of_int cap))) then
          Some (Qfloor (round 24 (of_int cap / pow_2 mu)))
        else None
    | _, _ => None
    end.

  (** The policy of a table made by NewCustomHash(_, lf, m). After the checks neither parameter is infinite. *)
  Definition float_policy (lf m : f32) : policy := {|
    after_put := float_put (clamp_load lf) (clamp_multiplier m);
    after_remove := float_remove (clamp_load lf) (clamp_multiplier m)
  |}.
End Policy.

(** NewHash, hash.go:67-72. *)
Definition default_load : f32 := FVal (3 # 4).
Definition default_multiplier : f32 := FVal (3 # 2).
