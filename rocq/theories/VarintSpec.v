(** * LEB128: the mathematical meaning of a variable-length unsigned integer, independent of the model. *)
From Coq Require Import List NArith.
From Coq Require Import Strings.Byte.
Import ListNotations.
Local Open Scope N_scope.

(** [leb128 l v]: the byte string [l] is a complete little-endian base-128 numeral (every byte but the last has
    its top bit set) and [v] is its value. Overlong numerals are included. *)
Inductive leb128 : list byte -> N -> Prop :=
| leb_last b : Byte.to_N b < 128 -> leb128 [b] (Byte.to_N b)
| leb_more b l v : 128 <= Byte.to_N b -> leb128 l v -> leb128 (b :: l) ((Byte.to_N b - 128) + 128 * v).

(** A numeral that fits: at most ten bytes and a value below 2^64. *)
Definition uvarint_numeral (l : list byte) (v : N) : Prop :=
  leb128 l v /\ (length l <= 10)%nat /\ v < 2 ^ 64.

(** The shortest numeral of a value. *)
Definition uvarint_minimal (l : list byte) (v : N) : Prop :=
  leb128 l v /\ forall l', leb128 l' v -> (length l <= length l')%nat.

(** Length-prefixed string: the shortest numeral of the length, then the data. *)
Definition varchar_of (data l : list byte) : Prop :=
  exists n, uvarint_minimal n (N.of_nat (length data)) /\ l = n ++ data.
