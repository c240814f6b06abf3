(** * What base58 text means, independent of the model. *)
From Coq Require Import List NArith.
From Coq Require Import Strings.Byte.
Import ListNotations.
Local Open Scope N_scope.

(** The alphabet in digit order. *)
Definition base58_chars : list byte :=
  ["1"; "2"; "3"; "4"; "5"; "6"; "7"; "8"; "9";
   "A"; "B"; "C"; "D"; "E"; "F"; "G"; "H"; "J"; "K"; "L"; "M"; "N"; "P"; "Q"; "R"; "S"; "T"; "U"; "V"; "W"; "X"; "Y"; "Z";
   "a"; "b"; "c"; "d"; "e"; "f"; "g"; "h"; "i"; "j"; "k"; "m"; "n"; "o"; "p"; "q"; "r"; "s"; "t"; "u"; "v"; "w"; "x"; "y"; "z"]%byte.

(** [c] is the character of digit [d]. *)
Definition is_digit (c : byte) (d : N) : Prop := nth_error base58_chars (N.to_nat d) = Some c.

(** [s] is a most-significant-first numeral of value [v]. *)
Inductive numeral58 : list byte -> N -> Prop :=
| num58_nil : numeral58 [] 0
| num58_snoc s v c d : numeral58 s v -> is_digit c d -> numeral58 (s ++ [c]) (58 * v + d).

(** [b] is a most-significant-first base-256 numeral of value [v]. *)
Inductive numeral256 : list byte -> N -> Prop :=
| num256_nil : numeral256 [] 0
| num256_snoc s v c : numeral256 s v -> numeral256 (s ++ [c]) (256 * v + Byte.to_N c).

(** A list that does not begin with [z]. *)
Definition no_lead (z : byte) (l : list byte) : Prop := forall l', l <> z :: l'.

(** The standard reading of base58: as many leading "1" characters as there are leading zero bytes, followed by the
    number the remaining bytes denote, without leading zeros. *)
Definition base58_of (b s : list byte) : Prop :=
  exists k rest digits v,
    b = repeat x00 k ++ rest /\ no_lead x00 rest /\
    s = repeat "1"%byte k ++ digits /\ no_lead "1"%byte digits /\
    numeral256 rest v /\ numeral58 digits v.
