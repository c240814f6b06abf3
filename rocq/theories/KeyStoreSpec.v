(** * Vocabulary for the key files, independent of the model. *)
From Coq Require Import List NArith ZArith.
From Coq Require Import Strings.Byte.
Import ListNotations.

(** A hexadecimal digit of either case and its value. *)
Inductive hex_digit_value (c : byte) : N -> Prop :=
| HexDec : (48 <= Byte.to_N c <= 57)%N -> hex_digit_value c (Byte.to_N c - 48)
| HexUpper : (65 <= Byte.to_N c <= 70)%N -> hex_digit_value c (Byte.to_N c - 55)
| HexLower : (97 <= Byte.to_N c <= 102)%N -> hex_digit_value c (Byte.to_N c - 87).
(** [hex_text t l]: the text [t] is a hex dump of the bytes [l]. *)
Inductive hex_text : list byte -> list byte -> Prop :=
| HexNil : hex_text [] []
| HexCons a b x y v t l : hex_digit_value a x -> hex_digit_value b y -> Byte.to_N v = (16 * x + y)%N ->
    hex_text t l -> hex_text (a :: b :: t) (v :: l).

(** A name that is a directory entry of its own: no separator, not empty, not "." and not "..". *)
Definition no_slash (id : list byte) : Prop := ~ In x2f id.
Definition plain_name (id : list byte) : Prop := no_slash id /\ id <> [] /\ id <> [x2e] /\ id <> [x2e; x2e].

(** [below d p]: the path [p] lies strictly below the directory [d]. *)
Definition below (d p : list (list byte)) : Prop := exists rest, rest <> [] /\ p = d ++ rest.

(** The classes of key owners. *)
Definition known_class (cls : Z) : Prop := (1 <= cls <= 5)%Z.
(** The sizes of AES keys. *)
Definition aes_key (secret : list byte) : Prop := In (length secret) [16; 24; 32]%nat.
