(** * Specification vocabulary for keys, independent of the model. *)
From Coq Require Import List NArith.
From Coq Require Import Strings.Byte.
From Verif Require Import VarintSpec CmpSpec.
Import ListNotations.

(** Wire format of a key: the number of sub keys, then every sub key as a length-prefixed string. *)
Definition key_bytes (keys : list (list byte)) (l : list byte) : Prop :=
  exists n ls, uvarint_minimal n (N.of_nat (length keys)) /\ Forall2 varchar_of keys ls /\ l = n ++ concat ls.

(** Order of keys: lexicographic in the sub keys, which are ordered lexicographically by bytes. *)
Definition key_lt (a b : list (option (list byte))) : Prop := lex_lt (slice_lt byte_lt) a b.
