(** * Specification vocabulary for slice comparison: the lexicographic order, independent of the model. *)
From Coq Require Import List NArith ZArith.
From Coq Require Import Strings.Byte.
Import ListNotations.

(** Strict lexicographic order: a proper prefix is smaller, otherwise the first difference decides. *)
Inductive lex_lt {A} (R : A -> A -> Prop) : list A -> list A -> Prop :=
| lex_nil y ys : lex_lt R [] (y :: ys)
| lex_head x y xs ys : R x y -> lex_lt R (x :: xs) (y :: ys)
| lex_tail x xs ys : lex_lt R xs ys -> lex_lt R (x :: xs) (x :: ys).

(** Slices: nil sorts before every non-nil slice. *)
Inductive slice_lt {A} (R : A -> A -> Prop) : option (list A) -> option (list A) -> Prop :=
| slice_nil l : slice_lt R None (Some l)
| slice_lex l1 l2 : lex_lt R l1 l2 -> slice_lt R (Some l1) (Some l2).

(** [p] is a proper prefix of [l]. *)
Definition proper_prefix {A} (p l : list A) : Prop := exists x xs, l = p ++ x :: xs.

(** Both slices are non-nil and the first is a proper prefix of the second. *)
Definition slice_proper_prefix {A} (p l : option (list A)) : Prop :=
  exists p' l', p = Some p' /\ l = Some l' /\ proper_prefix p' l'.

(** Numeric order of bytes. *)
Definition byte_lt (a b : byte) : Prop := (Byte.to_N a < Byte.to_N b)%N.
