(** * Base: results, bytes, machine integers and slices of the Go model.

    Nothing in this file models a particular function of /repo; it fixes how Go's
    outcomes, bytes, integer conversions and slice expressions are represented. *)

From Coq Require Import List NArith ZArith Bool Lia.
From Coq Require Import Strings.Byte.
From Coq Require Export ZifyBool ZifyNat ZifyN.
Import ListNotations.

(** Outcome of a Go call: normal return, returned [error] (message dropped), or run-time panic. *)
Inductive res (A : Type) : Type :=
| Ok (a : A)
| Err
| Panic.
Arguments Ok {A} a.
Arguments Err {A}.
Arguments Panic {A}.

Definition rbind {A B} (x : res A) (f : A -> res B) : res B :=
  match x with Ok a => f a | Err => Err | Panic => Panic end.

Definition rmap {A B} (f : A -> B) (x : res A) : res B := rbind x (fun a => Ok (f a)).

Declare Scope res_scope.
Delimit Scope res_scope with res.
Notation "'let?' x := e 'in' f" := (rbind e (fun x => f))
  (at level 200, x pattern, e at level 100, f at level 200, right associativity) : res_scope.
Open Scope res_scope.

(** A [byte] is one of 256 constructors, so every [list byte] is a legal Go byte string. *)
Definition b2n (b : byte) : N := Byte.to_N b.
(** Go's [byte(x)] conversion: truncation to the low 8 bits. *)
Definition n2b (n : N) : byte :=
  match Byte.of_N (n mod 256) with Some b => b | None => x00 end.

Definition bytes := list byte.

(** A Go [[]byte] where nil-ness matters: [None] is the nil slice. *)
Definition gslice := option bytes.
(** [len] and content of a possibly nil slice. *)
Definition gcontent (s : gslice) : bytes := match s with Some l => l | None => [] end.

Definition byte_eqb (a b : byte) : bool := Byte.eqb a b.

Definition two32 : N := 2 ^ 32.
Definition two63 : N := 2 ^ 63.
Definition two64 : N := 2 ^ 64.

(** Reduction of an integer to Go's 64-bit [int] (two's complement). *)
Definition wrap_int64 (z : Z) : Z :=
  ((z + 2 ^ 63) mod 2 ^ 64 - 2 ^ 63)%Z.

(** Go's conversion [int(x)] of a [uint64]. *)
Definition int_of_uint64 (x : N) : Z := wrap_int64 (Z.of_N x).

(** Go's [len(l)] as an [int]. *)
Definition zlen {A} (l : list A) : Z := Z.of_nat (length l).

(** Slice expression [l[i:]]. *)
Definition go_from {A} (l : list A) (i : Z) : res (list A) :=
  if ((0 <=? i) && (i <=? zlen l))%Z then Ok (skipn (Z.to_nat i) l) else Panic.

(** Slice expression [l[:j]] with [j <= len l] (the model's slices have [cap = len]). *)
Definition go_upto {A} (l : list A) (j : Z) : res (list A) :=
  if ((0 <=? j) && (j <=? zlen l))%Z then Ok (firstn (Z.to_nat j) l) else Panic.

(** Slice expression [l[i:j]]. *)
Definition go_slice {A} (l : list A) (i j : Z) : res (list A) :=
  if ((0 <=? i) && (i <=? j) && (j <=? zlen l))%Z
  then Ok (firstn (Z.to_nat (j - i)) (skipn (Z.to_nat i) l)) else Panic.

(** Index expression [l[i]]. *)
Definition go_index {A} (l : list A) (i : Z) : res A :=
  if (i <? 0)%Z then Panic
  else match nth_error l (Z.to_nat i) with Some a => Ok a | None => Panic end.

(** Tactics shared by the proof files. *)
Ltac inv H := inversion H; subst; clear H.
