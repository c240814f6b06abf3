(** * Specification vocabulary for perfect hash tables, independent of the model. *)
From Coq Require Import List NArith.
From Coq Require Import Strings.Byte.
Import ListNotations.

(** The hash of a key is the XOR of the hashes of its sub keys (a nil sub key counts as empty). *)
Definition xor_hash (h : list byte -> N) (subs : list (option (list byte))) : N :=
  fold_right N.lxor 0%N (map (fun s => h match s with Some l => l | None => [] end) subs).

(** The seeds are rich enough for a table of [size] slots: every assignment of distinct slots to distinct members can be obtained
    with some 32-bit seed. *)
Definition rich (h : N -> list byte -> N) (size : N) (members : list (list (option (list byte)))) : Prop :=
  forall ms : list (list (option (list byte)) * N),
    NoDup (map fst ms) -> NoDup (map snd ms) -> (forall m, In m (map fst ms) -> In m members) -> (forall n, In n (map snd ms) -> (n < size)%N) ->
    exists s, (s < 2 ^ 32)%N /\ forall m n, In (m, n) ms -> (xor_hash (h s) m mod size = n)%N.
