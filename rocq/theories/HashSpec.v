(** * What the hash containers assume of their keys, and the published MurmurHash3.
    Written without reference to the table. *)
From Coq Require Import List NArith ZArith.
From Verif Require Import Base.
Import ListNotations.

(** The key type as seen through [Equal] and [HashUint32] on the keys in [D]: the calls do not
    panic there, [Equal] decides the equivalence [eqv], and equal keys have equal hashes. *)
Record hash_keys {K : Type} (D : K -> Prop) (eqv : K -> K -> Prop)
    (equalb : K -> K -> res bool) (hashf : K -> res N) : Prop := {
  hk_equal : forall a b, D a -> D b -> exists e, equalb a b = Ok e /\ (e = true <-> eqv a b);
  hk_hash : forall a, D a -> exists n, hashf a = Ok n;
  hk_same : forall a b, D a -> D b -> eqv a b -> hashf a = hashf b;
  hk_refl : forall a, D a -> eqv a a;
  hk_sym : forall a b, eqv a b -> eqv b a;
  hk_trans : forall a b c, eqv a b -> eqv b c -> eqv a c
}.

