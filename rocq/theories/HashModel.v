(** * Model of the chained hash table, HashMap and HashSet
    (/repo/src/collection/hash.go:40-255, hash_map.go, hash_set.go).

    [Equal] and [HashUint32] of the key type are parameters and may panic. A chain is the list of its nodes,
    head first. The float32 tests that decide when and how far to resize are a parameter ([policy]): the
    functional theorems hold for every policy. The policy of the default settings is given below in
    exact rational arithmetic; it agrees with the float32 computation (F32Model.v) up to 2^20 slots and entries
    (C18_policies_agree).
    [Size] is an unbounded integer. After a panic the table is not used any further. *)
From Coq Require Import List NArith ZArith Bool.
From Verif Require Import Base AVLModel.
Import ListNotations.

(** hash.go:47-53 without seed, loadFactor and multiplier, which never change. *)
Record hash (K V : Type) : Type := mk_hash { h_array : list (list (K * V)); h_size : Z }.
Arguments mk_hash {K V} _ _.
Arguments h_array {K V} _.
Arguments h_size {K V} _.

(** [after_put size cap] is [Some newCapacity] if the test at hash.go:142 holds, likewise
    [after_remove] for hash.go:170. *)
Record policy : Type := mk_policy {
  after_put : Z -> Z -> option Z;
  after_remove : Z -> Z -> option Z
}.

(** DEFAULT_HASH_LOAD_FACTOR 3/4 and DEFAULT_HASH_MULTIPLIER 3/2 (hash.go:40-45): grow to floor(3/2 cap) when
    size/cap >= 3/4; shrink to floor(cap / (3/2)^2) when size/cap < (3/4)/(3/2)^4 = 4/27. *)
Definition default_policy : policy := {|
  after_put := fun size cap => if (3 * cap <=? 4 * size)%Z then Some (3 * cap / 2)%Z else None;
  after_remove := fun size cap => if (27 * size <? 4 * cap)%Z then Some (4 * cap / 9)%Z else None
|}.

Definition min_capacity : Z := 10.

Section Hash.
  Context {K V : Type} (equalb : K -> K -> res bool) (hashf : K -> res N) (pol : policy).
  Notation hash := (hash K V).
  Notation chain := (list (K * V)).

  (** NewCustomHash, hash.go:74-101: the capacity is clamped from below. *)
  Definition new_hash (capacity : Z) : hash :=
    mk_hash (repeat [] (Z.to_nat (Z.max min_capacity capacity))) 0.

  (** [k.HashUint32(h.seed.Hash) % uint32(len(array))]; a zero divisor panics. *)
  Definition slot (arr : list chain) (k : K) : res nat :=
    let? h := hashf k in
    let m := (N.of_nat (length arr) mod two32)%N in
    if (m =? 0)%N then Panic else Ok (N.to_nat (h mod m)).

  (** [array[i]] and [array[i] = c]. *)
  Definition bucket (arr : list chain) (i : nat) : res chain :=
    match nth_error arr i with Some c => Ok c | None => Panic end.
  Fixpoint set_bucket (arr : list chain) (i : nat) (c : chain) : list chain :=
    match arr, i with
    | [], _ => []
    | _ :: arr', O => c :: arr'
    | c0 :: arr', S i' => c0 :: set_bucket arr' i' c
    end.

  (** The loop of Get, hash.go:109-113. *)
  Fixpoint chain_get (c : chain) (k : K) : res (option (K * V)) :=
    match c with
    | [] => Ok None
    | (k0, v0) :: c' =>
        let? e := equalb k0 k in
        if e then Ok (Some (k0, v0)) else chain_get c' k
    end.

  (** The loop of Put, hash.go:125-134: the old node and the chain with key and value replaced. *)
  Fixpoint chain_replace (c : chain) (k : K) (v : V) : res (option ((K * V) * chain)) :=
    match c with
    | [] => Ok None
    | (k0, v0) :: c' =>
        let? e := equalb k0 k in
        if e then Ok (Some ((k0, v0), (k, v) :: c'))
        else
          let? r := chain_replace c' k v in
          Ok (match r with Some (old, c'') => Some (old, (k0, v0) :: c'') | None => None end)
    end.

  (** The loop of Remove, hash.go:156-182: the node and the chain without it. *)
  Fixpoint chain_remove (c : chain) (k : K) : res (option ((K * V) * chain)) :=
    match c with
    | [] => Ok None
    | (k0, v0) :: c' =>
        let? e := equalb k0 k in
        if e then Ok (Some ((k0, v0), c'))
        else
          let? r := chain_remove c' k in
          Ok (match r with Some (old, c'') => Some (old, (k0, v0) :: c'') | None => None end)
    end.

  (** resize, hash.go:190-214: every node, buckets in order and chains from the head, is pushed on its
      new bucket. *)
  Fixpoint rehash (nodes : chain) (arr : list chain) : res (list chain) :=
    match nodes with
    | [] => Ok arr
    | (k, v) :: nodes' =>
        let? i := slot arr k in
        let? c := bucket arr i in
        rehash nodes' (set_bucket arr i ((k, v) :: c))
    end.
  Definition resize (arr : list chain) (newCapacity : Z) : res (list chain) :=
    let newCapacity := if (newCapacity <? min_capacity)%Z then min_capacity else newCapacity in
    if (zlen arr =? newCapacity)%Z then Ok arr
    else rehash (concat arr) (repeat [] (Z.to_nat newCapacity)).

  Definition maybe_resize (d : option Z) (arr : list chain) : res (list chain) :=
    match d with None => Ok arr | Some n => resize arr n end.

  (** Get, hash.go:103-117. *)
  Definition hash_get (h : hash) (k : K) : res (option (K * V)) :=
    let? i := slot (h_array h) k in
    let? c := bucket (h_array h) i in
    chain_get c k.

  (** Put, hash.go:119-148. *)
  Definition hash_put (h : hash) (k : K) (v : V) : res (hash * option (K * V)) :=
    let? i := slot (h_array h) k in
    let? c := bucket (h_array h) i in
    let? r := chain_replace c k v in
    match r with
    | Some (old, c') => Ok (mk_hash (set_bucket (h_array h) i c') (h_size h), Some old)
    | None =>
        let arr := set_bucket (h_array h) i ((k, v) :: c) in
        let size := (h_size h + 1)%Z in
        let? arr' := maybe_resize (after_put pol size (zlen arr)) arr in
        Ok (mk_hash arr' size, None)
    end.

  (** Remove, hash.go:150-184. *)
  Definition hash_remove (h : hash) (k : K) : res (hash * option (K * V)) :=
    let? i := slot (h_array h) k in
    let? c := bucket (h_array h) i in
    let? r := chain_remove c k in
    match r with
    | Some (old, c') =>
        let arr := set_bucket (h_array h) i c' in
        let size := (h_size h - 1)%Z in
        let? arr' := maybe_resize (after_remove pol size (zlen arr)) arr in
        Ok (mk_hash arr' size, Some old)
    | None => Ok (h, None)
    end.

  (** One call and a sequence of calls. HashMap (hash_map.go:21-50) returns the value of the node, HashSet
      (hash_set.go:21-50) its key. *)
  Definition hash_step (h : hash) (op : mop K V) : res (hash * option (K * V)) :=
    match op with
    | MPut k v => hash_put h k v
    | MRemove k => hash_remove h k
    | MGet k => let? n := hash_get h k in Ok (h, n)
    end.
  Fixpoint hash_run (h : hash) (ops : list (mop K V)) : res (hash * list (option (K * V))) :=
    match ops with
    | [] => Ok (h, [])
    | op :: ops' =>
        let? (h1, o) := hash_step h op in
        let? (h2, os) := hash_run h1 ops' in
        Ok (h2, o :: os)
    end.

  (** HashIterator, hash.go:61-65 and 216-255, over a table that is not modified meanwhile.
      [hi_curr] is the chain from currNode on. *)
  Record hiter : Type := mk_hiter { hi_pos : nat; hi_curr : chain }.
  Definition new_hiter : hiter := mk_hiter 0 [].

  (** The loop of advance, hash.go:242-247: [n] is the number of positions left; the result is the new
      position and whether the loop ended by [return]. *)
  Fixpoint hadvance_loop (n pos : nat) (curr : chain) : nat * bool :=
    match n with
    | O => (pos, false)
    | S n' => match curr with [] => hadvance_loop n' (S pos) curr | _ => (pos, true) end
    end.
  (** advance, hash.go:240-251. *)
  Definition hadvance (arr : list chain) (i : hiter) : hiter :=
    let (pos, returned) := hadvance_loop (length arr - hi_pos i) (hi_pos i) (hi_curr i) in
    if returned then mk_hiter pos (hi_curr i)
    else mk_hiter pos (match nth_error arr pos with Some c => c | None => hi_curr i end).
  Definition hi_done (arr : list chain) (i : hiter) : bool :=
    Nat.leb (length arr) (hi_pos i) || match hi_curr i with [] => true | _ => false end.
  (** Next, HasNext, Peek, hash.go:216-238. *)
  Definition hit_step (arr : list chain) (i : hiter) (c : icall) : hiter * iobs (K * V) :=
    let i1 := hadvance arr i in
    match c with
    | CHasNext => (i1, OHas (negb (hi_done arr i1)))
    | CPeek => (i1, OPeek (if hi_done arr i1 then None else hd_error (hi_curr i1)))
    | CNext => if hi_done arr i1 then (i1, ONext None)
               else (mk_hiter (hi_pos i1) (tl (hi_curr i1)), ONext (hd_error (hi_curr i1)))
    end.
  Fixpoint hit_run (arr : list chain) (i : hiter) (cs : list icall) : list (iobs (K * V)) :=
    match cs with
    | [] => []
    | c :: cs' => let (i1, o) := hit_step arr i c in o :: hit_run arr i1 cs'
    end.
  (** HashMapIterator and HashSetIterator, hash_map.go:52-72, hash_set.go:52-72: Next and Peek assert
      [*HashNode] on the result, which panics on the nil interface. *)
  Fixpoint hasserted_run (arr : list chain) (i : hiter) (cs : list icall) : res (list (iobs (K * V))) :=
    match cs with
    | [] => Ok []
    | c :: cs' =>
        let (i1, o) := hit_step arr i c in
        match o with
        | OPeek None => Panic
        | ONext None => Panic
        | _ => let? os := hasserted_run arr i1 cs' in Ok (o :: os)
        end
    end.
End Hash.

(** HashMap, hash_map.go:11-50: Get, Put and Remove return the value of the node found, nil ([None]) if none. *)
Section HashMap.
  Context {K V : Type} (equalb : K -> K -> res bool) (hashf : K -> res N) (pol : policy).
  Definition hm_result (n : option (K * option V)) : option V :=
    match n with Some (_, v) => v | None => None end.
  Definition hm_step (t : hash K (option V)) (op : mop K (option V)) : res (hash K (option V) * option V) :=
    let? (t', n) := hash_step equalb hashf pol t op in Ok (t', hm_result n).
  Fixpoint hm_run (t : hash K (option V)) (ops : list (mop K (option V)))
    : res (hash K (option V) * list (option V)) :=
    match ops with
    | [] => Ok (t, [])
    | op :: ops' =>
        let? (t1, o) := hm_step t op in
        let? (t2, os) := hm_run t1 ops' in
        Ok (t2, o :: os)
    end.
End HashMap.

(** HashSet, hash_set.go:11-50: the table stores the nil value ([tt]); Put and Remove return the key of the
    old node, Exist tells whether a node was found. *)
Section HashSet.
  Context {K : Type} (equalb : K -> K -> res bool) (hashf : K -> res N) (pol : policy).
  Definition hs_put (t : hash K unit) (k : K) : res (hash K unit * option K) :=
    let? (t', n) := hash_put equalb hashf pol t k tt in Ok (t', option_map fst n).
  Definition hs_remove (t : hash K unit) (k : K) : res (hash K unit * option K) :=
    let? (t', n) := hash_remove equalb hashf pol t k in Ok (t', option_map fst n).
  Definition hs_exist (t : hash K unit) (k : K) : res bool :=
    let? n := hash_get equalb hashf t k in Ok (match n with Some _ => true | None => false end).
End HashSet.
