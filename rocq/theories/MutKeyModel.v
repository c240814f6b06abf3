(** * Model of maps whose keys are objects that their owner changes later (/repo/src/collection/hash_map.go:21-50,
    sorted_map.go:17-45).

    HashMap and SortedMap keep the key objects they are given: NewHashableByteSlice and the like (hashable.go,
    comparable.go) keep the slice of the caller, and Put stores the pointer (hash.go:129 and 138, avl.go:169 and 174). So
    a later write to the slice changes the key inside the map. Here an object is an index into the list of the contents
    all objects have now; Equal, Compare and HashUint32 read these. The tables and trees are those of HashModel and
    AVLModel. *)
From Coq Require Import List NArith ZArith Bool.
From Verif Require Import Base AVLModel HashModel.
Import ListNotations.

Section MutKey.
  Context {X V : Type}.

  (** Methods of an object: they read its present content. An object that does not exist is not asked. *)
  Definition ask {A} (f : X -> res A) (w : list X) (i : nat) : res A :=
    match nth_error w i with Some x => f x | None => Panic end.
  Definition ask2 {A} (f : X -> X -> res A) (w : list X) (i j : nat) : res A :=
    match nth_error w i, nth_error w j with Some x, Some y => f x y | _, _ => Panic end.

  (** What a program does: make an object, change the content of one, call the map. *)
  Inductive event : Type :=
  | Make (x : X)
  | Change (i : nat) (x : X)
  | Call (op : mop nat (option V)).

  Fixpoint set_obj (w : list X) (i : nat) (x : X) : list X :=
    match w, i with
    | [], _ => []
    | _ :: w', O => x :: w'
    | y :: w', S i' => y :: set_obj w' i' x
    end.
  Definition after (w : list X) (e : event) : list X :=
    match e with Make x => w ++ [x] | Change i x => set_obj w i x | Call _ => w end.

  (** A run on a map of type [T] and the answers of its calls. *)
  Fixpoint play {T : Type} (call : list X -> T -> mop nat (option V) -> res (T * option V))
      (w : list X) (t : T) (evs : list event) : res (T * list (option V)) :=
    match evs with
    | [] => Ok (t, [])
    | Call op :: evs' =>
        let? (t1, o) := call w t op in
        let? (t2, os) := play call w t1 evs' in
        Ok (t2, o :: os)
    | e :: evs' => play call (after w e) t evs'
    end.

  (** The two maps. *)
  Definition call_hash (equalx : X -> X -> res bool) (hashx : X -> res N) (pol : policy) (w : list X)
    : hash nat (option V) -> mop nat (option V) -> res (hash nat (option V) * option V) :=
    hm_step (ask2 equalx w) (ask hashx w) pol.
  Definition call_sorted (equalx : X -> X -> res bool) (comparex : X -> X -> res Z) (w : list X)
    : avl nat (option V) -> mop nat (option V) -> res (avl nat (option V) * option V) :=
    sm_step (ask2 equalx w) (ask2 comparex w).
End MutKey.
Arguments event : clear implicits.
