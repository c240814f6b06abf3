(** * Model of the minimal perfect hash table (/repo/src/util/mph_util.go).

    [H seed] is the byte hash; the code uses collection.MurmurSeed(seed).Hash. Keys are never nil interfaces. *)
From Coq Require Import List NArith ZArith Bool Permutation Sorted.
From Coq Require Import Strings.Byte.
From Verif Require Import Base EndianModel KeyModel.
Import ListNotations.
Local Open Scope N_scope.

(** MPHTable, mph_util.go:46-54. [m_keys = None] is a nil verifyKey. The masks are Go ints that are never negative. *)
Record mph := mkMPH {
  m_level0 : list N; m_mask0 : N;
  m_level1 : list N; m_mask1 : N;
  m_keys : option (list ikey);
  m_seed : N; m_hashes : list N }.

(** Index and assignment on slices. *)
Definition nth_res {A} (l : list A) (n : nat) : res A := match nth_error l n with Some a => Ok a | None => Panic end.
Fixpoint set_nth {A} (l : list A) (n : nat) (x : A) : list A :=
  match l, n with
  | [], _ => []
  | _ :: l', O => x :: l'
  | a :: l', S n' => a :: set_nth l' n' x
  end.
Definition set_res {A} (l : list A) (n : nat) (x : A) : res (list A) :=
  if Nat.ltb n (length l) then Ok (set_nth l n x) else Panic.

(** nextPow2, mph_util.go:346-352. The loop variable is an int; 62 doublings reach 2^62. *)
Fixpoint next_pow2_loop (fuel : nat) (i n : N) : N :=
  if n <=? i then i else match fuel with O => i | S f => next_pow2_loop f (2 * i) n end.
Definition next_pow2 (n : N) : N := next_pow2_loop 62 1 n.

Section WithHash.
Context (H : N -> bytes -> N).

(** [int(k.HashUint32(MurmurSeed(seed).Hash)) & mask] *)
Definition slot (seed : N) (mask : N) (k : ikey) : nat := N.to_nat (N.land (ikey_hash (H seed) k) mask).

(** The loop mph_util.go:281-285; [i] is the index of the first key. *)
Fixpoint fill_buckets (mask0 : N) (keys : list ikey) (i : nat) (sparse : list (list nat)) : res (list (list nat)) :=
  match keys with
  | [] => Ok sparse
  | k :: keys' =>
      let n := slot 0 mask0 k in
      let? vals := nth_res sparse n in
      let? sparse' := set_res sparse n (vals ++ [i]) in
      fill_buckets mask0 keys' (S i) sparse'
  end.

(** The loop mph_util.go:286-291: the non-empty buckets with their numbers. *)
Fixpoint nonempty_buckets (n : nat) (sparse : list (list nat)) : list (nat * list nat) :=
  match sparse with
  | [] => []
  | vals :: sparse' =>
      match vals with
      | [] => nonempty_buckets (S n) sparse'
      | _ => (n, vals) :: nonempty_buckets (S n) sparse'
      end
  end.

(** Freeing the slots taken by a failed attempt, mph_util.go:303-305 (these indices have just been used, so none is out of range). *)
Definition clear_slots (tmp : list nat) (occ : list bool) : list bool := fold_left (fun o n => set_nth o n false) tmp occ.

(** One attempt with a seed, mph_util.go:299-313: whether it succeeded, and the two arrays. A failed attempt leaves its writes in level1. *)
Fixpoint try_bucket (seed mask1 : N) (keys : list ikey) (vals : list nat) (occ : list bool) (level1 : list N) (tmp : list nat)
  : res (bool * list bool * list N) :=
  match vals with
  | [] => Ok (true, occ, level1)
  | i :: vals' =>
      let? k := nth_res keys i in
      let n := slot seed mask1 k in
      let? o := nth_res occ n in
      if (o : bool) then Ok (false, clear_slots tmp occ, level1)
      else
        let? occ' := set_res occ n true in
        let? level1' := set_res level1 n (N.of_nat i mod 2 ^ 32) in
        try_bucket seed mask1 keys vals' occ' level1' (tmp ++ [n])
  end.

(** The [goto trySeed] loop, mph_util.go:297-313, with [seed++] in uint32. [Ok None]: more than [fuel] attempts. *)
Fixpoint seed_loop (fuel : nat) (mask1 : N) (keys : list ikey) (vals : list nat) (seed : N) (occ : list bool) (level1 : list N)
  : res (option (N * list bool * list N)) :=
  match fuel with
  | O => Ok None
  | S fuel' =>
      let? (ok, occ', level1') := try_bucket seed mask1 keys vals occ level1 [] in
      if (ok : bool) then Ok (Some (seed, occ', level1'))
      else seed_loop fuel' mask1 keys vals ((seed + 1) mod 2 ^ 32) occ' level1'
  end.

(** The loop over the buckets, mph_util.go:296-315. *)
Fixpoint place_buckets (fuel : nat) (mask1 : N) (keys : list ikey) (bs : list (nat * list nat)) (level0 : list N) (occ : list bool) (level1 : list N)
  : res (option (list N * list N)) :=
  match bs with
  | [] => Ok (Some (level0, level1))
  | (n, vals) :: bs' =>
      let? r := seed_loop fuel mask1 keys vals 0 occ level1 in
      match r with
      | None => Ok None
      | Some (seed, occ', level1') =>
          let? level0' := set_res level0 n seed in
          place_buckets fuel mask1 keys bs' level0' occ' level1'
      end
  end.

(** MPHBuild, mph_util.go:270-344. [sort] stands for sort.Sort(bySize(...)), whose order of equal sizes is unspecified; [vseed] is the
    random verification seed. [Ok None]: some bucket needed more than [fuel] attempts. *)
Definition mph_buckets (keys : list ikey) : res (list (nat * list nat)) :=
  let n := N.of_nat (length keys) in
  let len0 := next_pow2 (n / 4) in
  let? sparse := fill_buckets (len0 - 1) keys 0 (repeat [] (N.to_nat len0)) in
  Ok (nonempty_buckets 0 sparse).

Definition mph_build (fuel : nat) (sort : list (nat * list nat) -> list (nat * list nat)) (keys : list ikey) (by_key : bool) (vseed : N)
  : res (option mph) :=
  let n := N.of_nat (length keys) in
  let len0 := next_pow2 (n / 4) in
  let len1 := next_pow2 n in
  let? buckets := mph_buckets keys in
  let? r := place_buckets fuel (len1 - 1) keys (sort buckets)
              (repeat 0 (N.to_nat len0)) (repeat false (N.to_nat len1)) (repeat 0 (N.to_nat len1)) in
  match r with
  | None => Ok None
  | Some (level0, level1) =>
      Ok (Some (if by_key
                then mkMPH level0 (len0 - 1) level1 (len1 - 1) (Some keys) 0 []
                else mkMPH level0 (len0 - 1) level1 (len1 - 1) None vseed (map (ikey_hash (H vseed)) keys)))
  end.

(** Lookup, mph_util.go:355-369. *)
Definition mph_lookup (t : mph) (s : ikey) : res (N * bool) :=
  let? seed := nth_res (m_level0 t) (slot 0 (m_mask0 t) s) in
  let? n := nth_res (m_level1 t) (slot seed (m_mask1 t) s) in
  match m_keys t with
  | Some ks =>
      let? k := nth_res ks (N.to_nat n) in
      let? b := ikey_equal s (OKey k) in
      Ok (n, b)
  | None =>
      let? h := nth_res (m_hashes t) (N.to_nat n) in
      Ok (n, ikey_hash (H (m_seed t)) s =? h)
  end.
End WithHash.

(** sort.Sort with bySize.Less: some rearrangement in which sizes do not increase. *)
Definition sorts_by_size (sort : list (nat * list nat) -> list (nat * list nat)) : Prop :=
  forall l, Permutation l (sort l) /\ StronglySorted (fun a b => (length (snd b) <= length (snd a))%nat) (sort l).

(** The bytes of verifyKey[i] in Encode, mph_util.go:229-242: encoded first if necessary. (The key object remembers its encoding; Lookup does not
    depend on that.) *)
Definition key_wire (k : ikey) : res bytes :=
  let? k' := (if ikey_is_encoded k then Ok k else key_encode k) in
  let? b := ikey_buf k' in Ok (gcontent b).
Fixpoint keys_wire (ks : list ikey) : res bytes :=
  match ks with
  | [] => Ok []
  | k :: ks' => let? b := key_wire k in let? r := keys_wire ks' in Ok (b ++ r)
  end.

Definition be32 (x : N) : bytes := be_put 4 (x mod 2 ^ 32).
Definition be32s (l : list N) : bytes := flat_map be32 l.

(** Encode, mph_util.go:191-266. *)
Definition mph_encode (t : mph) : res bytes :=
  let head :=
    (match m_keys t with Some _ => x01 | None => x00 end) ::
    be32 (N.of_nat (length (m_level0 t))) ++ be32s (m_level0 t) ++ be32 (m_mask0 t) ++
    be32 (N.of_nat (length (m_level1 t))) ++ be32s (m_level1 t) ++ be32 (m_mask1 t) in
  match m_keys t with
  | Some ks => let? w := keys_wire ks in Ok (head ++ be32 (N.of_nat (length ks)) ++ w)
  | None => Ok (head ++ be32 (m_seed t) ++ be32 (N.of_nat (length (m_hashes t))) ++ be32s (m_hashes t))
  end.

(** A length test followed by Uint32(buf[pos:]), mph_util.go:75-79 and so on. *)
Definition read32 (buf : bytes) (pos : Z) : res (N * Z) :=
  if (zlen buf <? pos + 4)%Z then Err
  else let? b := go_from buf pos in let? v := be_read 4 b in Ok (v, (pos + 4)%Z).
(** The loops 86-89, 111-114 and 178-181. *)
Fixpoint read32s (n : nat) (buf : bytes) (pos : Z) : res (list N * Z) :=
  match n with
  | O => Ok ([], pos)
  | S n' =>
      let? b := go_from buf pos in let? v := be_read 4 b in
      let? (l, pos') := read32s n' buf (pos + 4)%Z in
      Ok (v :: l, pos')
  end.
(** A count with a test that the data are there, then the data. *)
Definition read_array (buf : bytes) (pos : Z) : res (list N * Z) :=
  let? (n, pos) := read32 buf pos in
  if (zlen buf <? pos + 4 * Z.of_N n)%Z then Err else read32s (N.to_nat n) buf pos.
(** The loop 140-155. *)
Fixpoint read_keys (n : nat) (buf : bytes) (pos : Z) : res (list ikey * Z) :=
  match n with
  | O => Ok ([], pos)
  | S n' =>
      let? b := go_from buf pos in
      let? (k, l) := new_mapped_key (Some b) in
      if (zlen buf <? pos + l)%Z then Err
      else let? (ks, pos') := read_keys n' buf (pos + l)%Z in Ok (k :: ks, pos')
  end.

(** NewMPHTable, mph_util.go:57-188: table and number of bytes consumed. *)
Definition new_mph_table (buf : bytes) : res (mph * Z) :=
  match buf with
  | [] => Err
  | m :: _ =>
      if negb ((b2n m =? 0) || (b2n m =? 1)) then Err
      else
        let? (l0, pos) := read_array buf 1 in
        let? (mask0, pos) := read32 buf pos in
        let? (l1, pos) := read_array buf pos in
        let? (mask1, pos) := read32 buf pos in
        if b2n m =? 1
        then let? (n, pos) := read32 buf pos in
             let? (ks, pos) := read_keys (N.to_nat n) buf pos in
             Ok (mkMPH l0 mask0 l1 mask1 (Some ks) 0 [], pos)
        else let? (seed, pos) := read32 buf pos in
             let? (hs, pos) := read_array buf pos in
             Ok (mkMPH l0 mask0 l1 mask1 None seed hs, pos)
  end.
