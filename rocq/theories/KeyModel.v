(** * Model of keys (/repo/src/util/key_util.go). *)
From Coq Require Import List NArith ZArith Bool.
From Coq Require Import Strings.Byte.
From Verif Require Import Base EndianModel VarintModel CmpModel.
Import ListNotations.

(** const MAX_KEY_LENGTH, const_util.go:19. *)
Definition max_key_length : Z := 4096.

(** [make([][]byte, n)] with [n] a uint64, key_util.go:230: the Go runtime panics ("len out of range") when the
    24-byte slice headers do not fit into its 48-bit address space. Running out of memory below that is not
    modelled. *)
Definition make_slices_ok (n : N) : bool := N.leb (n * 24) (2 ^ 48).

(** The three implementations of IKey.
    - [KEmpty]: EmptyKey, key_util.go:35-37.
    - [KMapped keys buf]: MappedKey, key_util.go:137-142, as NewMappedKey returns it ([decoded] is true).
    - [KKey encoded keys buf est]: Key, key_util.go:351-356. [keys] is never a nil slice for a Key made with
      NewKey/NewSimpleKey/NewStringKey; its elements may be nil. *)
Inductive ikey :=
| KEmpty
| KMapped (keys : list gslice) (buf : bytes)
| KKey (encoded : bool) (keys : list gslice) (buf : gslice) (est : Z).

(** NewKey, key_util.go:358-360. *)
Definition new_key : ikey := KKey false [] None 1.
(** NewSimpleKey and NewStringKey, key_util.go:362-368 (the latter never has a nil sub key). *)
Definition new_simple_key (s : gslice) : ikey := KKey false [s] None (2 + zlen (gcontent s)).

(** Key(), key_util.go:47-49, 171-178, 375-377. *)
Definition ikey_keys (k : ikey) : list gslice :=
  match k with KEmpty => [] | KMapped ks _ => ks | KKey _ ks _ _ => ks end.

(** SubKeyAt, key_util.go:51-53, 180-191, 379-385. *)
Definition sub_key_at (k : ikey) (idx : nat) : res gslice :=
  match k with
  | KEmpty => Panic
  | _ => match nth_error (ikey_keys k) idx with Some s => Ok s | None => Panic end
  end.

(** IsEmpty, key_util.go:42-44, 159-169, 370-372. *)
Definition ikey_is_empty (k : ikey) : bool :=
  match k with
  | KEmpty => true
  | KMapped ks buf => match buf with [] => true | _ => match ks with [] => true | _ => false end end
  | KKey _ ks _ _ => match ks with [] => true | _ => false end
  end.

(** Buf, key_util.go:55-59, 193-198, 387-393. *)
Definition ikey_buf (k : ikey) : res gslice :=
  match k with
  | KEmpty => Ok (Some [x00])
  | KMapped _ buf => if ikey_is_empty k then Ok (Some [x00]) else Ok (Some buf)
  | KKey encoded _ buf _ => if encoded then Ok buf else Panic
  end.

(** EstBufSize, key_util.go:61-63, 200-205, 395-397. *)
Definition ikey_est (k : ikey) : Z :=
  match k with
  | KEmpty => 1
  | KMapped _ buf => if ikey_is_empty k then 1 else zlen buf
  | KKey _ _ _ est => est
  end.

(** IsEncoded and IsDecoded, key_util.go:65-67, 73-75, 207-209, 215-217, 399-401, 432-434. A parsed key's [keys]
    is never nil, so the test [k.keys == nil] is false. *)
Definition ikey_is_encoded (k : ikey) : bool :=
  match k with KEmpty => true | KMapped _ _ => true | KKey encoded _ _ _ => encoded end.
Definition ikey_is_decoded (k : ikey) : bool :=
  match k with KEmpty => true | KMapped _ _ => false | KKey _ _ _ _ => true end.

(** The loop key_util.go:414-421; [buf] is what has been written so far. *)
Fixpoint encode_subkeys (keys : list gslice) (buf : bytes) : res bytes :=
  match keys with
  | [] => Ok buf
  | k :: keys' =>
      let? e := encode_varchar (gcontent k) in
      let buf' := buf ++ e in
      if (max_key_length <? zlen buf')%Z then Err else encode_subkeys keys' buf'
  end.

(** The bytes computed by Key.Encode, key_util.go:403-422 (the [k.keys != nil] branch). *)
Definition encode_keys (keys : list gslice) : res bytes :=
  let? c := encode_uvarint64 (N.of_nat (length keys)) in
  if (max_key_length <? zlen c)%Z then Err else encode_subkeys keys c.

(** Key.Encode, key_util.go:403-430: new state and whether an error was returned. *)
Definition key_encode (k : ikey) : res ikey :=
  match k with
  | KKey _ ks _ _ => let? buf := encode_keys ks in Ok (KKey true ks (Some buf) (zlen buf))
  | _ => Ok k                       (* EmptyKey.Encode 69-71 and MappedKey.Encode 211-213 do nothing *)
  end.

(** Key.Add, key_util.go:545-554. *)
Definition key_add (k : ikey) (s : gslice) : res ikey :=
  match k with
  | KKey e ks buf est =>
      match gcontent s with
      | [] => Panic
      | _ => Ok (KKey e (ks ++ [s]) buf (est + 1 + zlen (gcontent s)))
      end
  | _ => Panic                      (* no such method *)
  end.

(** The loop key_util.go:231-237 for [n] sub keys starting at [pos]. *)
Fixpoint decode_subkeys (n : nat) (buf : bytes) (pos : Z) : res (list gslice * Z) :=
  match n with
  | O => Ok ([], pos)
  | S n' =>
      let? rest := go_from buf pos in
      let? (k, l) := decode_varchar rest in
      let? (ks, pos') := decode_subkeys n' buf (pos + l)%Z in
      Ok (Some k :: ks, pos')
  end.

(** MappedKey.Decode, key_util.go:219-242. *)
Definition decode_keys (buf : bytes) : res (list gslice * Z) :=
  let? (n, l) := decode_uvarint64 buf in
  if make_slices_ok n then decode_subkeys (N.to_nat n) buf l else Panic.

(** NewMappedKey, key_util.go:147-157: key and number of bytes consumed. *)
Definition new_mapped_key (buf : gslice) : res (ikey * Z) :=
  let? (ks, n) := decode_keys (gcontent buf) in Ok (KMapped ks (gcontent buf), n).

(** Copy, key_util.go:81-83, 244-251, 440-449. A parse error inside MappedKey.Copy is turned into a panic. *)
Fixpoint add_all (k : ikey) (l : list gslice) : res ikey :=
  match l with [] => Ok k | s :: l' => let? k' := key_add k s in add_all k' l' end.
Definition ikey_copy (k : ikey) : res ikey :=
  match k with
  | KEmpty => Ok KEmpty
  | KMapped _ buf => match new_mapped_key (Some buf) with Ok (r, _) => Ok r | _ => Panic end
  | KKey _ ks _ _ => add_all new_key ks
  end.
(** CopyConstruct, key_util.go:85-87, 253-262, 451-460. *)
Definition ikey_copy_construct (k : ikey) : res ikey :=
  match k with KEmpty => Ok KEmpty | _ => add_all new_key (ikey_keys k) end.

(** The argument of Equal/Compare: nil interface, nil pointer of type *Key or *MappedKey, value of a type that is
    not a key, or a key. *)
Inductive kobj := ONil | ONilPtr | ONotKey | OKey (k : ikey).

(** The loop key_util.go:278-282 and 484-488. *)
Fixpoint equal_subkeys (ks : list gslice) (o : ikey) (i : nat) : res bool :=
  match ks with
  | [] => Ok true
  | k :: ks' =>
      let? s := sub_key_at o i in
      if equal_byte_slice k s then equal_subkeys ks' o (S i) else Ok false
  end.
(** Equal, key_util.go:89-100, 264-285, 470-491. *)
Definition ikey_equal (k : ikey) (o : kobj) : res bool :=
  match o with
  | ONil | ONotKey => Ok false
  | ONilPtr => Panic
  | OKey t =>
      match k with
      | KEmpty => Ok (Nat.eqb (length (ikey_keys t)) 0)
      | _ => if Nat.eqb (length (ikey_keys k)) (length (ikey_keys t))
             then equal_subkeys (ikey_keys k) t 0 else Ok false
      end
  end.

(** The loop key_util.go:298-308 and 504-514 with the return statements after it; [total] is [len(k.Key())]. *)
Fixpoint compare_subkeys (ks : list gslice) (t : ikey) (idx total : nat) : res Z :=
  match ks with
  | [] => Ok (if Nat.ltb total (length (ikey_keys t)) then (-1)%Z else 0%Z)
  | k :: ks' =>
      if Nat.ltb (length (ikey_keys t)) idx then Ok 1%Z
      else
        let? s := sub_key_at t idx in
        let? r := compare_byte_slice k s in
        if Z.eqb r 0 then compare_subkeys ks' t (S idx) total else Ok r
  end.
(** Compare, key_util.go:102-118, 287-316, 493-522. *)
Definition ikey_compare (k : ikey) (o : kobj) : res Z :=
  match o with
  | ONil | ONilPtr => Ok 1%Z
  | ONotKey => Panic
  | OKey t =>
      match k with
      | KEmpty => Ok (if Nat.eqb (length (ikey_keys t)) 0 then 0%Z else (-1)%Z)
      | _ => compare_subkeys (ikey_keys k) t 0 (length (ikey_keys k))
      end
  end.

(** HashUint32, key_util.go:120-123, 318-324, 462-468; [f] is the byte hash passed in. *)
Definition ikey_hash (f : bytes -> N) (k : ikey) : N :=
  fold_left (fun h s => N.lxor h (f (gcontent s))) (ikey_keys k) 0%N.
