(** * Model of the trie (/repo/src/util/trie_util.go).

    A node owns its children (no sharing), so a trie is a tree of values; a change of a node is written back into its ancestors. Offsets
    and EstBufSize are not modelled; printing is in PrintModel.v. *)
From Coq Require Import List NArith ZArith Bool.
From Coq Require Import Strings.Byte.
From Verif Require Import Base EndianModel VarintModel CmpModel KeyModel ValueModel AVLModel.
Import ListNotations.
Local Open Scope Z_scope.

(** TrieNode, trie_util.go:775-785: node key, data ([None] is a nil IValue) and children. The parent is the node it was reached from. *)
Inductive tnode : Type := TNode (nk : gslice) (data : option value) (children : avl gslice tnode).
Definition tn_key (n : tnode) : gslice := match n with TNode k _ _ => k end.
Definition tn_data (n : tnode) : option value := match n with TNode _ d _ => d end.
Definition tn_children (n : tnode) : avl gslice tnode := match n with TNode _ _ c => c end.

(** Keys of the children are ComparableByteSlice. *)
Definition ck_equal (a b : gslice) : res bool := cbs_equal a (CWrap b).
Definition ck_compare (a b : gslice) : res Z := cbs_compare a (CWrap b).

(** NewTrie, trie_util.go:544-549: a root with nil node key (NewTrieNode 787-803). *)
Definition new_trie : tnode := TNode None None new_avl.

(** SortedMap.Get, sorted_map.go:16-23: nil when the key is absent. *)
Definition smap_get (m : avl gslice tnode) (k : gslice) : res (option tnode) :=
  let? r := avl_get ck_equal ck_compare m k in Ok (option_map snd r).
(** TrieNode.GetChild, trie_util.go:839-841: the type assertion [.(ITrieNode)] on a nil interface panics. *)
Definition get_child (n : tnode) (k : gslice) : res (option tnode) :=
  let? r := smap_get (tn_children n) k in
  match r with Some c => Ok (Some c) | None => Panic end.
(** PutChild and RemoveChild, trie_util.go:843-851. *)
Definition put_child (n : tnode) (k : gslice) (c : tnode) : res tnode :=
  let? (m, _) := avl_put ck_equal ck_compare (tn_children n) (Some k) c in Ok (TNode (tn_key n) (tn_data n) m).
Definition remove_child (n : tnode) (k : gslice) : res tnode :=
  let? (m, _) := avl_remove ck_equal ck_compare (tn_children n) (Some k) in Ok (TNode (tn_key n) (tn_data n) m).

(** Trie.Get, trie_util.go:554-576. *)
Fixpoint trie_walk (n : tnode) (keys : list gslice) : res (option value) :=
  match keys with
  | [] => Ok (tn_data n)
  | k :: ks =>
      let? c := get_child n k in
      match c with None => Ok None | Some c => trie_walk c ks end
  end.
Definition trie_get (t : tnode) (k : ikey) : res (option value) :=
  if ikey_is_empty k then Ok (tn_data t) else trie_walk t (ikey_keys k).

(** Trie.Set, trie_util.go:578-618. The loop 588-598 returns the node and its ancestors, innermost first. *)
Fixpoint trie_descend (n : tnode) (keys : list gslice) (above : list tnode) : res (tnode * list tnode) :=
  match keys with
  | [] => Ok (n, above)
  | k :: ks =>
      let? c := get_child n k in
      match c with
      | Some c => trie_descend c ks (n :: above)
      | None => let c := TNode k None new_avl in
                let? n' := put_child n k c in
                trie_descend c ks (n' :: above)
      end
  end.
(** Writing a changed node back into its ancestors. *)
Fixpoint trie_rebuild (n : tnode) (above : list tnode) : res tnode :=
  match above with
  | [] => Ok n
  | p :: ps => let? p' := put_child p (tn_key n) n in trie_rebuild p' ps
  end.
(** The clean-up loop 611-615: [n] is currNode; its Parent() is nil at the root. *)
Fixpoint trie_prune (n : tnode) (above : list tnode) : res tnode :=
  if (avl_size (tn_children n) =? 0) && (match tn_data n with None => true | _ => false end)
  then match above with
       | [] => Panic
       | p :: ps => let? p' := remove_child p (tn_key n) in trie_prune p' ps
       end
  else trie_rebuild n above.
(** Set returns the new trie and the former value. *)
Definition trie_set (t : tnode) (k : ikey) (d : option value) : res (tnode * option value) :=
  if ikey_is_empty k then Ok (TNode (tn_key t) d (tn_children t), tn_data t)
  else
    let? (n, above) := trie_descend t (ikey_keys k) [] in
    let n' := TNode (tn_key n) d (tn_children n) in
    let? t' := match d with
               | Some _ => trie_rebuild n' above
               | None =>
                   match above with
                   | [] => Panic
                   | p :: ps => let? p' := remove_child p (tn_key n) in trie_prune p' ps
                   end
               end in
    Ok (t', tn_data n).

(** Calls on a trie. *)
Inductive trie_op := TSet (k : ikey) (d : option value) | TGet (k : ikey).
Definition trie_step (t : tnode) (op : trie_op) : res (tnode * option value) :=
  match op with
  | TSet k d => trie_set t k d
  | TGet k => let? v := trie_get t k in Ok (t, v)
  end.
Fixpoint trie_run (t : tnode) (ops : list trie_op) : res (tnode * list (option value)) :=
  match ops with
  | [] => Ok (t, [])
  | op :: ops' =>
      let? (t1, o) := trie_step t op in
      let? (t2, os) := trie_run t1 ops' in
      Ok (t2, o :: os)
  end.

(** TrieNode.FullKey, trie_util.go:807-821: the node keys from the root down to the node, the root's included. *)
Definition full_key (path : list gslice) : res ikey := add_all new_key path.
(** NewTrieKeyIterator and NewTrieRangeIterator start with root.FullKey(), trie_util.go:995-1001 and 1146-1153. For the
    nodes of this package this never returns (see C62_iterators_refuted); what follows it is in TrieIterModel.v. *)
Definition iterator_root_check (t : tnode) : res unit :=
  let? k := full_key [tn_key t] in
  if ikey_is_empty k then Ok tt else Panic.
(** Iterator, KeyIterator, RangeIterator, trie_util.go:620-642. A value that is found is converted to ITrieNode, which no value is. *)
Definition trie_iterator (t : tnode) : res unit := iterator_root_check t.
Definition trie_key_iterator (t : tnode) (k : option ikey) : res unit :=
  match k with
  | None => iterator_root_check t
  | Some k =>
      if ikey_is_empty k then iterator_root_check t
      else let? v := trie_get t k in
           match v with None => Ok tt | Some _ => Panic end
  end.
Definition trie_range_iterator (t : tnode) (start end_ : option ikey) : res unit := iterator_root_check t.

(** TrieNode.Encode, trie_util.go:881-912: [parent] is the offset of the parent, [None] for a nil parent, whose Offset() panics; a nil
    data panics as well. *)
Definition tnode_encode (n : tnode) (parent : option N) : res bytes :=
  let? k := encode_varchar (gcontent (tn_key n)) in
  match parent with
  | None => Panic
  | Some off =>
      let? o := encode_uvarint64 off in
      match tn_data n with
      | None => Panic
      | Some v =>
          let? d := value_encode v in
          let? c := encode_uvarint64 (Z.to_N (avl_size (tn_children n))) in
          Ok (k ++ o ++ d ++ c)
      end
  end.
(** Trie.Encode, trie_util.go:667-725, begins with the root. The rest is not modelled, since this never returns. *)
Definition trie_encode (t : tnode) : res unit := let? _ := tnode_encode t None in Ok tt.

(** TrieKeyIterator, trie_util.go:984-988: a current node, given by the node keys from the root down to it, and a stack of iterators over
    children, innermost first, each with the paths of the nodes to come. [&TrieKeyIterator{}] is the empty one. *)
Record kiter := mk_kiter { ki_curr : option (list gslice); ki_paths : list (list (list gslice)) }.
Definition empty_kiter : kiter := mk_kiter None [].
(** advance, trie_util.go:1099-1117. *)
Fixpoint drop_finished (ps : list (list (list gslice))) : list (list (list gslice)) :=
  match ps with [] :: ps' => drop_finished ps' | _ => ps end.
Definition ki_advance (it : kiter) : kiter :=
  match ki_curr it with Some _ => it | None => mk_kiter None (drop_finished (ki_paths it)) end.
(** HasNext, trie_util.go:1063-1068. *)
Definition ki_has_next (it : kiter) : bool :=
  let it := ki_advance it in
  match ki_curr it with None => match ki_paths it with [] => true | _ => false end | Some _ => false end.
(** Peek, trie_util.go:1070-1097; Next (1022-1061) computes the same FullKey. [Ok None] is (nil, nil). *)
Definition ki_peek (it : kiter) : res (option ikey) :=
  let it := ki_advance it in
  match ki_curr it with
  | Some path => let? k := full_key path in Ok (Some k)
  | None =>
      match ki_paths it with
      | (path :: _) :: _ => let? k := full_key path in Ok (Some k)
      | _ => Ok None
      end
  end.

(** ** Parsed tries *)
(** MappedTrieNode.Decode, trie_util.go:419-479, for a node whose buffer is [buf]; [known] are the offsets in known_nodes. [Ok n] is a dummy
    node of [n] bytes. A node that is not a dummy ends with [children.Put] on its parent, and MappedTrie.Decode creates nodes without a
    children map, so this is a nil dereference. *)
Definition mapped_node_decode (buf : bytes) (known : list N) : res Z :=
  let? (flag, n0) := decode_uvarint64 buf in
  if N.eqb flag 0 then Ok n0
  else
    let? b := go_from buf n0 in
    let? (k, n1) := decode_varchar b in
    match k with
    | [] => Err
    | _ =>
        let? b := go_from buf (n0 + n1) in
        let? (off, n2) := decode_uvarint64 b in
        if existsb (N.eqb (off mod 2 ^ 32)) known then
          let? b := go_from buf (n0 + n1 + n2) in
          let? _ := new_simple_value b in
          let? _ := decode_uvarint64 buf in
          Panic
        else Err
    end.
(** MappedTrie.Decode, trie_util.go:190-226. After a dummy root the next node has the root as parent: a dummy ends the loop. *)
Definition new_mapped_trie (buf : bytes) : res Z :=
  let? pos := mapped_node_decode buf [0%N] in
  let? b := go_from buf pos in
  let? n := mapped_node_decode b [0%N] in
  Ok (pos + n).
(** MappedTrie.Get on a trie that was parsed: the root is a dummy without children, trie_util.go:103-129 and 362-373. *)
Definition mapped_trie_get (k : ikey) : res (option value) :=
  if ikey_is_empty k then Ok None
  else match ikey_keys k with [] => Ok None | _ :: _ => Ok None end.
(** MappedTrie.Iterator, KeyIterator, RangeIterator, trie_util.go:135-165: MappedTrieNode.FullKey (303-320) of the root converts its nil parent
    with a type assertion, which panics. *)
Definition mapped_full_key_of_root : res ikey := Panic.
Definition mapped_iterator : res unit := let? _ := mapped_full_key_of_root in Ok tt.
Definition mapped_key_iterator (k : option ikey) : res unit :=
  match k with
  | None => mapped_iterator
  | Some k => if ikey_is_empty k then mapped_iterator
              else let? v := mapped_trie_get k in match v with None => Ok tt | Some _ => Panic end
  end.
