(** * Model of trie nodes as objects in shared memory (/repo/src/util/trie_util.go).

    TrieModel treats a trie as a tree of values. Here a TrieNode is an object with an address, which several nodes and the caller can
    hold: PutChild links nodes in any shape, also under a key or a parent other than the node's own. A parent or a child is a TrieNode or nil (a
    MappedTrieNode as parent or child is not modelled). The children map is changed only through the node (not through Children()). Keys and
    values are immutable. EstBufSize is not modelled, printing is in PrintModel.v. A Put or Remove on the children that panics leaves them as they
    were (C86_byte_slices). *)
From Coq Require Import List NArith ZArith Bool Arith.
From Coq Require Import Strings.Byte.
From Verif Require Import Base EndianModel VarintModel CmpModel KeyModel ValueModel AVLModel AVLSpec TrieModel.
Import ListNotations.
Local Open Scope Z_scope.

(** TrieNode, trie_util.go:775-785. [nd_buf] is nil until encoded is set; [nd_kids] holds nil for a nil child. *)
Record node := mk_node {
  nd_parent : option nat;
  nd_key : gslice;
  nd_data : option value;
  nd_kids : avl gslice (option nat);
  nd_buf : option bytes;
  nd_off : N }.
Definition nodes := list node.

Definition with_data (x : node) d := mk_node (nd_parent x) (nd_key x) d (nd_kids x) (nd_buf x) (nd_off x).
Definition with_kids (x : node) m := mk_node (nd_parent x) (nd_key x) (nd_data x) m (nd_buf x) (nd_off x).
Definition with_buf (x : node) b := mk_node (nd_parent x) (nd_key x) (nd_data x) (nd_kids x) b (nd_off x).
Definition with_off (x : node) o := mk_node (nd_parent x) (nd_key x) (nd_data x) (nd_kids x) (nd_buf x) o.

Fixpoint set_nth {A} (l : list A) (i : nat) (x : A) : list A :=
  match l, i with
  | [], _ => []
  | _ :: l', O => x :: l'
  | y :: l', S i' => y :: set_nth l' i' x
  end.

(** NewTrieNode, trie_util.go:787-803: without a parent the key is dropped. *)
Definition new_node (p : option nat) (k : gslice) (d : option value) : node :=
  match p with
  | None => mk_node None None d new_avl None 0
  | Some _ => mk_node p k d new_avl None 0
  end.

(** GetChild, trie_util.go:839-841: the type assertion fails for an absent and for a nil child. *)
Definition kid (x : node) (k : gslice) : res nat :=
  let? r := avl_get ck_equal ck_compare (nd_kids x) k in
  match r with Some (_, Some c) => Ok c | _ => Panic end.
(** PutChild and RemoveChild, trie_util.go:843-851. *)
Definition put_kid (x : node) (k : gslice) (c : option nat) : res node :=
  let? (m, _) := avl_put ck_equal ck_compare (nd_kids x) (Some k) c in Ok (with_kids x m).
Definition remove_kid (x : node) (k : gslice) : res node :=
  let? (m, _) := avl_remove ck_equal ck_compare (nd_kids x) (Some k) in Ok (with_kids x m).

(** The node keys from the root down to node [a], as collected by FullKey, trie_util.go:807-814. The parent is fixed when a node is made, so it is
    older than the node and [fuel = S a] rounds are enough (C92_full_key_refuted). *)
Fixpoint key_path (fuel : nat) (h : nodes) (a : nat) (below : list gslice) : res (list gslice) :=
  match fuel with
  | O => Err
  | S f =>
      match nth_error h a with
      | None => Panic
      | Some x => match nd_parent x with
                  | None => Ok (nd_key x :: below)
                  | Some p => key_path f h p (nd_key x :: below)
                  end
      end
  end.

(** TrieNode.Encode, trie_util.go:881-912. *)
Definition node_encode (h : nodes) (x : node) : res bytes :=
  let? k := encode_varchar (gcontent (nd_key x)) in
  match nd_parent x with
  | None => Panic
  | Some p =>
      match nth_error h p with
      | None => Panic
      | Some y =>
          let? o := encode_uvarint64 (nd_off y) in
          match nd_data x with
          | None => Panic
          | Some v =>
              let? d := value_encode v in
              let? c := encode_uvarint64 (Z.to_N (avl_size (nd_kids x))) in
              Ok (k ++ o ++ d ++ c)
          end
      end
  end.

(** TrieNode.Copy, trie_util.go:930-943: the entries are put, in the order of an iteration
    (ascending, C11), into the children of a new node. *)
Fixpoint put_entries (m : avl gslice (option nat)) (l : list (gslice * option nat)) : res (avl gslice (option nat)) :=
  match l with
  | [] => Ok m
  | (k, c) :: l' => let? (m', _) := avl_put ck_equal ck_compare m (Some k) c in put_entries m' l'
  end.
Definition node_copy (x : node) : res node :=
  let y := new_node (nd_parent x) (nd_key x) (nd_data x) in
  let? m := put_entries (nd_kids y) (inorder (avl_root (nd_kids x))) in Ok (with_kids y m).

(** The walk of Trie.Get and Trie.Set, trie_util.go:562-569 and 588-598. GetChild never returns nil, so the branch that would make a new
    node is not reached. *)
Fixpoint descend (h : nodes) (a : nat) (ks : list gslice) : res nat :=
  match ks with
  | [] => Ok a
  | k :: ks' =>
      match nth_error h a with
      | None => Panic
      | Some x => let? c := kid x k in descend h c ks'
      end
  end.

(** The clean-up of Trie.Set, trie_util.go:609-616: node [a] is taken out of its parent, then the parent while it has neither children nor data. *)
Fixpoint unlink (fuel : nat) (h : nodes) (a : nat) : nodes * res unit :=
  match fuel with
  | O => (h, Err)
  | S f =>
      match nth_error h a with
      | None => (h, Panic)
      | Some x =>
          match nd_parent x with
          | None => (h, Panic)
          | Some p =>
              match nth_error h p with
              | None => (h, Panic)
              | Some y =>
                  match remove_kid y (nd_key x) with
                  | Ok y' =>
                      let h' := set_nth h p y' in
                      if (avl_size (nd_kids y') =? 0) && (match nd_data y' with None => true | _ => false end)
                      then unlink f h' p
                      else (h', Ok tt)
                  | Err => (h, Err)
                  | Panic => (h, Panic)
                  end
              end
          end
      end
  end.

(** The calls. [NCopy] and [NNew] return the address of the new node. *)
Inductive tcall :=
| NNew (p : option nat) (k : gslice) (d : option value)
| NParent (a : nat)
| NKey (a : nat)
| NFullKey (a : nat)
| NSize (a : nat)
| NGet (a : nat) (k : gslice)
| NPut (a : nat) (k : gslice) (c : option nat)
| NRemove (a : nat) (k : gslice)
| NValue (a : nat)
| NSetValue (a : nat) (d : option value)
| NOffset (a : nat)
| NSetOffset (a : nat) (o : N)
| NEncode (a : nat)
| NIsEncoded (a : nat)
| NBuf (a : nat)
| NCopy (a : nat)
| TrGet (r : nat) (k : ikey)
| TrSet (r : nat) (k : ikey) (d : option value).
Inductive tout :=
| RNone
| RNode (a : option nat)
| RKey (k : gslice)
| RFull (k : ikey)
| RSize (n : Z)
| RValue (d : option value)
| ROff (o : N)
| RBool (b : bool)
| RBytes (b : bytes).

Definition live (h : nodes) (a : option nat) : bool :=
  match a with None => true | Some a => (a <? length h)%nat end.

(** A call on the node [a]: an address that is not in use cannot be held. *)
Definition on_node (h : nodes) (a : nat) (f : node -> nodes * res tout) : nodes * res tout :=
  match nth_error h a with None => (h, Panic) | Some x => f x end.
Definition store (h : nodes) (a : nat) (r : res node) : nodes * res tout :=
  match r with Ok x => (set_nth h a x, Ok RNone) | Err => (h, Err) | Panic => (h, Panic) end.

Definition tstep (h : nodes) (c : tcall) : nodes * res tout :=
  match c with
  | NNew p k d => if live h p then (h ++ [new_node p k d], Ok (RNode (Some (length h)))) else (h, Panic)
  | NParent a => on_node h a (fun x => (h, Ok (RNode (nd_parent x))))          (* 827-829 *)
  | NKey a => on_node h a (fun x => (h, Ok (RKey (nd_key x))))                 (* 823-825 *)
  | NFullKey a => on_node h a (fun _ => (h, let? p := key_path (S a) h a [] in
                                            let? k := full_key p in Ok (RFull k)))
  | NSize a => on_node h a (fun x => (h, Ok (RSize (avl_size (nd_kids x)))))   (* 835-837 *)
  | NGet a k => on_node h a (fun x => (h, let? c := kid x k in Ok (RNode (Some c))))
  | NPut a k c => if live h c then on_node h a (fun x => store h a (put_kid x k c)) else (h, Panic)
  | NRemove a k => on_node h a (fun x => store h a (remove_kid x k))
  | NValue a => on_node h a (fun x => (h, Ok (RValue (nd_data x))))            (* 853-855 *)
  | NSetValue a d => on_node h a (fun x => (set_nth h a (with_data x d), Ok RNone))   (* 857-860 *)
  | NOffset a => on_node h a (fun x => (h, Ok (ROff (nd_off x))))              (* 922-924 *)
  | NSetOffset a o => on_node h a (fun x => (set_nth h a (with_off x (o mod 2 ^ 32)%N), Ok RNone))   (* 926-929 *)
  | NEncode a => on_node h a (fun x => store h a (let? b := node_encode h x in Ok (with_buf x (Some b))))
  | NIsEncoded a => on_node h a (fun x => (h, Ok (RBool (match nd_buf x with Some _ => true | None => false end))))   (* 877-879 *)
  | NBuf a => on_node h a (fun x => (h, match nd_buf x with Some b => Ok (RBytes b) | None => Panic end))   (* 865-871 *)
  | NCopy a => on_node h a (fun x => match node_copy x with
                                     | Ok y => (h ++ [y], Ok (RNode (Some (length h))))
                                     | Err => (h, Err)
                                     | Panic => (h, Panic)
                                     end)
  | TrGet r k =>                                                               (* Trie.Get, 554-576, root [r] *)
      on_node h r (fun x =>
        (h, if ikey_is_empty k then Ok (RValue (nd_data x))
            else let? a := descend h r (ikey_keys k) in
                 match nth_error h a with None => Panic | Some y => Ok (RValue (nd_data y)) end))
  | TrSet r k d =>                                                             (* Trie.Set, 578-618, root [r] *)
      on_node h r (fun x =>
        if ikey_is_empty k then (set_nth h r (with_data x d), Ok (RValue (nd_data x)))
        else
          match descend h r (ikey_keys k) with
          | Ok a =>
              on_node h a (fun y =>
                let h1 := set_nth h a (with_data y d) in
                match d with
                | Some _ => (h1, Ok (RValue (nd_data y)))
                | None => let (h2, r) := unlink (S a) h1 a in
                          (h2, let? _ := r in Ok (RValue (nd_data y)))
                end)
          | Err => (h, Err)
          | Panic => (h, Panic)
          end)
  end.

Fixpoint trun (h : nodes) (cs : list tcall) : nodes * list (res tout) :=
  match cs with
  | [] => (h, [])
  | c :: cs' =>
      let (h1, o) := tstep h c in
      let (h2, os) := trun h1 cs' in
      (h2, o :: os)
  end.

(** ** Parsed nodes

    MappedTrieNode, trie_util.go:257-273, made by NewMappedTrieNode (278-288) or Copy (491-503). [mn_kids] is nil in a copy. The map
    known_nodes belongs to the caller; it holds addresses of parsed nodes. Values are immutable. *)
Record mnode := mk_mnode {
  mn_decoded : bool;
  mn_dummy : bool;
  mn_buf : bytes;
  mn_off : N;
  mn_key : gslice;
  mn_val : option value;
  mn_parent : option nat;
  mn_kids : option (avl gslice nat);
  mn_known : option nat }.
Record mstate := mk_mstate { ms_nodes : list mnode; ms_maps : list (list (N * nat)) }.

Definition known_at (m : list (N * nat)) (o : N) : option nat :=
  match find (fun e => N.eqb (fst e) o) m with Some (_, a) => Some a | None => None end.
Definition map_of (s : mstate) (m : option nat) : list (N * nat) :=
  match m with None => [] | Some i => nth i (ms_maps s) [] end.

Definition m_decoded (x : mnode) :=
  mk_mnode true true (mn_buf x) (mn_off x) (mn_key x) (mn_val x) (mn_parent x) (mn_kids x) (mn_known x).
Definition m_with_key (x : mnode) k :=
  mk_mnode (mn_decoded x) (mn_dummy x) (mn_buf x) (mn_off x) k (mn_val x) (mn_parent x) (mn_kids x) (mn_known x).
Definition m_with_parent (x : mnode) p :=
  mk_mnode (mn_decoded x) (mn_dummy x) (mn_buf x) (mn_off x) (mn_key x) (mn_val x) p (mn_kids x) (mn_known x).
Definition m_with_val (x : mnode) v :=
  mk_mnode (mn_decoded x) (mn_dummy x) (mn_buf x) (mn_off x) (mn_key x) v (mn_parent x) (mn_kids x) (mn_known x).
Definition m_with_kids (x : mnode) m :=
  mk_mnode (mn_decoded x) (mn_dummy x) (mn_buf x) (mn_off x) (mn_key x) (mn_val x) (mn_parent x) m (mn_known x).

(** Decode, trie_util.go:418-479, of the node [x], which is not yet among the nodes: the node afterwards, and the length or an error. On success of a
    node that is no dummy, [Some (p, k)] says that it is put under key [k] into the children of [p]. The childSize field is never read. The
    child count is read at the start of the buffer, 464. *)
Definition mnode_decode (s : mstate) (x : mnode) : mnode * res (Z * option (nat * gslice)) :=
  let b := mn_buf x in
  match decode_uvarint64 b with
  | Err => (x, Err) | Panic => (x, Panic)
  | Ok (flag, n0) =>
      if N.eqb flag 0 then (m_decoded x, Ok (n0, None))
      else
        match (let? b1 := go_from b n0 in decode_varchar b1) with
        | Err => (x, Err) | Panic => (x, Panic)
        | Ok (k, n1) =>
            match k with
            | [] => (x, Err)
            | _ =>
                let x := m_with_key x (Some k) in
                match (let? b2 := go_from b (n0 + n1) in decode_uvarint64 b2) with
                | Err => (x, Err) | Panic => (x, Panic)
                | Ok (off, n2) =>
                    match known_at (map_of s (mn_known x)) (off mod 2 ^ 32) with
                    | None => (x, Err)
                    | Some p =>
                        let x := m_with_parent x (Some p) in
                        match (let? b3 := go_from b (n0 + n1 + n2) in new_simple_value b3) with
                        | Err => (x, Err) | Panic => (x, Panic)
                        | Ok (v, n3) =>
                            let x := m_with_val x (Some v) in
                            match decode_uvarint64 b with
                            | Err => (x, Err) | Panic => (x, Panic)
                            | Ok (_, n4) => (x, Ok (n0 + n1 + n2 + n3 + n4, Some (p, Some k)))
                            end
                        end
                    end
                end
            end
        end
  end.

(** The end of Decode, 472-475: the new node, at address [length (ms_nodes s)], is linked into its parent and recorded under its offset. The parent is
    an older node. [None] is a panic: a parent without children map, or keys that cannot be compared. *)
Definition mlink (s : mstate) (x : mnode) (l : option (nat * gslice)) : res mstate :=
  match l with
  | None => Ok (mk_mstate (ms_nodes s ++ [x]) (ms_maps s))
  | Some (p, k) =>
      match nth_error (ms_nodes s) p with
      | None => Panic
      | Some y =>
          match mn_kids y with
          | None => Panic
          | Some m =>
              let? (m', _) := avl_put ck_equal ck_compare m (Some k) (length (ms_nodes s)) in
              let ns := set_nth (ms_nodes s) p (m_with_kids y (Some m')) ++ [x] in
              match mn_known x with
              | None => Panic
              | Some i => Ok (mk_mstate ns (set_nth (ms_maps s) i ((mn_off x, length (ms_nodes s)) :: nth i (ms_maps s) [])))
              end
          end
      end
  end.

(** The calls. [MMap] makes an empty map, [MKnow] stores a node in one. *)
Inductive mcall :=
| MMap
| MKnow (m : nat) (o : N) (a : nat)
| MNew (p : option nat) (buf : bytes) (o : N) (m : option nat)
| MCopy (a : nat)
| MKey (a : nat)
| MValue (a : nat)
| MParent (a : nat)
| MSize (a : nat)
| MGet (a : nat) (k : gslice)
| MFullKey (a : nat)
| MIsDecoded (a : nat)
| MOffset (a : nat)
| MBuf (a : nat).
Inductive mout :=
| PNone
| PNode (a : option nat) (n : Z)
| PKey (k : gslice)
| PValue (v : option value)
| PSize (n : Z)
| PBool (b : bool)
| POff (o : N)
| PBytes (b : bytes).

Definition m_valid (s : mstate) (a : option nat) : bool :=
  match a with None => true | Some a => (a <? length (ms_nodes s))%nat end.
Definition m_map_valid (s : mstate) (m : option nat) : bool :=
  match m with None => true | Some i => (i <? length (ms_maps s))%nat end.
Definition m_on (s : mstate) (a : nat) (f : mnode -> res mout) : mstate * res mout :=
  (s, match nth_error (ms_nodes s) a with None => Panic | Some x => f x end).
(** The accessors panic unless decoded. *)
Definition m_read (s : mstate) (a : nat) (f : mnode -> res mout) : mstate * res mout :=
  m_on s a (fun x => if mn_decoded x then f x else Panic).

Definition mstep (s : mstate) (c : mcall) : mstate * res mout :=
  match c with
  | MMap => (mk_mstate (ms_nodes s) (ms_maps s ++ [[]]), Ok PNone)
  | MKnow i o a =>
      if m_map_valid s (Some i) && m_valid s (Some a)
      then (mk_mstate (ms_nodes s) (set_nth (ms_maps s) i ((o, a) :: nth i (ms_maps s) [])), Ok PNone)
      else (s, Panic)
  | MNew p buf o m =>
      if m_valid s p && m_map_valid s m then
        let x0 := mk_mnode false false buf o None None p (Some new_avl) m in
        match mnode_decode s x0 with
        | (x, Ok (n, l)) =>
            match mlink s x l with
            | Ok s' => (s', Ok (PNode (Some (length (ms_nodes s))) n))
            | Err => (s, Err) | Panic => (s, Panic)
            end
        | (x, Err) => (mk_mstate (ms_nodes s ++ [x]) (ms_maps s), Ok (PNode (Some (length (ms_nodes s))) 0))   (* 282-284: the error is dropped *)
        | (_, Panic) => (s, Panic)
        end
      else (s, Panic)
  | MCopy a =>
      match nth_error (ms_nodes s) a with
      | None => (s, Panic)
      | Some y =>
          let x0 := mk_mnode false false (mn_buf y) (mn_off y) None None None None (mn_known y) in
          match mnode_decode s x0 with
          | (x, Ok (n, l)) =>
              match mlink s x l with
              | Ok s' => (s', Ok (PNode (Some (length (ms_nodes s))) 0))
              | Err => (s, Err) | Panic => (s, Panic)
              end
          | (_, Err) => (s, Panic)
          | (_, Panic) => (s, Panic)
          end
      end
  | MKey a => m_read s a (fun x => Ok (PKey (mn_key x)))                       (* 322-329 *)
  | MValue a => m_read s a (fun x => Ok (PValue (mn_val x)))                   (* 383-390 *)
  | MParent a => m_read s a (fun x => Ok (PNode (mn_parent x) 0))              (* 331-338 *)
  | MSize a => m_read s a (fun x => Ok (PSize (match mn_kids x with None => 0 | Some m => avl_size m end)))   (* 349-360 *)
  | MGet a k => m_read s a (fun x =>                                           (* 362-373 *)
      match mn_kids x with
      | None => Ok (PNode None 0)
      | Some m => let? r := avl_get ck_equal ck_compare m k in
                  match r with Some (_, c) => Ok (PNode (Some c) 0) | None => Panic end
      end)
  | MFullKey a => m_read s a (fun _ => Panic)                                  (* 303-320: the walk ends with a failed assertion on a nil parent *)
  | MIsDecoded a => m_on s a (fun x => Ok (PBool (mn_decoded x)))              (* 414-416 *)
  | MOffset a => m_on s a (fun x => Ok (POff (mn_off x)))                      (* 481-483 *)
  | MBuf a => m_on s a (fun x => Ok (PBytes (mn_buf x)))                       (* 398-400 *)
  end.

(** Trie.Copy and CopyConstruct, trie_util.go:738-752: a MappedTrie of the buffer. The buffer is set at the end of Trie.Encode only, which panics
    (C62_encode_refuted), so it is nil. The result is the number of bytes read; get on the copy is [mapped_trie_get]. *)
Definition trie_copy (t : tnode) : res Z := new_mapped_trie [].
