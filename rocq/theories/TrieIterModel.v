(** * The iterators over tries (/repo/src/util/trie_util.go:984-1468).

    NewTrieKeyIterator and NewTrieRangeIterator take nodes of any type that implements ITrieNode. The two types of the
    package are refused, because their FullKey at the root panics (C62); here they run over nodes of the client. These are
    taken to be as the interface (34-64) says: FullKey is the list of node keys from below the root to the node, so that of
    the root is empty; GetChild is nil for an absent child; Children is a sorted map with the children under their node
    keys; ChildSize is its size. So the data type of TrieModel can be used. The tries are not modified during an
    iteration. A panic ends the use of an iterator. *)
From Coq Require Import List NArith ZArith Bool.
From Coq Require Import Strings.Byte.
From Verif Require Import Base CmpModel KeyModel ValueModel AVLModel TrieModel.
Import ListNotations.
Local Open Scope Z_scope.

(** FullKey of a node. *)
Definition path := list gslice.
(** FullKey and Value of the node that a call returns; [None] is (nil, nil). *)
Notation shown := (path * option value)%type.
(** GetChild. *)
Definition find_child (n : tnode) (k : gslice) : res (option tnode) := smap_get (tn_children n) k.
(** An iterator over the children of a node, with the FullKey of that node. *)
Notation level := (path * iter gslice tnode)%type.

(** SortedMapIterator, sorted_map.go:47-67: Next and Peek assert [*AVLNode], which panics at the end. *)
Definition m_has (i : iter gslice tnode) : res (iter gslice tnode * bool) := it_has_next ck_compare i.
Definition m_peek (i : iter gslice tnode) : res (iter gslice tnode * tnode) :=
  let? (i1, o) := it_peek ck_compare i in match o with Some (_, c) => Ok (i1, c) | None => Panic end.
Definition m_next (i : iter gslice tnode) : res (iter gslice tnode * tnode) :=
  let? (i1, o) := it_next ck_compare i in match o with Some (_, c) => Ok (i1, c) | None => Panic end.
(** Children().Iterator() and Children().RangeIterator(start, nil), sorted_map.go:69-75. *)
Definition m_iter (n : tnode) : res (iter gslice tnode) := new_iter ck_compare (avl_root (tn_children n)) None None.
Definition m_range (n : tnode) (start : gslice) : res (iter gslice tnode) :=
  new_iter ck_compare (avl_root (tn_children n)) (Some start) None.
Definition child_size (n : tnode) : Z := avl_size (tn_children n).

(** ** TrieKeyIterator, trie_util.go:984-1117 *)

(** [ti_paths] is the stack [paths], its last element first. rootNode is never read again. *)
Record titer := TIter { ti_curr : option (path * tnode); ti_paths : list level }.

(** NewTrieKeyIterator, 990-1020. Every sub key of curr is looked up in the root, 1008. *)
Fixpoint check_children (root : tnode) (keys : list gslice) : res unit :=
  match keys with
  | [] => Ok tt
  | k :: ks => let? c := find_child root k in match c with None => Panic | Some _ => check_children root ks end
  end.
Definition new_key_iterator (root : tnode) (curr : option (path * tnode)) : res titer :=
  match curr with
  | None => Ok (TIter (Some ([], root)) [])
  | Some (p, n) => let? _ := check_children root p in Ok (TIter (Some (p, n)) [])
  end.

(** advance, 1099-1117. *)
Fixpoint drop_done (ps : list level) : res (list level) :=
  match ps with
  | [] => Ok []
  | (p, i) :: ps' => let? (i1, b) := m_has i in if b : bool then Ok ((p, i1) :: ps') else drop_done ps'
  end.
Definition ti_advance (t : titer) : res titer :=
  match ti_curr t with Some _ => Ok t | None => let? ps := drop_done (ti_paths t) in Ok (TIter None ps) end.

(** The children of a node that is returned go onto the stack, 1030-1037 and 1051-1053. *)
Definition push (p : path) (n : tnode) (ps : list level) : res (list level) :=
  if child_size n =? 0 then Ok ps else let? j := m_iter n in Ok ((p, j) :: ps).
(** Next, 1022-1061, with its loop 1045-1057. *)
Fixpoint key_next_loop (ps : list level) : res (list level * option shown) :=
  match ps with
  | [] => Ok ([], None)
  | (p, i) :: ps' =>
      let? (i1, b) := m_has i in
      if b : bool then
        let? (i2, c) := m_next i1 in
        let q := p ++ [tn_key c] in
        let? ps2 := push q c ((p, i2) :: ps') in
        Ok (ps2, Some (q, tn_data c))
      else key_next_loop ps'
  end.
Definition key_next (t : titer) : res (titer * option shown) :=
  let? t := ti_advance t in
  match ti_curr t with
  | Some (p, n) => let? ps := push p n (ti_paths t) in Ok (TIter None ps, Some (p, tn_data n))
  | None => let? (ps, o) := key_next_loop (ti_paths t) in Ok (TIter None ps, o)
  end.
(** HasNext, 1063-1068. *)
Definition key_has_next (t : titer) : res (titer * bool) :=
  let? t := ti_advance t in
  Ok (t, match ti_curr t with Some _ => false | None => match ti_paths t with [] => true | _ => false end end).
(** Peek, 1070-1097. *)
Fixpoint key_peek_loop (ps : list level) : res (list level * option shown) :=
  match ps with
  | [] => Ok ([], None)
  | (p, i) :: ps' =>
      let? (i1, b) := m_has i in
      if b : bool then let? (i2, c) := m_peek i1 in Ok ((p, i2) :: ps', Some (p ++ [tn_key c], tn_data c))
      else key_peek_loop ps'
  end.
Definition key_peek (t : titer) : res (titer * option shown) :=
  let? t := ti_advance t in
  match ti_curr t with
  | Some (p, n) => Ok (t, Some (p, tn_data n))
  | None => let? (ps, o) := key_peek_loop (ti_paths t) in Ok (TIter None ps, o)
  end.

Definition key_step (t : titer) (c : icall) : res (titer * iobs shown) :=
  match c with
  | CHasNext => let? (t1, b) := key_has_next t in Ok (t1, OHas b)
  | CPeek => let? (t1, o) := key_peek t in Ok (t1, OPeek o)
  | CNext => let? (t1, o) := key_next t in Ok (t1, ONext o)
  end.
Fixpoint key_run (t : titer) (cs : list icall) : res (list (iobs shown)) :=
  match cs with
  | [] => Ok []
  | c :: cs' => let? (t1, o) := key_step t c in let? os := key_run t1 cs' in Ok (o :: os)
  end.

(** ** TrieRangeIterator, trie_util.go:1123-1468 *)

Record riter := RIter {
  ri_root : tnode;
  ri_is_root : bool;
  ri_starts : list tnode;
  ri_start_child : gslice;
  ri_ends : list tnode;
  ri_end_child : gslice;
  ri_paths : list level;
  ri_started : bool;
  ri_matches : list bool
}.
Definition with_paths (r : riter) (ps : list level) (ms : list bool) : riter :=
  RIter (ri_root r) (ri_is_root r) (ri_starts r) (ri_start_child r) (ri_ends r) (ri_end_child r) ps (ri_started r) ms.
Definition leave_root (r : riter) (ps : list level) : riter :=
  RIter (ri_root r) false (ri_starts r) (ri_start_child r) (ri_ends r) (ri_end_child r) ps (ri_started r) (ri_matches r).
Definition set_started (r : riter) : riter :=
  RIter (ri_root r) (ri_is_root r) (ri_starts r) (ri_start_child r) (ri_ends r) (ri_end_child r) (ri_paths r) true (ri_matches r).

(** The loops 1161-1173 and 1181-1204: the nodes found on the way and the sub key that is missing. *)
Fixpoint find_nodes (n : tnode) (keys : list gslice) : res (list tnode * gslice) :=
  match keys with
  | [] => Ok ([], None)
  | k :: ks =>
      let? c := find_child n k in
      match c with
      | Some c => let? (l, m) := find_nodes c ks in Ok (c :: l, m)
      | None => Ok ([], k)
      end
  end.
Definition find_bound (root : tnode) (k : option ikey) : res (list tnode * gslice) :=
  match k with None => Ok ([], None) | Some k => find_nodes root (ikey_keys k) end.
(** NewTrieRangeIterator, 1135-1211. *)
Definition new_range_iterator (root : tnode) (start end_ : option ikey) : res riter :=
  let? _ := match start, end_ with
            | Some s, Some e => let? c := ikey_compare s (OKey e) in if 0 <? c then Panic else Ok tt
            | _, _ => Ok tt
            end in
  let? (ss, sc) := find_bound root start in
  let? (es, ec) := find_bound root end_ in
  Ok (RIter root true ss sc es ec [] false (map (fun _ => false) es)).

(** The loop of checkStart, 1340-1390. It starts with at most one element in paths, and every round that goes on adds one,
    so the round looks at the last element and at the start node with the same number. *)
Fixpoint start_rounds (starts : list tnode) (start_child : gslice) (ps : list level) : res (list level) :=
  match starts, ps with
  | s :: more, (p, i) :: ps' =>
      let? (i1, node) := m_peek i in
      let? c := compare_byte_slice (tn_key node) (tn_key s) in
      if c <? 0 then Panic
      else if c =? 0 then
        match more, start_child with
        | [], None => Ok ((p, i1) :: ps')
        | [], Some _ =>
            let? (i2, node) := m_next i1 in
            let? j := m_range node start_child in
            Ok ((p ++ [tn_key node], j) :: (p, i2) :: ps')
        | _ :: _, _ =>
            let? (i2, node) := m_next i1 in
            let? j := m_range node (tn_key s) in
            start_rounds more start_child ((p ++ [tn_key node], j) :: (p, i2) :: ps')
        end
      else Ok ((p, i1) :: ps')
  | _, _ => Ok ps
  end.
(** checkStart, 1310-1338. *)
Definition check_start (r : riter) : res riter :=
  if ri_started r then Ok r
  else
    let enter (k : gslice) :=
      if ri_is_root r && negb (child_size (ri_root r) =? 0)
      then let? j := m_range (ri_root r) k in Ok (leave_root r (([], j) :: ri_paths r))
      else Ok r in
    match ri_starts r, ri_start_child r with
    | [], None => Ok (set_started r)
    | [], sc => let? r1 := enter sc in Ok (set_started r1)
    | s :: _, _ =>
        let? r1 := enter (tn_key s) in
        let? ps := start_rounds (ri_starts r1) (ri_start_child r1) (ri_paths r1) in
        Ok (set_started (with_paths r1 ps (ri_matches r1)))
    end.

Fixpoint set_nth (l : list bool) (i : nat) (b : bool) : list bool :=
  match l, i with
  | [], _ => []
  | _ :: l', O => b :: l'
  | x :: l', S i' => x :: set_nth l' i' b
  end.
(** The loop of checkEnd, 1411-1467. *)
Fixpoint end_rounds (ends : list tnode) (end_child : gslice) (ps : list level) (ms : list bool) : res (list level * list bool) :=
  match ps with
  | [] => Ok ([], ms)
  | (p, i) :: ps' =>
      let n := length ps in
      if Nat.leb n (length ends) then
        let? (i1, b) := m_has i in
        if negb b then end_rounds ends end_child ps' ms
        else if negb (Nat.eqb n 1) && negb (nth (n - 2) ms false) then Ok ((p, i1) :: ps', ms)
        else
          let? (i2, node) := m_peek i1 in
          match nth_error ends (n - 1) with
          | None => Panic
          | Some e =>
              let? c := compare_byte_slice (tn_key node) (tn_key e) in
              if 0 <? c then end_rounds ends end_child ps' (set_nth ms (n - 1) true)
              else if c =? 0 then
                let ms1 := set_nth ms (n - 1) true in
                if Nat.eqb n (length ends)
                then match end_child with None => end_rounds ends end_child ps' ms1 | Some _ => Ok ((p, i2) :: ps', ms1) end
                else Ok ((p, i2) :: ps', ms1)
              else Ok ((p, i2) :: ps', set_nth ms (n - 1) false)
          end
      else Ok (ps, ms)
  end.
(** checkEnd, 1393-1409. *)
Definition check_end (r : riter) : res riter :=
  if negb (Nat.eqb (length (ri_ends r)) (length (ri_matches r))) then Panic
  else match ri_ends r with
       | [] => Ok r
       | _ =>
           if ri_is_root r then Ok r
           else let? (ps, ms) := end_rounds (ri_ends r) (ri_end_child r) (ri_paths r) (ri_matches r) in Ok (with_paths r ps ms)
       end.

(** A call that may go on for ever: [None] is a call that has not returned after [fuel] rounds of its loop. *)
Definition mayrun (A : Type) := option (res A).
Definition mbind {A B} (x : res A) (f : A -> mayrun B) : mayrun B :=
  match x with Ok a => f a | Err => Some Err | Panic => Some Panic end.

(** The loop of Next, 1243-1261: an exhausted iterator is not taken off the stack. *)
Fixpoint range_next_loop (fuel : nat) (r : riter) : mayrun (riter * option shown) :=
  match ri_paths r with
  | [] => Some (Ok (r, None))
  | (p, i) :: ps' =>
      match fuel with
      | O => None
      | S f =>
          mbind (m_has i) (fun ib =>
            let (i1, b) := ib in
            if b : bool then
              Some (let? (i2, c) := m_next i1 in
                    let q := p ++ [tn_key c] in
                    let? ps2 := push q c ((p, i2) :: ps') in
                    let? r1 := check_end (with_paths r ps2 (ri_matches r)) in
                    Ok (r1, Some (q, tn_data c)))
            else range_next_loop f (with_paths r ((p, i1) :: ps') (ri_matches r)))
      end
  end.
(** Next, 1213-1264. *)
Definition range_next (fuel : nat) (r : riter) : mayrun (riter * option shown) :=
  mbind (let? r := check_start r in check_end r) (fun r =>
    if ri_is_root r then
      Some (match ri_paths r, ri_starts r with
            | [], [] =>
                let? r1 := (if child_size (ri_root r) =? 0 then Ok r
                            else let? j := m_iter (ri_root r) in Ok (leave_root r [([], j)])) in
                let? r2 := check_end r1 in
                Ok (r2, Some ([], tn_data (ri_root r)))
            | _, _ => Panic
            end)
    else range_next_loop fuel r).
(** HasNext, 1266-1272. *)
Definition range_has_next (r : riter) : res (riter * bool) :=
  let? r := check_start r in
  let? r := check_end r in
  Ok (r, ri_is_root r || match ri_paths r with [] => false | _ => true end).
(** Peek, 1274-1308. *)
Fixpoint range_peek_loop (fuel : nat) (r : riter) : mayrun (riter * option shown) :=
  match ri_paths r with
  | [] => Some (Ok (r, None))
  | (p, i) :: ps' =>
      match fuel with
      | O => None
      | S f =>
          mbind (m_has i) (fun ib =>
            let (i1, b) := ib in
            if b : bool then
              Some (let? (i2, c) := m_peek i1 in
                    Ok (with_paths r ((p, i2) :: ps') (ri_matches r), Some (p ++ [tn_key c], tn_data c)))
            else range_peek_loop f (with_paths r ((p, i1) :: ps') (ri_matches r)))
      end
  end.
Definition range_peek (fuel : nat) (r : riter) : mayrun (riter * option shown) :=
  mbind (let? r := check_start r in check_end r) (fun r =>
    if ri_is_root r then
      Some (match ri_paths r, ri_starts r with [], [] => Ok (r, Some ([], tn_data (ri_root r))) | _, _ => Panic end)
    else range_peek_loop fuel r).

Definition range_step (fuel : nat) (r : riter) (c : icall) : mayrun (riter * iobs shown) :=
  match c with
  | CHasNext => Some (let? (r1, b) := range_has_next r in Ok (r1, OHas b))
  | CPeek => option_map (rmap (fun x => (fst x, OPeek (snd x)))) (range_peek fuel r)
  | CNext => option_map (rmap (fun x => (fst x, ONext (snd x)))) (range_next fuel r)
  end.
(** A sequence of calls: it ends with a panic or with a call that has not returned. *)
Inductive outcome := Said (o : iobs shown) | Crash | Busy.
Fixpoint range_run (fuel : nat) (r : riter) (cs : list icall) : list outcome :=
  match cs with
  | [] => []
  | c :: cs' =>
      match range_step fuel r c with
      | None => [Busy]
      | Some (Ok (r1, o)) => Said o :: range_run fuel r1 cs'
      | Some _ => [Crash]
      end
  end.
