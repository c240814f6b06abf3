(** * Model of the AVL tree, its iterator, SortedMap and SortedSet
    (/repo/src/collection/avl.go, sorted_map.go, sorted_set.go).

    Nodes are values: the tree behind a [*AVLNode] is owned by the map, and an iterator is modelled as
    running over the tree it was created from (no modification during an iteration).
    [Equal] and [Compare] of the key type are parameters and may panic. After a panic the map is not
    used any further. [Size] is an unbounded integer. AVLPtrModel.v models the same functions on linked nodes in memory,
    without these simplifications. *)
From Coq Require Import List ZArith Bool.
From Verif Require Import Base.
Import ListNotations.
Local Open Scope Z_scope.

(** avl.go:100-105. [Leaf] is the nil [*AVLNode]; [l] is link[0], [r] is link[1]. *)
Inductive tree (K V : Type) : Type :=
| Leaf
| Node (k : K) (v : V) (b : Z) (l r : tree K V).
Arguments Leaf {K V}.
Arguments Node {K V} k v b l r.

(** avl.go:16-19. *)
Record avl (K V : Type) : Type := mk_avl { avl_root : tree K V; avl_size : Z }.
Arguments mk_avl {K V} _ _.
Arguments avl_root {K V} _.
Arguments avl_size {K V} _.

(** The calls a client can make on a map (sorted or hashed). *)
Inductive mop (K V : Type) : Type :=
| MPut (k : K) (v : V)
| MRemove (k : K)
| MGet (k : K).
Arguments MPut {K V} k v.
Arguments MRemove {K V} k.
Arguments MGet {K V} k.

(** The calls a client can make on an iterator and what they show. *)
Inductive icall := CHasNext | CPeek | CNext.
Inductive iobs (E : Type) : Type :=
| OHas (b : bool)
| OPeek (e : option E)
| ONext (e : option E).
Arguments OHas {E} b.
Arguments OPeek {E} e.
Arguments ONext {E} e.

Section AVL.
  Context {K V : Type} (equalb : K -> K -> res bool) (compare : K -> K -> res Z).
  Notation tree := (tree K V).

  (** A direction is 0 or 1 in the source; [true] is 1. opp, avl.go:107-109. *)
  Definition opp (dir : bool) : bool := negb dir.
  (** [2*dir - 1]. *)
  Definition dirbal (dir : bool) : Z := if dir then 1 else -1.

  (** [n.link[dir]], [n.link[dir] = c], [n.balance], [n.balance = b] on a [*AVLNode]: nil panics. *)
  Definition get_link (n : tree) (dir : bool) : res tree :=
    match n with Leaf => Panic | Node _ _ _ l r => Ok (if dir then r else l) end.
  Definition set_link (n : tree) (dir : bool) (c : tree) : res tree :=
    match n with
    | Leaf => Panic
    | Node k v b l r => Ok (if dir then Node k v b l c else Node k v b c r)
    end.
  Definition get_balance (n : tree) : res Z :=
    match n with Leaf => Panic | Node _ _ b _ _ => Ok b end.
  Definition set_balance (n : tree) (b : Z) : res tree :=
    match n with Leaf => Panic | Node k v _ l r => Ok (Node k v b l r) end.

  (** single, avl.go:112-117. *)
  Definition single (root : tree) (dir : bool) : res tree :=
    let? save := get_link root (opp dir) in
    let? inner := get_link save dir in
    let? root' := set_link root (opp dir) inner in
    set_link save dir root'.

  (** double, avl.go:120-131. Lines 123-125 update the child and grandchild and store the grandchild
      back into the root; 127-130 are a single rotation. *)
  Definition double (root : tree) (dir : bool) : res tree :=
    let? child := get_link root (opp dir) in
    let? save := get_link child dir in
    let? save_opp := get_link save (opp dir) in
    let? child' := set_link child dir save_opp in
    let? save' := set_link save (opp dir) child' in
    let? root' := set_link root (opp dir) save' in
    single root' dir.

  (** adjustBalance, avl.go:134-149. *)
  Definition adjust_balance (root : tree) (dir : bool) (bal : Z) : res tree :=
    let? n := get_link root dir in
    let? nn := get_link n (opp dir) in
    let? nb := get_balance nn in
    let (rb, b) := if nb =? 0 then (0, 0) else if nb =? bal then (- bal, 0) else (0, bal) in
    let? nn' := set_balance nn 0 in
    let? n' := set_balance n b in
    let? n'' := set_link n' (opp dir) nn' in
    let? root' := set_balance root rb in
    set_link root' dir n''.

  (** putBalance, avl.go:151-161. *)
  Definition put_balance (root : tree) (dir : bool) : res tree :=
    let? n := get_link root dir in
    let bal := dirbal dir in
    let? nb := get_balance n in
    if nb =? bal then
      let? root1 := set_balance root 0 in
      let? n' := set_balance n 0 in
      let? root2 := set_link root1 dir n' in
      single root2 (opp dir)
    else
      let? root1 := adjust_balance root dir bal in
      double root1 (opp dir).

  (** [dir := 0; if root.key.Compare(key) < 0 { dir = 1 }]. *)
  Definition direction (rootkey key : K) : res bool :=
    let? c := compare rootkey key in Ok (c <? 0).

  (** putR, avl.go:167-196. *)
  Fixpoint putR (key : K) (value : V) (root : tree) : res (tree * option (K * V) * bool) :=
    match root with
    | Leaf => Ok (Node key value 0 Leaf Leaf, None, false)
    | Node rk rv rb l r =>
        let? e := equalb rk key in
        if e then Ok (Node key value rb l r, Some (rk, rv), true)
        else
          let? dir := direction rk key in
          let? (child, node, done) := (if dir then putR key value r else putR key value l) in
          let? root1 := set_link root dir child in
          if done then Ok (root1, node, true)
          else
            let b := rb + dirbal dir in
            let? root2 := set_balance root1 b in
            if b =? 0 then Ok (root2, node, true)
            else if (b =? 1) || (b =? -1) then Ok (root2, node, false)
            else
              let? root3 := put_balance root2 dir in
              Ok (root3, node, true)
    end.

  (** removeBalance, avl.go:198-213. *)
  Definition remove_balance (root : tree) (dir : bool) : res (tree * bool) :=
    let? n := get_link root (opp dir) in
    let bal := dirbal dir in
    let? nb := get_balance n in
    if nb =? - bal then
      let? root1 := set_balance root 0 in
      let? n' := set_balance n 0 in
      let? root2 := set_link root1 (opp dir) n' in
      let? root3 := single root2 dir in
      Ok (root3, false)
    else if nb =? bal then
      let? root1 := adjust_balance root (opp dir) (- bal) in
      let? root2 := double root1 dir in
      Ok (root2, false)
    else
      let? root1 := set_balance root (- bal) in
      let? n' := set_balance n bal in
      let? root2 := set_link root1 (opp dir) n' in
      let? root3 := single root2 dir in
      Ok (root3, true).

  (** [for heir.link[1] != nil { heir = heir.link[1] }], avl.go:233-236: the last node of a non-empty tree. *)
  Fixpoint heir (k : K) (v : V) (r : tree) : K * V :=
    match r with Leaf => (k, v) | Node k' v' _ _ r' => heir k' v' r' end.

  (** removeR, avl.go:219-263. *)
  Fixpoint removeR (key : K) (root : tree) : res (tree * option (K * V) * bool) :=
    match root with
    | Leaf => Ok (Leaf, None, true)
    | Node rk rv rb l r =>
        (* the part after the [if root.key.Equal(key)] block: [rk'], [rv'], [key'] are the values of
           root.key, root.value and key at that point *)
        let continue (rk' : K) (rv' : V) (key' : K) (found : option (K * V)) :=
          let? dir := direction rk' key' in
          let? (child, node, done) := (if dir then removeR key' r else removeR key' l) in
          let found' := match found with Some _ => found | None => node end in
          let? root1 := set_link (Node rk' rv' rb l r) dir child in
          if done then Ok (root1, found', true)
          else
            let b := rb - dirbal dir in
            let? root2 := set_balance root1 b in
            if (b =? 1) || (b =? -1) then Ok (root2, found', true)
            else if b =? 0 then Ok (root2, found', false)
            else
              let? (root3, done') := remove_balance root2 dir in
              Ok (root3, found', done') in
        let? e := equalb rk key in
        if e then
          match l, r with
          | Leaf, _ => Ok (r, Some (rk, rv), false)
          | _, Leaf => Ok (l, Some (rk, rv), false)
          | Node lk lv _ _ lr, _ =>
              let (hk, hv) := heir lk lv lr in
              continue hk hv hk (Some (rk, rv))
          end
        else continue rk rv key None
    end.

  (** getR, avl.go:265-278, as called from Get (27-33), which tests the root for nil first. *)
  Fixpoint getR (key : K) (root : tree) : res (option (K * V)) :=
    match root with
    | Leaf => Ok None
    | Node rk rv _ l r =>
        let? e := equalb rk key in
        if e then Ok (Some (rk, rv))
        else
          let? dir := direction rk key in
          if dir then getR key r else getR key l
    end.

  (** NewAVLTree, Get, Put, Remove, Size, avl.go:22-69. A nil key panics in Put and Remove. *)
  Definition new_avl : avl K V := mk_avl Leaf 0.
  Definition avl_get (t : avl K V) (key : K) : res (option (K * V)) := getR key (avl_root t).
  Definition avl_put (t : avl K V) (key : option K) (value : V) : res (avl K V * option (K * V)) :=
    match key with
    | None => Panic
    | Some key =>
        match avl_root t with
        | Leaf => Ok (mk_avl (Node key value 0 Leaf Leaf) (avl_size t + 1), None)
        | root =>
            let? (root', node, _) := putR key value root in
            let size' := match node with None => avl_size t + 1 | Some _ => avl_size t end in
            Ok (mk_avl root' size', node)
        end
    end.
  Definition avl_remove (t : avl K V) (key : option K) : res (avl K V * option (K * V)) :=
    match key with
    | None => Panic
    | Some key =>
        let? (root', node, _) := removeR key (avl_root t) in
        let size' := match node with None => avl_size t | Some _ => avl_size t - 1 end in
        Ok (mk_avl root' size', node)
    end.

  (** One call, and a sequence of calls with the nodes they return. *)
  Definition avl_step (t : avl K V) (op : mop K V) : res (avl K V * option (K * V)) :=
    match op with
    | MPut k v => avl_put t (Some k) v
    | MRemove k => avl_remove t (Some k)
    | MGet k => let? n := avl_get t k in Ok (t, n)
    end.
  Fixpoint avl_run (t : avl K V) (ops : list (mop K V)) : res (avl K V * list (option (K * V))) :=
    match ops with
    | [] => Ok (t, [])
    | op :: ops' =>
        let? (t1, o) := avl_step t op in
        let? (t2, os) := avl_run t1 ops' in
        Ok (t2, o :: os)
    end.

  (** getR with a count of the nodes visited (each visit calls Equal once and Compare at most once). *)
  Fixpoint getR_count (key : K) (root : tree) : res (option (K * V)) * nat :=
    match root with
    | Leaf => (Ok None, O)
    | Node rk rv _ l r =>
        let (o, n) :=
          match equalb rk key with
          | Ok true => (Ok (Some (rk, rv)), O)
          | Ok false =>
              match direction rk key with
              | Ok true => getR_count key r
              | Ok false => getR_count key l
              | Err => (Err, O)
              | Panic => (Panic, O)
              end
          | Err => (Err, O)
          | Panic => (Panic, O)
          end in
        (o, S n)
    end.

  (** AVLIterator, avl.go:323-330. [it_paths] is the stack [paths] with its last element first;
      the field [initialized] is never read. *)
  Record iter : Type := mk_iter {
    it_paths : list tree;
    it_curr : tree;
    it_pos : Z;
    it_start : option K;
    it_end : option K
  }.

  (** The loop that walks to the leftmost node, avl.go:338-342 and 425-429. *)
  Fixpoint walk_left (paths : list tree) (n : tree) : list tree * tree :=
    match n with
    | Node _ _ _ (Node _ _ _ _ _ as l) _ => walk_left (n :: paths) l
    | _ => (paths, n)
    end.

  (** NewAVLIterator, avl.go:332-356. *)
  Definition new_iter (root : tree) (start end_ : option K) : res iter :=
    let (paths, curr) := walk_left [] root in
    match start, end_ with
    | None, None => Ok (mk_iter paths curr 0 None None)
    | Some s, Some e =>
        let? c := compare s e in
        if 0 <? c then Panic else Ok (mk_iter paths curr 0 start end_)
    | _, _ => Ok (mk_iter paths curr 0 start end_)
    end.

  (** The start filter, avl.go:451-473: [None] is the early return with currNode = nil, otherwise the new
      paths, currNode and currPos. In the case [None] the stack is empty and currPos is never read again. *)
  Fixpoint start_loop (s : K) (paths : list tree) : tree -> Z -> res (option (list tree * tree * Z)) :=
    fix at_node (curr : tree) (pos : Z) :=
      match curr with
      | Leaf => Panic                                  (* i.currNode.key on nil *)
      | Node k _ _ _ r =>
          let? c := compare s k in
          if c <? 0 then
            match r with
            | Node _ _ _ _ _ => at_node r pos
            | Leaf =>
                match paths with
                | [] => Ok None
                | p :: ps => start_loop s ps p 0
                end
            end
          else Ok (Some (paths, curr, pos))
      end.

  (** The end filter, avl.go:481-496, in the same form. *)
  Fixpoint end_loop (e : K) (paths : list tree) (curr : tree) (pos : Z) : res (option (list tree * tree * Z)) :=
    match curr with
    | Leaf => Panic
    | Node k _ _ _ _ =>
        let? c := compare k e in
        if 0 <=? c then
          match paths with
          | [] => Ok None
          | p :: ps => end_loop e ps p 0
          end
        else Ok (Some (paths, curr, pos))
    end.

  (** advance, avl.go:400-500, from line 449 on. *)
  Definition advance_filters (i : iter) : res iter :=
    let? (i1, stop) :=
      match it_start i with
      | None => Ok (i, false)
      | Some s =>
          let? o := start_loop s (it_paths i) (it_curr i) (it_pos i) in
          match o with
          | None => Ok (mk_iter [] Leaf (it_pos i) (Some s) (it_end i), true)
          | Some (ps, c, p) => Ok (mk_iter ps c p None (it_end i), false)
          end
      end in
    if stop : bool then Ok i1
    else
      match it_end i1 with
      | None => Ok i1
      | Some e =>
          let? o := end_loop e (it_paths i1) (it_curr i1) (it_pos i1) in
          match o with
          | None => Ok (mk_iter [] Leaf (it_pos i1) (it_start i1) None)
          | Some (ps, c, p) => Ok (mk_iter ps c p (it_start i1) (it_end i1))
          end
      end.

  (** advance, avl.go:400-447. *)
  Definition advance (i : iter) : res iter :=
    match it_curr i, it_paths i with
    | Leaf, [] => Ok i
    | _, _ =>
        let i0 := match it_curr i, it_paths i with
                  | Leaf, p :: ps => mk_iter ps p 0 (it_start i) (it_end i)
                  | _, _ => i
                  end in
        if it_pos i0 =? 0 then advance_filters i0
        else if it_pos i0 =? 1 then
          let? r := get_link (it_curr i0) true in
          match r with
          | Node _ _ _ _ _ =>
              let (ps, c) := walk_left (it_paths i0) r in
              advance_filters (mk_iter ps c 0 (it_start i0) (it_end i0))
          | Leaf =>
              match it_paths i0 with
              | p :: ps => advance_filters (mk_iter ps p 0 (it_start i0) (it_end i0))
              | [] => Ok (mk_iter [] Leaf (it_pos i0) None None)
              end
          end
        else Panic
    end.

  Definition it_is_empty (i : iter) : bool :=
    match it_paths i, it_curr i with [], Leaf => true | _, _ => false end.

  Definition node_entry (n : tree) : res (K * V) :=
    match n with Leaf => Panic | Node k v _ _ _ => Ok (k, v) end.

  (** Next, avl.go:358-370; [None] is the nil interface. *)
  Definition it_next (i : iter) : res (iter * option (K * V)) :=
    let? i1 := advance i in
    if it_is_empty i1 then Ok (i1, None)
    else
      let? e := node_entry (it_curr i1) in
      Ok (mk_iter (it_paths i1) (it_curr i1) 1 (it_start i1) (it_end i1), Some e).

  (** HasNext, avl.go:372-379. *)
  Definition it_has_next (i : iter) : res (iter * bool) :=
    let? i1 := advance i in Ok (i1, negb (it_is_empty i1)).

  (** Peek, avl.go:381-398. *)
  Definition it_peek (i : iter) : res (iter * option (K * V)) :=
    let? i1 := advance i in
    if it_is_empty i1 then Ok (i1, None)
    else match it_curr i1 with
         | Node k v _ _ _ => Ok (i1, Some (k, v))
         | Leaf => Ok (i1, None)
         end.

  (** A sequence of calls on an AVLIterator. *)
  Definition it_step (i : iter) (c : icall) : res (iter * iobs (K * V)) :=
    match c with
    | CHasNext => let? (i1, b) := it_has_next i in Ok (i1, OHas b)
    | CPeek => let? (i1, e) := it_peek i in Ok (i1, OPeek e)
    | CNext => let? (i1, e) := it_next i in Ok (i1, ONext e)
    end.
  Fixpoint it_run (i : iter) (cs : list icall) : res (list (iobs (K * V))) :=
    match cs with
    | [] => Ok []
    | c :: cs' =>
        let? (i1, o) := it_step i c in
        let? os := it_run i1 cs' in
        Ok (o :: os)
    end.

  (** SortedMapIterator and SortedSetIterator, sorted_map.go:47-67 and sorted_set.go:47-67: Next and Peek
      assert [*AVLNode] on the result, which panics on the nil interface. The map iterator returns the
      key and the value, the set iterator the key. *)
  Definition asserted_step (i : iter) (c : icall) : res (iter * iobs (K * V)) :=
    let? (i1, o) := it_step i c in
    match o with
    | OPeek None => Panic
    | ONext None => Panic
    | _ => Ok (i1, o)
    end.
  Fixpoint asserted_run (i : iter) (cs : list icall) : res (list (iobs (K * V))) :=
    match cs with
    | [] => Ok []
    | c :: cs' =>
        let? (i1, o) := asserted_step i c in
        let? os := asserted_run i1 cs' in
        Ok (o :: os)
    end.
End AVL.
Arguments iter : clear implicits.

(** SortedMap, sorted_map.go:11-45. A value is an interface: [None] is nil. *)
Section SortedMap.
  Context {K V : Type} (equalb : K -> K -> res bool) (compare : K -> K -> res Z).

  (** [if !IsNil(node) { return node.value } else { return nil }]. *)
  Definition sm_result (n : option (K * option V)) : option V :=
    match n with Some (_, v) => v | None => None end.
  Definition sm_step (t : avl K (option V)) (op : mop K (option V)) : res (avl K (option V) * option V) :=
    let? (t', n) := avl_step equalb compare t op in Ok (t', sm_result n).
  Fixpoint sm_run (t : avl K (option V)) (ops : list (mop K (option V)))
    : res (avl K (option V) * list (option V)) :=
    match ops with
    | [] => Ok (t, [])
    | op :: ops' =>
        let? (t1, o) := sm_step t op in
        let? (t2, os) := sm_run t1 ops' in
        Ok (t2, o :: os)
    end.
End SortedMap.

(** SortedSet, sorted_set.go:11-45: the tree stores the nil value ([tt]); Put and Remove return the key of
    the old node, Exist tells whether a node was found. *)
Section SortedSet.
  Context {K : Type} (equalb : K -> K -> res bool) (compare : K -> K -> res Z).

  Definition ss_put (t : avl K unit) (k : K) : res (avl K unit * option K) :=
    let? (t', n) := avl_put equalb compare t (Some k) tt in Ok (t', option_map fst n).
  Definition ss_remove (t : avl K unit) (k : K) : res (avl K unit * option K) :=
    let? (t', n) := avl_remove equalb compare t (Some k) in Ok (t', option_map fst n).
  Definition ss_exist (t : avl K unit) (k : K) : res bool :=
    let? n := avl_get equalb compare t k in Ok (match n with Some _ => true | None => false end).
End SortedSet.
