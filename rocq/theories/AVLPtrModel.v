(** * The AVL tree as linked nodes in memory (/repo/src/collection/avl.go, sorted_map.go, sorted_set.go).

    AVLModel treats a tree as a value. Here nodes are cells of a heap that are linked by pointers and updated in place, in
    the order of the source. Several trees and iterators live in one heap; a tree may be modified while iterators walk
    over it; and after a panic in Equal or Compare that the caller recovers from, everything stays as the panic left it.
    [None] as an outcome means "out of fuel": the loops and recursions of the source are bounded by a fuel argument, and
    the theorems say that a large enough one never runs out. balance and size are unbounded integers. *)
From Coq Require Import List ZArith Bool Arith.
From Verif Require Import Base AVLModel.
Import ListNotations.
Local Open Scope Z_scope.

(** A [*AVLNode]: nil, or the index of a cell. *)
Definition ptr := option nat.

Fixpoint upd {A} (l : list A) (i : nat) (x : A) : list A :=
  match l, i with
  | [], _ => []
  | _ :: l', O => x :: l'
  | y :: l', S i' => y :: upd l' i' x
  end.

(** The calls a client can make: on tree number [m], and on iterator number [i]. A nil key is [None]. *)
Inductive pop (K V : Type) : Type :=
| PNew
| PPut (m : nat) (k : option K) (v : V)
| PRemove (m : nat) (k : option K)
| PGet (m : nat) (k : K)
| PSize (m : nat)
| PIter (m : nat) (start end_ : option K)
| PHasNext (i : nat)
| PPeek (i : nat)
| PNext (i : nat).
Arguments PNew {K V}.
Arguments PPut {K V} m k v.
Arguments PRemove {K V} m k.
Arguments PGet {K V} m k.
Arguments PSize {K V} m.
Arguments PIter {K V} m start end_.
Arguments PHasNext {K V} i.
Arguments PPeek {K V} i.
Arguments PNext {K V} i.

(** What the calls show: nothing, the key and value of the returned node ([None] for nil), a number, a boolean. *)
Inductive pobs (K V : Type) : Type :=
| PODone
| POEntry (e : option (K * V))
| POInt (z : Z)
| POBool (b : bool).
Arguments PODone {K V}.
Arguments POEntry {K V} e.
Arguments POInt {K V} z.
Arguments POBool {K V} b.

Section Ptr.
  Context {K V : Type} (equalb : K -> K -> res bool) (compare : K -> K -> res Z).

  (** AVLNode, avl.go:100-105. *)
  Record cell : Type := Cell { c_key : K; c_val : V; c_bal : Z; c_l : ptr; c_r : ptr }.
  Definition heap := list cell.

  Definition c_link (c : cell) (dir : bool) : ptr := if dir then c_r c else c_l c.
  Definition with_link (dir : bool) (p : ptr) (c : cell) : cell :=
    if dir then Cell (c_key c) (c_val c) (c_bal c) (c_l c) p else Cell (c_key c) (c_val c) (c_bal c) p (c_r c).
  Definition with_bal (b : Z) (c : cell) : cell := Cell (c_key c) (c_val c) b (c_l c) (c_r c).
  Definition with_entry (k : K) (v : V) (c : cell) : cell := Cell k v (c_bal c) (c_l c) (c_r c).

  (** A piece of code: it changes the heap and returns, panics, or runs out of fuel. *)
  Definition prog (A : Type) := heap -> option (heap * res A).
  Definition hret {A} (a : A) : prog A := fun h => Some (h, Ok a).
  Definition hbind {A B} (m : prog A) (f : A -> prog B) : prog B := fun h =>
    match m h with
    | None => None
    | Some (h1, Ok a) => f a h1
    | Some (h1, Err) => Some (h1, Err)
    | Some (h1, Panic) => Some (h1, Panic)
    end.
  (** A call of Equal or Compare. *)
  Definition hlift {A} (r : res A) : prog A := fun h => Some (h, r).
  Definition hfuel {A} : prog A := fun _ => None.

  Notation "'let!' x := e 'in' f" := (hbind e (fun x => f))
    (at level 200, x pattern, e at level 100, f at level 200, right associativity).

  (** Reading and writing through a pointer (nil panics), and [&AVLNode{key: k, value: v}]. *)
  Definition load (p : ptr) : prog cell := fun h =>
    match p with
    | None => Some (h, Panic)
    | Some a => match nth_error h a with Some c => Some (h, Ok c) | None => Some (h, Panic) end
    end.
  Definition store (p : ptr) (f : cell -> cell) : prog unit := fun h =>
    match p with
    | None => Some (h, Panic)
    | Some a => match nth_error h a with Some c => Some (upd h a (f c), Ok tt) | None => Some (h, Panic) end
    end.
  Definition alloc (k : K) (v : V) : prog ptr := fun h =>
    Some (h ++ [Cell k v 0 None None], Ok (Some (length h))).

  (** [p.link[dir]], [p.balance]. *)
  Definition link (p : ptr) (dir : bool) : prog ptr := let! c := load p in hret (c_link c dir).
  Definition balance (p : ptr) : prog Z := let! c := load p in hret (c_bal c).

  (** single, avl.go:112-117. *)
  Definition p_single (root : ptr) (dir : bool) : prog ptr :=
    let! save := link root (opp dir) in
    let! inner := link save dir in
    let! _ := store root (with_link (opp dir) inner) in
    let! _ := store save (with_link dir root) in
    hret save.

  (** double, avl.go:120-131. *)
  Definition p_double (root : ptr) (dir : bool) : prog ptr :=
    let! child := link root (opp dir) in
    let! save := link child dir in
    let! child' := link root (opp dir) in
    let! outer := link save (opp dir) in
    let! _ := store child' (with_link dir outer) in
    let! child'' := link root (opp dir) in
    let! _ := store save (with_link (opp dir) child'') in
    let! _ := store root (with_link (opp dir) save) in
    let! save' := link root (opp dir) in
    let! inner := link save' dir in
    let! _ := store root (with_link (opp dir) inner) in
    let! _ := store save' (with_link dir root) in
    hret save'.

  (** adjustBalance, avl.go:134-149. *)
  Definition p_adjust_balance (root : ptr) (dir : bool) (bal : Z) : prog unit :=
    let! n := link root dir in
    let! nn := link n (opp dir) in
    let! nb := balance nn in
    let! _ := (if nb =? 0 then
                 let! _ := store root (with_bal 0) in store n (with_bal 0)
               else if nb =? bal then
                 let! _ := store root (with_bal (- bal)) in store n (with_bal 0)
               else
                 let! _ := store root (with_bal 0) in store n (with_bal bal)) in
    store nn (with_bal 0).

  (** putBalance, avl.go:151-161. *)
  Definition p_put_balance (root : ptr) (dir : bool) : prog ptr :=
    let! n := link root dir in
    let bal := dirbal dir in
    let! nb := balance n in
    if nb =? bal then
      let! _ := store root (with_bal 0) in
      let! _ := store n (with_bal 0) in
      p_single root (opp dir)
    else
      let! _ := p_adjust_balance root dir bal in
      p_double root (opp dir).

  (** putR, avl.go:167-196. *)
  Fixpoint p_putR (n : nat) (key : K) (value : V) (root : ptr) : prog (ptr * ptr * bool) :=
    match n with
    | O => hfuel
    | S n' =>
        match root with
        | None => let! result := alloc key value in hret (result, None, false)
        | Some _ =>
            let! c := load root in
            let! e := hlift (equalb (c_key c) key) in
            if e then
              let! found := alloc (c_key c) (c_val c) in
              let! _ := store root (with_entry key value) in
              hret (root, found, true)
            else
              let! dir := hlift (direction compare (c_key c) key) in
              let! (child, node, done) := p_putR n' key value (c_link c dir) in
              let! _ := store root (with_link dir child) in
              if done : bool then hret (root, node, true)
              else
                let! b := balance root in
                let b' := b + dirbal dir in
                let! _ := store root (with_bal b') in
                if b' =? 0 then hret (root, node, true)
                else if (b' =? 1) || (b' =? -1) then hret (root, node, false)
                else
                  let! root' := p_put_balance root dir in
                  hret (root', node, true)
        end
    end.

  (** removeBalance, avl.go:198-213. *)
  Definition p_remove_balance (root : ptr) (dir : bool) : prog (ptr * bool) :=
    let! n := link root (opp dir) in
    let bal := dirbal dir in
    let! nb := balance n in
    if nb =? - bal then
      let! _ := store root (with_bal 0) in
      let! _ := store n (with_bal 0) in
      let! root' := p_single root dir in
      hret (root', false)
    else if nb =? bal then
      let! _ := p_adjust_balance root (opp dir) (- bal) in
      let! root' := p_double root dir in
      hret (root', false)
    else
      let! _ := store root (with_bal (- bal)) in
      let! _ := store n (with_bal bal) in
      let! root' := p_single root dir in
      hret (root', true).

  (** The loop of avl.go:234-236. *)
  Fixpoint p_heir (n : nat) (p : ptr) : prog ptr :=
    match n with
    | O => hfuel
    | S n' =>
        let! r := link p true in
        match r with None => hret p | Some _ => p_heir n' r end
    end.

  (** removeR from line 241 on. *)
  Definition p_remove_down (rec : K -> ptr -> prog (ptr * ptr * bool)) (root : ptr) (key : K) (found : ptr)
      : prog (ptr * ptr * bool) :=
    let! c := load root in
    let! dir := hlift (direction compare (c_key c) key) in
    let! (child, node, done) := rec key (c_link c dir) in
    let! _ := store root (with_link dir child) in
    let found' := match found with None => node | Some _ => found end in
    if done : bool then hret (root, found', true)
    else
      let! b := balance root in
      let b' := b - dirbal dir in
      let! _ := store root (with_bal b') in
      if (b' =? 1) || (b' =? -1) then hret (root, found', true)
      else if b' =? 0 then hret (root, found', false)
      else
        let! (root', done') := p_remove_balance root dir in
        hret (root', found', done').

  (** removeR, avl.go:219-263. *)
  Fixpoint p_removeR (n : nat) (key : K) (root : ptr) : prog (ptr * ptr * bool) :=
    match n with
    | O => hfuel
    | S n' =>
        match root with
        | None => hret (None, None, true)
        | Some _ =>
            let! c := load root in
            let! e := hlift (equalb (c_key c) key) in
            if e then
              let! found := alloc (c_key c) (c_val c) in
              match c_l c, c_r c with
              | None, r => hret (r, found, false)
              | l, None => hret (l, found, false)
              | l, Some _ =>
                  let! heir := p_heir n' l in
                  let! hc := load heir in
                  let! _ := store root (with_entry (c_key hc) (c_val hc)) in
                  p_remove_down (p_removeR n') root (c_key hc) found
              end
            else p_remove_down (p_removeR n') root key None
        end
    end.

  (** getR, avl.go:265-278, called from Get with a non-nil root. *)
  Fixpoint p_getR (n : nat) (key : K) (root : ptr) : prog ptr :=
    match n with
    | O => hfuel
    | S n' =>
        let! c := load root in
        let! e := hlift (equalb (c_key c) key) in
        if e then hret root
        else
          let! dir := hlift (direction compare (c_key c) key) in
          match c_link c dir with
          | None => hret None
          | p => p_getR n' key p
          end
    end.

  (** AVLTree, avl.go:16-19: root and size. *)
  Definition ptree : Type := ptr * Z.

  (** Get, Put and Remove, avl.go:27-69: the new root and size, and the node returned. *)
  Definition p_get (n : nat) (t : ptree) (key : K) : prog ptr :=
    match fst t with None => hret None | root => p_getR n key root end.
  Definition p_put (n : nat) (t : ptree) (key : option K) (value : V) : prog (ptree * ptr) :=
    match key with
    | None => hlift Panic
    | Some key =>
        match fst t with
        | None => let! root := alloc key value in hret ((root, snd t + 1), None)
        | root =>
            let! (root', node, _) := p_putR n key value root in
            hret ((root', match node with None => snd t + 1 | Some _ => snd t end), node)
        end
    end.
  Definition p_remove (n : nat) (t : ptree) (key : option K) : prog (ptree * ptr) :=
    match key with
    | None => hlift Panic
    | Some key =>
        let! (root', node, _) := p_removeR n key (fst t) in
        hret ((root', match node with None => snd t | Some _ => snd t - 1 end), node)
    end.

  (** What the caller reads from a returned node (sorted_map.go:16-41, sorted_set.go:16-41). *)
  Definition p_entry (p : ptr) : prog (option (K * V)) :=
    match p with
    | None => hret None
    | Some _ => let! c := load p in hret (Some (c_key c, c_val c))
    end.

  (** ** The iterator, avl.go:323-330. [hi_paths] is the stack [paths] with its last element first. *)
  Record piter : Type := PIt {
    hi_paths : list ptr;
    hi_curr : ptr;
    hi_pos : Z;
    hi_start : option K;
    hi_end : option K
  }.

  (** Iterator code reads the heap and changes the iterator; the fresh node returned by Next and Peek is represented by its
      key and value. *)
  Definition iprog (A : Type) := heap -> piter -> option (piter * res A).
  Definition iret {A} (a : A) : iprog A := fun _ i => Some (i, Ok a).
  Definition ibind {A B} (m : iprog A) (f : A -> iprog B) : iprog B := fun h i =>
    match m h i with
    | None => None
    | Some (i1, Ok a) => f a h i1
    | Some (i1, Err) => Some (i1, Err)
    | Some (i1, Panic) => Some (i1, Panic)
    end.
  Definition ilift {A} (r : res A) : iprog A := fun _ i => Some (i, r).
  Definition ifuel {A} : iprog A := fun _ _ => None.
  Definition iget : iprog piter := fun _ i => Some (i, Ok i).
  Definition iset (i : piter) : iprog unit := fun _ _ => Some (i, Ok tt).
  Definition iload (p : ptr) : iprog cell := fun h i =>
    match p with
    | None => Some (i, Panic)
    | Some a => match nth_error h a with Some c => Some (i, Ok c) | None => Some (i, Panic) end
    end.

  Notation "'let#' x := e 'in' f" := (ibind e (fun x => f))
    (at level 200, x pattern, e at level 100, f at level 200, right associativity).

  (** [i.currNode = p; i.currPos = 0] with the stack [ps]. *)
  Definition move (ps : list ptr) (p : ptr) (i : piter) : piter := PIt ps p 0 (hi_start i) (hi_end i).

  (** The loops of avl.go:338-342 and 425-429, entered with a non-nil currNode. *)
  Fixpoint i_walk_left (n : nat) : iprog unit :=
    match n with
    | O => ifuel
    | S n' =>
        let# i := iget in
        let# c := iload (hi_curr i) in
        match c_l c with
        | None => iret tt
        | l => let# _ := iset (move (hi_curr i :: hi_paths i) l i) in i_walk_left n'
        end
    end.

  (** NewAVLIterator, avl.go:332-356. *)
  Definition i_new (n : nat) (root : ptr) (start end_ : option K) : heap -> option (res piter) := fun h =>
    let i0 := PIt [] root 0 None None in
    match (match root with None => Some (i0, Ok tt) | Some _ => i_walk_left n h i0 end) with
    | None => None
    | Some (i, r) =>
        Some (let? _ := r in
              match start, end_ with
              | None, None => Ok i
              | Some s, Some e =>
                  let? c := compare s e in
                  if 0 <? c then Panic else Ok (PIt (hi_paths i) (hi_curr i) (hi_pos i) start end_)
              | _, _ => Ok (PIt (hi_paths i) (hi_curr i) (hi_pos i) start end_)
              end)
    end.

  (** The loop of avl.go:453-473; the result says whether advance returns from inside it. *)
  Fixpoint i_start_loop (n : nat) (s : K) : iprog bool :=
    match n with
    | O => ifuel
    | S n' =>
        let# i := iget in
        let# c := iload (hi_curr i) in
        let# comp := ilift (compare s (c_key c)) in
        if comp <? 0 then
          match c_r c with
          | Some _ => let# _ := iset (PIt (hi_paths i) (c_r c) (hi_pos i) (hi_start i) (hi_end i)) in i_start_loop n' s
          | None =>
              match hi_paths i with
              | [] => let# _ := iset (PIt [] None (hi_pos i) (hi_start i) (hi_end i)) in iret true
              | p :: ps => let# _ := iset (move ps p i) in i_start_loop n' s
              end
          end
        else iret false
    end.

  (** The loop of avl.go:481-496. *)
  Fixpoint i_end_loop (n : nat) (e : K) : iprog unit :=
    match n with
    | O => ifuel
    | S n' =>
        let# i := iget in
        let# c := iload (hi_curr i) in
        let# comp := ilift (compare (c_key c) e) in
        if 0 <=? comp then
          match hi_paths i with
          | [] => iset (PIt [] None (hi_pos i) (hi_start i) None)
          | p :: ps => let# _ := iset (move ps p i) in i_end_loop n' e
          end
        else iret tt
    end.

  (** advance, avl.go:449-499. *)
  Definition i_filters (n : nat) : iprog unit :=
    let# i := iget in
    let# stop := match hi_start i with
                 | None => iret false
                 | Some s =>
                     let# stop := i_start_loop n s in
                     if stop : bool then iret true
                     else
                       let# i1 := iget in
                       let# _ := iset (PIt (hi_paths i1) (hi_curr i1) (hi_pos i1) None (hi_end i1)) in
                       iret false
                 end in
    if stop : bool then iret tt
    else
      let# i1 := iget in
      match hi_end i1 with
      | None => iret tt
      | Some e => i_end_loop n e
      end.

  (** advance, avl.go:417-447: the switch on currPos. *)
  Definition i_switch (n : nat) : iprog unit :=
    let# i := iget in
    if hi_pos i =? 0 then i_filters n
    else if hi_pos i =? 1 then
      let# c := iload (hi_curr i) in
      match c_r c with
      | Some _ =>
          let# _ := iset (move (hi_paths i) (c_r c) i) in
          let# _ := i_walk_left n in
          i_filters n
      | None =>
          match hi_paths i with
          | p :: ps => let# _ := iset (move ps p i) in i_filters n
          | [] => iset (PIt [] None (hi_pos i) None None)
          end
      end
    else ilift Panic.

  (** advance, avl.go:400-500. *)
  Definition i_advance (n : nat) : iprog unit :=
    let# i := iget in
    match hi_curr i, hi_paths i with
    | None, [] => iret tt
    | None, p :: ps => let# _ := iset (move ps p i) in i_switch n
    | Some _, _ => i_switch n
    end.

  Definition i_is_empty (i : piter) : bool :=
    match hi_paths i, hi_curr i with [], None => true | _, _ => false end.

  (** Next, avl.go:358-370. *)
  Definition i_next (n : nat) : iprog (option (K * V)) :=
    let# _ := i_advance n in
    let# i := iget in
    if i_is_empty i then iret None
    else
      let# c := iload (hi_curr i) in
      let# _ := iset (PIt (hi_paths i) (hi_curr i) 1 (hi_start i) (hi_end i)) in
      iret (Some (c_key c, c_val c)).

  (** HasNext, avl.go:372-379. *)
  Definition i_has_next (n : nat) : iprog bool :=
    let# _ := i_advance n in
    let# i := iget in
    iret (negb (i_is_empty i)).

  (** Peek, avl.go:381-398. *)
  Definition i_peek (n : nat) : iprog (option (K * V)) :=
    let# _ := i_advance n in
    let# i := iget in
    if i_is_empty i then iret None
    else match hi_curr i with
         | None => iret None
         | Some _ => let# c := iload (hi_curr i) in iret (Some (c_key c, c_val c))
         end.

  (** ** Everything a client holds: the heap, its trees, its iterators *)
  Record sys : Type := Sys { s_heap : heap; s_trees : list ptree; s_iters : list piter }.
  Definition sys0 : sys := Sys [] [] [].

  (** A call on a tree: a panic keeps the tree's fields (the assignment does not happen) but not the heap. *)
  Definition on_tree (s : sys) (m : nat) (f : ptree -> prog (ptree * pobs K V)) : option (sys * res (pobs K V)) :=
    match nth_error (s_trees s) m with
    | None => Some (s, Err)
    | Some t =>
        match f t (s_heap s) with
        | None => None
        | Some (h, Ok (t', o)) => Some (Sys h (upd (s_trees s) m t') (s_iters s), Ok o)
        | Some (h, Err) => Some (Sys h (s_trees s) (s_iters s), Err)
        | Some (h, Panic) => Some (Sys h (s_trees s) (s_iters s), Panic)
        end
    end.
  Definition on_iter (s : sys) (i : nat) (f : iprog (pobs K V)) : option (sys * res (pobs K V)) :=
    match nth_error (s_iters s) i with
    | None => Some (s, Err)
    | Some it =>
        match f (s_heap s) it with
        | None => None
        | Some (it', r) => Some (Sys (s_heap s) (s_trees s) (upd (s_iters s) i it'), r)
        end
    end.

  (** One call. [Err] stands for a call on a tree or iterator that does not exist; clients cannot make it. *)
  Definition p_step (n : nat) (s : sys) (op : pop K V) : option (sys * res (pobs K V)) :=
    match op with
    | PNew => Some (Sys (s_heap s) (s_trees s ++ [(None, 0)]) (s_iters s), Ok PODone)
    | PPut m k v =>
        on_tree s m (fun t => let! (t', node) := p_put n t k v in
                              let! e := p_entry node in hret (t', POEntry e))
    | PRemove m k =>
        on_tree s m (fun t => let! (t', node) := p_remove n t k in
                              let! e := p_entry node in hret (t', POEntry e))
    | PGet m k =>
        on_tree s m (fun t => let! node := p_get n t k in
                              let! e := p_entry node in hret (t, POEntry e))
    | PSize m => on_tree s m (fun t => hret (t, POInt (snd t)))
    | PIter m start end_ =>
        match nth_error (s_trees s) m with
        | None => Some (s, Err)
        | Some t =>
            match i_new n (fst t) start end_ (s_heap s) with
            | None => None
            | Some (Ok i) => Some (Sys (s_heap s) (s_trees s) (s_iters s ++ [i]), Ok PODone)
            | Some Err => Some (s, Err)
            | Some Panic => Some (s, Panic)
            end
        end
    | PHasNext i => on_iter s i (let# b := i_has_next n in iret (POBool b))
    | PPeek i => on_iter s i (let# e := i_peek n in iret (POEntry e))
    | PNext i => on_iter s i (let# e := i_next n in iret (POEntry e))
    end.

  (** A sequence of calls; the client recovers from panics and goes on. *)
  Fixpoint p_run (n : nat) (s : sys) (ops : list (pop K V)) : option (sys * list (res (pobs K V))) :=
    match ops with
    | [] => Some (s, [])
    | op :: ops' =>
        match p_step n s op with
        | None => None
        | Some (s1, o) =>
            match p_run n s1 ops' with
            | None => None
            | Some (s2, os) => Some (s2, o :: os)
            end
        end
    end.
End Ptr.
