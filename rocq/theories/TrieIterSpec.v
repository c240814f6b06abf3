(** * Vocabulary for statements about iteration over tries: order of keys, nodes of a trie, ranges. *)
From Coq Require Import List ZArith Bool.
From Coq Require Import Strings.Byte.
From Verif Require Import Base CmpSpec ValueModel AVLModel AVLSpec TrieModel TrieIterModel.
Import ListNotations.

(** ** Order of keys *)

(** Byte strings as in a dictionary. *)
Fixpoint lexb (a b : bytes) : bool :=
  match a, b with
  | _, [] => false
  | [], _ :: _ => true
  | x :: a', y :: b' => N.ltb (b2n x) (b2n y) || (N.eqb (b2n x) (b2n y) && lexb a' b')
  end.
Definition keyb (a b : gslice) : bool := lexb (gcontent a) (gcontent b).
Definition same (a b : gslice) : bool := negb (keyb a b) && negb (keyb b a).
(** Keys sub key by sub key; a key comes before its extensions. *)
Fixpoint pathb (p q : path) : bool :=
  match p, q with
  | _, [] => false
  | [], _ :: _ => true
  | x :: p', y :: q' => keyb x y || (same x y && pathb p' q')
  end.
(** [q] is [p] or an extension of it. *)
Fixpoint under (p q : path) : bool :=
  match p, q with
  | [], _ => true
  | x :: p', y :: q' => same x y && under p' q'
  | _, _ => false
  end.

(** ** Tries *)

(** The children of a node with their keys, in the order of the sorted map. *)
Definition kids (n : tnode) : list (gslice * tnode) := inorder (avl_root (tn_children n)).
(** The client's nodes: each child is stored under its node key, and the size of the map is right. *)
Inductive regular : tnode -> Prop :=
| regular_node : forall n, avl_size (tn_children n) = Z.of_nat (length (kids n)) ->
    (forall k c, In (k, c) (kids n) -> tn_key c = k /\ regular c) -> regular n.
(** The children are in a search tree, and no sub key is a proper prefix of another (C15, C16). *)
Inductive ordered (P : bytes -> Prop) : tnode -> Prop :=
| ordered_node : forall n, search_tree (slice_lt byte_lt) (avl_root (tn_children n)) ->
    (forall k c, In (k, c) (kids n) -> (exists b, k = Some b /\ P b) /\ ordered P c) -> ordered P n.
(** The node with a given key. *)
Inductive node_at (t : tnode) : path -> tnode -> Prop :=
| at_root : node_at t [] t
| at_child : forall p n k c, node_at t p n -> In (k, c) (kids n) -> node_at t (p ++ [k]) c.

(** A node with key [p] and all nodes below it: each before its children, the children in their order. *)
Fixpoint nodes (p : path) (n : tnode) : list shown :=
  match n with
  | TNode _ d ch =>
      (p, d) :: (fix below (t : tree gslice tnode) : list shown :=
                   match t with Leaf => [] | Node k c _ l r => below l ++ nodes (p ++ [k]) c ++ below r end) (avl_root ch)
  end.

(** ** Iteration over a list of nodes *)

(** What calls show on an iterator that has [l] to go, with HasNext the wrong way round. *)
Fixpoint backward_answers (l : list shown) (cs : list icall) : list (iobs shown) :=
  match cs with
  | [] => []
  | CHasNext :: cs' => OHas (match l with [] => true | _ => false end) :: backward_answers l cs'
  | CPeek :: cs' => OPeek (hd_error l) :: backward_answers l cs'
  | CNext :: cs' => ONext (hd_error l) :: backward_answers (tl l) cs'
  end.
(** What calls show on an iterator that has [l] to go; after that it says that there is more, and Next and Peek do not
    return, if [stuck], or it says that there is no more. *)
Fixpoint answers (l : list shown) (stuck : bool) (cs : list icall) : list outcome :=
  match cs with
  | [] => []
  | CHasNext :: cs' => Said (OHas (match l with [] => stuck | _ => true end)) :: answers l stuck cs'
  | CPeek :: cs' => match l, stuck with [], true => [Busy] | _, _ => Said (OPeek (hd_error l)) :: answers l stuck cs' end
  | CNext :: cs' => match l, stuck with [], true => [Busy] | _, _ => Said (ONext (hd_error l)) :: answers (tl l) stuck cs' end
  end.
(** An iterator that shows the same for ever. *)
Fixpoint repeats (x : shown) (cs : list icall) : list outcome :=
  match cs with
  | [] => []
  | CHasNext :: cs' => Said (OHas true) :: repeats x cs'
  | CPeek :: cs' => Said (OPeek (Some x)) :: repeats x cs'
  | CNext :: cs' => Said (ONext (Some x)) :: repeats x cs'
  end.

(** ** Ranges *)

Definition child (n : tnode) (k : gslice) : option tnode := option_map snd (find (fun kc => same (fst kc) k) (kids n)).
Fixpoint sub (t : tnode) (p : path) : option tnode :=
  match p with [] => Some t | k :: p' => match child t k with Some c => sub c p' | None => None end end.
(** The longest beginning of a key that is the key of a node. *)
Fixpoint found (t : tnode) (p : path) : path :=
  match p with [] => [] | k :: p' => match child t k with Some c => k :: found c p' | None => [] end end.

(** The nodes that the end of a range lets through, where [e] is the part of the end that is in the trie and [complete]
    says that it is all of it: the nodes before [e]; those at and below [e] if it is not complete; and those with the first
    sub key [free]. *)
Definition before (e : path) (complete : bool) (free : option gslice) (p : path) : bool :=
  match e with
  | [] => true
  | _ => pathb p e || (negb complete && under e p) || match free, p with Some s, k :: _ => same k s | _, _ => false end
  end.
(** Which of the nodes of a list are shown when an iterator cannot go up from a level below [m]; and whether that stops
    it. *)
Fixpoint visible (m : nat) (l : list shown) : list shown * bool :=
  match l with
  | [] => ([], false)
  | x :: l' =>
      if Nat.ltb m (length (fst x)) && match l' with [] => true | y :: _ => Nat.ltb (length (fst y)) (length (fst x)) end
      then ([x], true) else let (a, b) := visible m l' in (x :: a, b)
  end.
(** Every sub key is the smallest child of its node, and not larger than the sub key before it. *)
Fixpoint leads (t : tnode) (up : option gslice) (p : path) : bool :=
  match p with
  | [] => true
  | k :: p' =>
      match kids t with
      | (k0, c) :: _ => same k0 k && match up with None => true | Some u => negb (keyb u k) end && leads c (Some k) p'
      | [] => false
      end
  end.
(** The nodes from the start of a range on: [None] if the start is refused. Then whether the iterator starts at an empty
    level, and the sub key that the end does not apply to. *)
Definition opening (t : tnode) (start : path) : option (list shown * bool * option gslice) :=
  let s := found t start in
  if negb (leads t None s) then None
  else match skipn (length s) start with
       | [] => Some (skipn (length s) (nodes [] t), false, match s with k :: _ :: _ => Some k | _ => None end)
       | x :: _ =>
           if match sub t s with Some n => match kids n with (k, _) :: _ => negb (keyb x k) | [] => false end | None => false end
           then Some (skipn (S (length s)) (nodes [] t), false, hd_error s)
           else Some (filter (fun y => pathb s (fst y) && negb (under s (fst y))) (nodes [] t), true, hd_error s)
       end.
(** What calls show on a range iterator. *)
Definition range_answers (t : tnode) (start end_ : path) (cs : list icall) : list outcome :=
  match kids t with
  | [] => repeats ([], tn_data t) cs
  | _ =>
      match opening t start with
      | None => match cs with [] => [] | _ => [Crash] end
      | Some (l, gap, free) =>
          let e := found t end_ in
          if gap && Nat.leb (length e) (length (found t start)) then answers [] true cs
          else let (a, stuck) := visible (length e)
                 (filter (fun x => before e (Nat.eqb (length e) (length end_)) free (fst x)) l) in answers a stuck cs
      end
  end.
