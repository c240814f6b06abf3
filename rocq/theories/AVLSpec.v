(** * Vocabulary for statements about trees: contents, height, balance. *)
From Coq Require Import List ZArith.
From Verif Require Import Base AVLModel.
Import ListNotations.

Section AVLSpec.
  Context {K V : Type}.

  (** The entries of a tree from left to right. *)
  Fixpoint inorder (t : tree K V) : list (K * V) :=
    match t with
    | Leaf => []
    | Node k v _ l r => inorder l ++ (k, v) :: inorder r
    end.

  (** The number of nodes on the longest path from the root. *)
  Fixpoint height (t : tree K V) : nat :=
    match t with
    | Leaf => 0
    | Node _ _ _ l r => S (Nat.max (height l) (height r))
    end.

  (** Every recorded balance is the height difference of the subtrees and lies in {-1, 0, 1}. *)
  Fixpoint balanced (t : tree K V) : Prop :=
    match t with
    | Leaf => True
    | Node _ _ b l r =>
        b = (Z.of_nat (height r) - Z.of_nat (height l))%Z /\ (-1 <= b <= 1)%Z /\ balanced l /\ balanced r
    end.

  (** Search-tree order: at every node the keys on the left are smaller and those on the right larger. *)
  Fixpoint search_tree (lt : K -> K -> Prop) (t : tree K V) : Prop :=
    match t with
    | Leaf => True
    | Node k _ _ l r =>
        Forall (fun e => lt (fst e) k) (inorder l) /\ Forall (fun e => lt k (fst e)) (inorder r) /\
        search_tree lt l /\ search_tree lt r
    end.

  (** Strictly ascending keys. *)
  Definition ascending (lt : K -> K -> Prop) (l : list (K * V)) : Prop :=
    ForallOrdPairs (fun a b => lt (fst a) (fst b)) l.
End AVLSpec.
