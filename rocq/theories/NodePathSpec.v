(** * Vocabulary for the paths of a node, independent of the model: where a walk through directories leads. *)
From Coq Require Import List.
From Coq Require Import Strings.Byte.
From Verif Require Import KeyStoreSpec.
Import ListNotations.

(** One name: nothing and "." stay, ".." goes to the parent (the root is its own), any other name is an entry. *)
Inductive enters (d : list (list byte)) : list byte -> list (list byte) -> Prop :=
| EnterNothing : enters d [] d
| EnterDot : enters d [x2e] d
| EnterRoot : d = [] -> enters d [x2e; x2e] []
| EnterParent p x : d = p ++ [x] -> enters d [x2e; x2e] p
| EnterName x : plain_name x -> enters d x (d ++ [x]).
(** A text: its names between slashes, one after the other. *)
Inductive walks : list (list byte) -> list byte -> list (list byte) -> Prop :=
| WalkLast d x d' : no_slash x -> enters d x d' -> walks d x d'
| WalkOn d x d1 s d2 : no_slash x -> enters d x d1 -> walks d1 s d2 -> walks d (x ++ x2f :: s) d2.

(** What belongs to a node. *)
Inductive node_item :=
| Conf (node : list byte) | Lib (node : list byte) | Transactions (node : list byte) | Domain (node name : list byte) | Logs (node : list byte).
Definition names_of (i : node_item) : list (list byte) :=
  match i with Conf n | Lib n | Transactions n | Logs n => [n] | Domain n m => [n; m] end.
