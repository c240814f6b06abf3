(** * Vocabulary for the file helpers: what a crash can leave. *)
From Coq Require Import List.
From Coq Require Import Strings.Byte.
From Verif Require Import Base FsyncModel.
Import ListNotations.

(** Of the changes since the last sync the disk has any selection, in order. *)
Inductive selection {A} : list A -> list A -> Prop :=
| sel_nil : selection [] []
| sel_skip x l m : selection l m -> selection l (x :: m)
| sel_take x l m : selection l m -> selection (x :: l) (x :: m).
Definition survives (f : file) (c : bytes) : Prop :=
  exists l, selection l (f_pending f) /\ c = fold_left apply_change l (f_synced f).
Definition zeros (c : bytes) : Prop := Forall (eq x00) c.
(** Calls that open [name] again. *)
Definition reopens (name : bytes) (c : call) : Prop := c = FOpen name true.
