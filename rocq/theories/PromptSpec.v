(** * What PromptText should return: the lines of the input, one after the other, without the white space around them. *)
From Coq Require Import List Bool NArith.
From Coq Require Import Strings.Byte.
From Verif Require Import Base.
Import ListNotations.

(** White space, by the code points of the property White_Space of Unicode. *)
Definition white (cp : N) : Prop :=
  (9 <= cp <= 13 \/ cp = 32 \/ cp = 133 \/ cp = 160 \/ cp = 5760 \/ 8192 <= cp <= 8202 \/ cp = 8232 \/ cp = 8233 \/
   cp = 8239 \/ cp = 8287 \/ cp = 12288)%N.
(** UTF-8 of the code points below 65536. *)
Definition utf8 (cp : N) : list N :=
  (if cp <? 128 then [cp]
   else if cp <? 2048 then [192 + cp / 64; 128 + cp mod 64]
   else [224 + cp / 4096; 128 + cp / 64 mod 64; 128 + cp mod 64])%N.
(** A white space character of a text. *)
Definition blank (s : bytes) : Prop := exists cp, white cp /\ map b2n s = utf8 cp.
Inductive blanks : bytes -> Prop :=
| blanks_nil : blanks []
| blanks_cons : forall w s, blank w -> blanks s -> blanks (w ++ s).

(** [t] is the text [s] without the white space at its two ends. *)
Definition trimmed (s t : bytes) : Prop :=
  (exists l r, s = l ++ t ++ r /\ blanks l /\ blanks r) /\
  (forall w u, blank w -> t <> w ++ u) /\ (forall w u, blank w -> t <> u ++ w).

(** The lines of an input: what is before the first newline, and so on; what is after the last newline is a line too, and
    after the end every further line is empty. *)
Fixpoint line (s : bytes) : bytes :=
  match s with [] => [] | b :: s' => if N.eqb (b2n b) 10 then [] else b :: line s' end.
Fixpoint after_line (s : bytes) : bytes :=
  match s with [] => [] | b :: s' => if N.eqb (b2n b) 10 then s' else after_line s' end.
Fixpoint lines (n : nat) (s : bytes) : list bytes :=
  match n with O => [] | S n' => line s :: lines n' (after_line s) end.

(** How a terminal delivers its input: no read goes beyond a newline, and none is empty. *)
Definition line_wise (i : list bytes) : Prop :=
  Forall (fun c => c <> [] /\ forall u v, c = u ++ v -> v <> [] -> ~ In 10%N (map b2n u)) i.

(** The reads that one question takes: up to the first one that is empty or has a newline. *)
Fixpoint used (i : list bytes) : nat :=
  match i with
  | [] => 0
  | c :: i' => if existsb (fun b => N.eqb (b2n b) 10) c then 1 else match c with [] => 1 | _ => S (used i') end
  end.
