(** * Vocabulary for statements about printed text. Written without reference to how fmt scans a format. *)
From Coq Require Import String List NArith ZArith.
From Coq Require Import Strings.Byte.
From Verif Require Import Base AVLModel.
Import ListNotations.

(** A text without return characters. *)
Definition one_line (t : list byte) : Prop := ~ In x0a t.

(** The text consists of these lines, each ended by a return. *)
Definition is_lines (out : list byte) (ls : list (list byte)) : Prop :=
  out = concat (map (fun l => l ++ [x0a]) ls) /\ Forall one_line ls.

Definition blanks (n : Z) : list byte := repeat x20 (Z.to_nat n).
Definition text (s : string) : list byte := list_byte_of_string s.

(** A row that shows an entry, indented by more than [indent]. *)
Definition shows_entry {K V : Type} (kt : K -> list byte) (vt : V -> list byte) (indent : Z) (row : list byte) (e : K * V) : Prop :=
  exists n rest, (indent < n)%Z /\
    row = blanks n ++ text "k=" ++ kt (fst e) ++ text ", v=" ++ vt (snd e) ++ text ", " ++ rest.

(** The nodes of a tree, each before its left and then its right subtree, with the depth of each. *)
Fixpoint preorder {K V : Type} (d : Z) (t : tree K V) : list (Z * tree K V) :=
  match t with
  | Leaf => []
  | Node _ _ _ l r => (d, t) :: preorder (d + 1) l ++ preorder (d + 1) r
  end.

(** The nodes of a chain with their depth and the chain after them. *)
Fixpoint nested {E : Type} (d : Z) (c : list E) : list (Z * E * list E) :=
  match c with
  | [] => []
  | e :: c' => (d, e, c') :: nested (d + 1) c'
  end.

(** The rows of a tree and of a chain: [num] writes integers, [kt] and [vt] keys and values. *)
Section Rows.
  Context {K V : Type} (kt : K -> list byte) (vt : V -> list byte) (num : Z -> list byte).
  Definition tree_label (t : tree K V) : list byte :=
    match t with Leaf => text "<nil>" | Node k _ _ _ _ => kt k end.
  Definition tree_line (t : tree K V) : list byte :=
    match t with
    | Leaf => text "<nil>"
    | Node k v b l r =>
        text "k=" ++ kt k ++ text ", v=" ++ vt v ++ text ", b=" ++ num b ++ text ", l=[" ++ tree_label l ++ text ", " ++ tree_label r ++ text "]"
    end.
  Definition tree_row (indent : Z) (p : Z * tree K V) : list byte := blanks (Z.abs (indent + 4 * fst p)) ++ tree_line (snd p).
  Definition chain_line (e : K * V) (rest : list (K * V)) : list byte :=
    text "k=" ++ kt (fst e) ++ text ", v=" ++ vt (snd e) ++ text ", l=[" ++
    (match rest with [] => text "<nil>" | e' :: _ => kt (fst e') end) ++ text "]".
  Definition chain_row (indent : Z) (p : Z * (K * V) * list (K * V)) : list byte :=
    let '(d, e, rest) := p in blanks (Z.abs (indent + 4 * d)) ++ chain_line e rest.
End Rows.

(** A decimal numeral: a minus sign for negative numbers only, digits, no needless leading zero. *)
Definition decimal_digit (c : byte) : Prop := (48 <= b2n c <= 57)%N.
Fixpoint number (acc : Z) (ds : list byte) : Z :=
  match ds with [] => acc | c :: ds' => number (10 * acc + (Z.of_N (b2n c) - 48)) ds' end.
Definition numeral (t : list byte) (z : Z) : Prop :=
  exists (neg : bool) (ds : list byte), t = (if neg then x2d :: ds else ds) /\ Forall decimal_digit ds /\
    z = (if neg then - number 0 ds else number 0 ds)%Z /\ ds <> [] /\ (neg = true -> z < 0)%Z /\ (hd_error ds = Some x30 -> ds = [x30]).

(** The line of a sub key; [num] writes integers, [bt] bytes. *)
Fixpoint numbered {A : Type} (i : Z) (l : list A) : list (Z * A) :=
  match l with [] => [] | x :: l' => (i, x) :: numbered (i + 1) l' end.
Definition sub_key_line (num : Z -> list byte) (bt : list byte -> list byte) (p : Z * list byte) : list byte :=
  text "    subKey[" ++ num (fst p) ++ text "] = " ++ bt (snd p).
