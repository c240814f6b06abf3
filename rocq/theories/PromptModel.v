(** * Model of PromptText, src/util/lc_util.go:28-33.

    Standard input is the list of what the successive read calls of the process return, whoever makes them. An empty read is
    the end of the input; a terminal can go on after one, and after the list has ended every read is empty. How much one read
    returns (at most what is left of the 4096 bytes of the buffer, what a line of a terminal holds, what a pipe holds) is
    left open: every theorem is for all such lists. *)
From Coq Require Import List Bool NArith.
From Coq Require Import Strings.Byte.
From Verif Require Import Base.
Import ListNotations.

Definition input := list bytes.

Definition newline : byte := x0a.

(** The text up to and with the first newline, if there is one. *)
Fixpoint to_newline (c : bytes) : option bytes :=
  match c with
  | [] => None
  | b :: c' => if byte_eqb b newline then Some [b] else option_map (cons b) (to_newline c')
  end.

(** bufio.Reader.ReadString('\n') of a reader made just before: read until a newline is among the bytes, return what is
    before it and the newline; at the end of the input return what there is. The reader is dropped with what its buffer holds
    after the newline. *)
Fixpoint read_string (i : input) : bytes * input :=
  match i with
  | [] => ([], [])
  | [] :: i' => ([], i')
  | c :: i' =>
      match to_newline c with
      | Some t => (t, i')
      | None => let (t, r) := read_string i' in (c ++ t, r)
      end
  end.

(** unicode.IsSpace: the characters with the property White_Space, as UTF-8. A byte sequence that is not UTF-8 decodes to
    U+FFFD, which is no space. *)
Definition space_codes : list bytes :=
  [ [x09]; [x0a]; [x0b]; [x0c]; [x0d]; [x20]; [xc2; x85]; [xc2; xa0]; [xe1; x9a; x80];
    [xe2; x80; x80]; [xe2; x80; x81]; [xe2; x80; x82]; [xe2; x80; x83]; [xe2; x80; x84]; [xe2; x80; x85];
    [xe2; x80; x86]; [xe2; x80; x87]; [xe2; x80; x88]; [xe2; x80; x89]; [xe2; x80; x8a];
    [xe2; x80; xa8]; [xe2; x80; xa9]; [xe2; x80; xaf]; [xe2; x81; x9f]; [xe3; x80; x80] ].

(** What is left after a prefix. *)
Fixpoint cut (p s : bytes) : option bytes :=
  match p, s with
  | [], _ => Some s
  | a :: p', b :: s' => if byte_eqb a b then cut p' s' else None
  | _, [] => None
  end.
Fixpoint cut_any (ps : list bytes) (s : bytes) : option bytes :=
  match ps with
  | [] => None
  | p :: ps' => match cut p s with Some s' => Some s' | None => cut_any ps' s end
  end.
(** Cut prefixes of the list as long as there is one; [fuel] is the length of the text. *)
Fixpoint cut_all (ps : list bytes) (fuel : nat) (s : bytes) : bytes :=
  match fuel with
  | O => s
  | S f => match cut_any ps s with Some s' => cut_all ps f s' | None => s end
  end.
(** strings.TrimSpace: TrimLeftFunc and then TrimRightFunc with unicode.IsSpace. *)
Definition trim_left (s : bytes) : bytes := cut_all space_codes (length s) s.
Definition trim_right (s : bytes) : bytes := rev (cut_all (map (@rev byte) space_codes) (length s) (rev s)).
Definition trim_space (s : bytes) : bytes := trim_right (trim_left s).

(** PromptText, 28-33: what is printed, what is returned, and the reads that are left. *)
Definition prompt_text (prompt : bytes) (i : input) : bytes * bytes * input :=
  let printed := prompt ++ [x20; x3a; x20] in
  let (text, rest) := read_string i in
  (printed, trim_space text, rest).

(** A program that asks questions one after the other. *)
Fixpoint answers (prompts : list bytes) (i : input) : list bytes * input :=
  match prompts with
  | [] => ([], i)
  | p :: ps =>
      let '(_, a, r) := prompt_text p i in
      let (l, r') := answers ps r in (a :: l, r')
  end.
