(** * Model of LCSetLoggerStdout and LCSetLoggerFileTmp, src/util/lc_util.go:70-92, with Go's package log.

    The state is what the two functions set: the destination and the flags of the standard logger, and the variable log_file.
    Files are numbered in the order in which the process opens them; all of them are /tmp/<pid>.log (lc_get_log_file_tmp,
    406-408), opened for appending. Whether opening succeeds is an input of each call. The format of a line (which is a matter
    of package log) is left open: a line is a value of any type, with the flags that were in force. *)
From Coq Require Import List Bool NArith.
From Verif Require Import Base.
Import ListNotations.

Inductive dest := Stderr | Stdout | File (n : nat) | NilFile.

(** log.Ldate, Ltime, Lmicroseconds, Llongfile, Lshortfile. *)
Definition Ldate := 1%N.
Definition Ltime := 2%N.
Definition Lmicroseconds := 4%N.
Definition Lshortfile := 16%N.
(** The flags before any call: log.LstdFlags. *)
Definition LstdFlags := N.lor Ldate Ltime.

Section Lines.
Context {line : Type}.

Record state := State {
  s_out : dest;             (* the writer of the standard logger *)
  s_flags : N;
  s_log_file : option nat;  (* log_file, 70 *)
  s_opened : nat;           (* how many times the file was opened *)
  s_written : list (dest * N * line)   (* what has arrived, in order *)
}.
Definition start : state := State Stderr LstdFlags None 0 [].

(** Calls; the answer is whether an error was returned. *)
Inductive call := SetStdout | SetFileTmp (can_open : bool) | Print (l : line).

(** 72-76. *)
Definition set_stdout (s : state) : state * bool :=
  (State Stdout (N.lor (N.lor Lshortfile Ldate) Ltime) (s_log_file s) (s_opened s) (s_written s), true).

(** 78-92: the local variable [file] stays nil if log_file is set already. A nil *os.File is a writer whose Write returns an
    error, which package log drops with the line. *)
Definition set_file_tmp (can_open : bool) (s : state) : state * bool :=
  let fl := N.lor (N.lor (N.lor Lshortfile Ldate) Ltime) Lmicroseconds in
  match s_log_file s with
  | None =>
      if can_open
      then let n := s_opened s in (State (File n) fl (Some n) (S n) (s_written s), true)
      else (s, false)
  | Some f => (State NilFile fl (Some f) (s_opened s) (s_written s), true)
  end.

(** log.Print and its like. *)
Definition print (l : line) (s : state) : state * bool :=
  match s_out s with
  | NilFile => (s, true)
  | d => (State d (s_flags s) (s_log_file s) (s_opened s) (s_written s ++ [(d, s_flags s, l)]), true)
  end.

Definition step (s : state) (c : call) : state * bool :=
  match c with
  | SetStdout => set_stdout s
  | SetFileTmp ok => set_file_tmp ok s
  | Print l => print l s
  end.
Definition run (cs : list call) : state := fold_left (fun s c => fst (step s c)) cs start.
(** Whether call [c] after the calls [cs] returns no error. *)
Definition succeeds (cs : list call) (c : call) : bool := snd (step (run cs) c).
End Lines.
Arguments state : clear implicits.
Arguments call : clear implicits.
