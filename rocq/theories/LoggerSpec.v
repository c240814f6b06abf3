(** * Where the lines of a log should be, by the history of the calls. *)
From Coq Require Import List Bool NArith.
From Verif Require Import Base LoggerModel.
Import ListNotations.

Section Lines.
Context {line : Type}.

(** A call that chooses a destination and does it. A log file that is open already need not be opened again. *)
Inductive choice := ToStdout | ToFile.
Fixpoint file_open (past : list (call line)) : bool :=
  match past with
  | [] => false
  | SetFileTmp true :: _ => true
  | _ :: past' => file_open past'
  end.
(** The last choice; [past] has the latest call first. *)
Fixpoint chosen (past : list (call line)) : option choice :=
  match past with
  | [] => None
  | SetStdout :: _ => Some ToStdout
  | SetFileTmp ok :: past' => if ok || file_open past' then Some ToFile else chosen past'
  | Print _ :: past' => chosen past'
  end.
(** Where a line printed after [past] belongs, and the flags: short file name (16), date (1) and time (2), and microseconds
    (4) in a file. *)
Definition belongs (past : list (call line)) : dest * N :=
  match chosen past with
  | None => (Stderr, 3%N)
  | Some ToStdout => (Stdout, 19%N)
  | Some ToFile => (File 0, 23%N)
  end.
(** The log as it should be. *)
Fixpoint log_of (past : list (call line)) (cs : list (call line)) : list (dest * N * line) :=
  match cs with
  | [] => []
  | Print l :: cs' => (fst (belongs past), snd (belongs past), l) :: log_of (Print l :: past) cs'
  | c :: cs' => log_of (c :: past) cs'
  end.

(** Whether the choice of the file that is in force was made when the file was open already. *)
Fixpoint second_choice (past : list (call line)) : bool :=
  match past with
  | [] => false
  | SetStdout :: _ => false
  | SetFileTmp ok :: past' => if file_open past' then true else if ok then false else second_choice past'
  | Print _ :: past' => second_choice past'
  end.
(** The log without the lines printed under such a choice. *)
Fixpoint kept (past : list (call line)) (cs : list (call line)) : list (dest * N * line) :=
  match cs with
  | [] => []
  | Print l :: cs' =>
      (if second_choice past then [] else [(fst (belongs past), snd (belongs past), l)]) ++ kept (Print l :: past) cs'
  | c :: cs' => kept (c :: past) cs'
  end.
End Lines.
