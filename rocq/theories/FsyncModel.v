(** * Model of the file helpers, /repo/src/util/fsync.go.

    A file has the bytes that are certain to be on the disk and the list of changes since; what a program reads is the
    result of all of them. Which calls the system refuses is told with each call: Open by [ok], Write by the number of
    bytes it writes before the error, Sync by [ok]. Not modelled: links and removal of files, and whether the name of a
    new file survives a crash. *)
From Coq Require Import List ZArith Bool.
From Coq Require Import Strings.Byte.
From Verif Require Import Base.
Import ListNotations.

Inductive change := Trunc | Zeros (off n : nat).
(** Writing [n] zero bytes at [off]; a gap is filled with zero bytes, and nothing happens if there is nothing to write. *)
Definition apply_change (c : bytes) (ch : change) : bytes :=
  match ch with
  | Trunc => []
  | Zeros _ O => c
  | Zeros off n => firstn off (c ++ repeat x00 off) ++ repeat x00 n ++ skipn (off + n) c
  end.
Record file := File { f_synced : bytes; f_pending : list change }.
Definition f_now (f : file) : bytes := fold_left apply_change (f_pending f) (f_synced f).
Record handle := Handle { h_name : bytes; h_off : nat; h_closed : bool }.
Record fs := Fs { fs_files : bytes -> option file; fs_handles : list handle }.

Inductive call :=
| FOpen (name : bytes) (ok : bool)
| FWrite (f : option nat) (size : Z) (error : option nat)
| FSync (f : option nat) (ok : bool)
| FClose (f : option nat).

Fixpoint name_eqb (a b : bytes) : bool :=
  match a, b with
  | [], [] => true
  | x :: a, y :: b => byte_eqb x y && name_eqb a b
  | _, _ => false
  end.
Definition put_file (s : fs) (name : bytes) (f : file) : fs :=
  Fs (fun n => if name_eqb n name then Some f else fs_files s n) (fs_handles s).
Definition put_handle (s : fs) (i : nat) (h : handle) : fs :=
  Fs (fs_files s) (firstn i (fs_handles s) ++ h :: skipn (S i) (fs_handles s)).
Definition get_handle (s : fs) (f : option nat) : option (nat * handle) :=
  match f with
  | None => None
  | Some i => match nth_error (fs_handles s) i with Some h => Some (i, h) | None => None end
  end.
Definition get_file (s : fs) (name : bytes) : file :=
  match fs_files s name with Some f => f | None => File [] [] end.
Definition change_file (s : fs) (name : bytes) (ch : change) : fs :=
  let f := get_file s name in put_file s name (File (f_synced f) (f_pending f ++ [ch])).

(** Open 17-22: create or truncate, the position is 0. *)
Definition open (s : fs) (name : bytes) (ok : bool) : fs * res (option nat) :=
  if ok then
    let s := change_file s name Trunc in
    (Fs (fs_files s) (fs_handles s ++ [Handle name 0 false]), Ok (Some (length (fs_handles s))))
  else (s, Panic).
(** Write 24-31: make panics for a negative size; a nil or closed file is an error, and errors panic. *)
Definition write (s : fs) (f : option nat) (size : Z) (error : option nat) : fs * res (option nat) :=
  if (size <? 0)%Z then (s, Panic)
  else match get_handle s f with
       | Some (i, h) =>
           if h_closed h then (s, Panic)
           else let n := match error with Some k => Nat.min k (Z.to_nat size) | None => Z.to_nat size end in
                let s := change_file s (h_name h) (Zeros (h_off h) n) in
                (put_handle s i (Handle (h_name h) (h_off h + n) false), match error with Some _ => Panic | None => Ok None end)
       | None => (s, Panic)
       end.
(** Sync 33-36. *)
Definition sync (s : fs) (f : option nat) (ok : bool) : fs * res (option nat) :=
  match get_handle s f with
  | Some (_, h) =>
      if h_closed h then (s, Panic)
      else if ok then (put_file s (h_name h) (File (f_now (get_file s (h_name h))) []), Ok None)
      else (s, Panic)
  | None => (s, Panic)
  end.
(** Close 38-40 drops the error. *)
Definition close (s : fs) (f : option nat) : fs * res (option nat) :=
  match get_handle s f with
  | Some (i, h) => (put_handle s i (Handle (h_name h) (h_off h) true), Ok None)
  | None => (s, Ok None)
  end.
Definition fs_step (s : fs) (c : call) : fs * res (option nat) :=
  match c with
  | FOpen name ok => open s name ok
  | FWrite f size error => write s f size error
  | FSync f ok => sync s f ok
  | FClose f => close s f
  end.
Fixpoint fs_run (s : fs) (cs : list call) : fs * list (res (option nat)) :=
  match cs with
  | [] => (s, [])
  | c :: cs => let (s, o) := fs_step s c in let (s, os) := fs_run s cs in (s, o :: os)
  end.
