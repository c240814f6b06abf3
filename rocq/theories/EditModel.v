(** * Editable copies of parsed objects
    (CopyConstruct: /repo/src/util/value_util.go:177-183, 528-585, /repo/src/util/record_util.go:266-293,
    /repo/src/util/key_util.go:253-262).

    The parsed objects are those of ViewModel, which look into memory of the caller. What CopyConstruct makes is a tree of
    constructed objects that nothing else refers to; of their fields only the contents are kept: the slice of a Primitive,
    the elements of a ValueArray and of a RecordList, the sub keys of a Key, and key, value, scheme, timestamp and
    signature of a Record. The [encoded] flags are false and the size estimates are in EstSpec and ValueModel. Timestamp
    and signature are pointers that both records share; the code never changes what they point to. *)
From Coq Require Import List NArith ZArith Bool.
From Coq Require Import Strings.Byte.
From Verif Require Import Base ViewModel.
Import ListNotations.

Inductive made :=
| MBytes (data : win)                        (* Primitive *)
| MArray (elems : list made)                 (* ValueArray *)
| MRecords (elems : list made)               (* RecordList *)
| MKey (keys : list win)                     (* Key *)
| MRecord (key value scheme : made) (ts : option Z) (sig : option (Z * Z)).

(** A Primitive with a copy of the bytes in the window, value_util.go:177-183 and 530-537. *)
Definition edit_bytes (s : st) (w : win) : st * res made :=
  let b := rdw (s_mem s) w in
  (St (s_mem s ++ [b]) (s_objs s), Ok (MBytes (Win (length (s_mem s)) 0 (length b)))).

(** MappedKey.CopyConstruct, key_util.go:253-262: Add, 545-554, keeps the very slice, and panics for an empty one. *)
Definition edit_key (ks : list win) : res made :=
  if forallb (fun w => negb (Nat.eqb (w_len w) 0)) ks then Ok (MKey ks) else Panic.

(** The loops value_util.go:543-556 and 564-577, for elements [i], [i+1], ...: [at_] is ValueAt or RecordAt, which loads
    elements of the parsed value. A nil pointer without an error panics when CopyConstruct is called on it. *)
Fixpoint edit_from (at_ : st -> nat -> st * res obs) (copy : st -> nat -> option (st * res made)) (s : st) (i todo : nat)
  : option (st * res (list made)) :=
  match todo with
  | O => Some (s, Ok [])
  | S n =>
      match at_ s i with
      | (s1, Ok (ARef d)) =>
          match copy s1 d with
          | None => None
          | Some (s2, Ok x) =>
              match edit_from at_ copy s2 (S i) n with
              | None => None
              | Some (s3, Ok l) => Some (s3, Ok (x :: l))
              | Some (s3, Err) => Some (s3, Err)
              | Some (s3, Panic) => Some (s3, Panic)
              end
          | Some (s2, Err) => Some (s2, Err)
          | Some (s2, Panic) => Some (s2, Panic)
          end
      | (s1, Err) => Some (s1, Err)
      | (s1, _) => Some (s1, Panic)
      end
  end.

(** CopyConstruct of the parsed object at [a]; [None] is out of fuel. A part of a record that cannot be copied is a nil
    interface, whose type is asserted before the error is looked at (record_util.go:271-287): a panic. *)
Fixpoint edit (fuel : nat) (s : st) (a : nat) {struct fuel} : option (st * res made) :=
  match fuel with
  | O => None
  | S n =>
      match nth_error (s_objs s) a with
      | Some (PVal _ cw PPrim) | Some (PSimple _ cw) => Some (edit_bytes s cw)
      | Some (PVal _ _ (PArr cells)) =>
          match edit_from (fun s i => step s (OValueAt a i)) (edit n) s 0 (length cells) with
          | None => None
          | Some (s1, r) => Some (s1, rmap MArray r)
          end
      | Some (PVal _ _ (PRecs cells)) =>
          match edit_from (fun s i => step s (ORecordAt a i)) (edit n) s 0 (length cells) with
          | None => None
          | Some (s1, r) => Some (s1, rmap MRecords r)
          end
      | Some (PKey ks _) => Some (s, edit_key ks)
      | Some (PRec _ k v c ts sig) =>
          match edit n s k with
          | None => None
          | Some (s1, Ok k') =>
              match edit n s1 v with
              | None => None
              | Some (s2, Ok v') =>
                  match edit n s2 c with
                  | None => None
                  | Some (s3, Ok c') => Some (s3, Ok (MRecord k' v' c' ts sig))
                  | Some (s3, _) => Some (s3, Panic)
                  end
              | Some (s2, _) => Some (s2, Panic)
              end
          | Some (s1, _) => Some (s1, Panic)
          end
      | None => Some (s, Panic)
      end
  end.
