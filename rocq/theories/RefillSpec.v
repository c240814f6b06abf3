(** * Specification vocabulary for decoding again. *)
From Coq Require Import List NArith ZArith Bool.
From Coq Require Import Strings.Byte.
From Verif Require Import Base KeyModel ValueModel KindModel RefillModel.
Import ListNotations.

(** The count at the front of a value's bytes, after the magic byte: one byte or two, most significant first. *)
Definition count_at (code : N) (rest : list byte) : option N :=
  match code, rest with
  | 1%N, x :: _ => Some (Byte.to_N x)
  | 2%N, h :: l :: _ => Some (256 * Byte.to_N h + Byte.to_N l)%N
  | _, _ => None
  end.
(** Does a value's bytes begin as a value array or as a record list, and of how many elements? *)
Inductive heading := AsPrimitive | AsArray (n : N) | AsRecords (n : N).
Definition heading_of (b : list byte) : heading :=
  match b with
  | [] => AsPrimitive
  | m :: rest =>
      let m := Byte.to_N m in
      if (m / 64 =? 0)%N
      then match count_at ((m / 16) mod 4) rest with Some n => AsRecords n | None => AsPrimitive end
      else match count_at (m / 64) rest with Some n => AsArray n | None => AsPrimitive end
  end.

(** The number of elements held as an array and as a record list, and the size, after a look at the heading. *)
Definition counts : Type := option N * option N * N.
Definition look (h : heading) (c : counts) : counts :=
  let '(a, r, s) := c in
  match h with AsPrimitive => (a, r, s) | AsArray n => (Some n, r, n) | AsRecords n => (a, Some n, n) end.
Definition counts_of (o : sval) : counts := (s_arr o, s_recs o, s_size o).

(** The result of Decode among the outcomes of parsing. *)
Definition outcome {A} (r : res (A * Z)) : res Z :=
  match r with Ok (_, n) => Ok n | Err => Err | Panic => Panic end.

(** Refills of the buffer, each followed by Decode. *)
Definition s_after (mems : list bytes) (o : sval) : sval := fold_left (fun o mem => fst (s_decode mem o)) mems o.

(** A record's struct holds what the parsed record [m] shows. *)
Definition keys_of (k : option ikey) : option (list gslice) := option_map ikey_keys k.
Definition r_shows (o : rval) (m : mrec) : Prop :=
  match m with
  | MRec _ k v s t g =>
      keys_of (r_key o) = Some (ikey_keys k) /\ r_value o = Some v /\ r_scheme o = Some s /\ r_ts o = t /\ r_sig o = g
  end.
