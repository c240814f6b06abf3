(** * Model of schemes (/repo/src/util/scheme_util.go). *)
From Coq Require Import List NArith ZArith Bool.
From Coq Require Import Strings.Byte.
From Verif Require Import Base VarintModel KeyModel.
Import ListNotations.
Local Open Scope Z_scope.

(** The three fields shared by Scheme and MappedScheme (scheme_util.go:36-42, 232-240). [None] is a nil slice. *)
Record scheme := mkScheme { s_domain : gslice; s_tablet : gslice; s_buckets : option (list gslice) }.

(** NewScheme, scheme_util.go:242-244. *)
Definition new_scheme : scheme := mkScheme None None None.

(** MAX_SCHEME_LENGTH, const_util.go. *)
Definition max_scheme_length : Z := 1024.
(** The test that follows every append, scheme_util.go:331, 341, 351, 358. *)
Definition scheme_limit (buf : bytes) : res bytes := if max_scheme_length <? zlen buf then Err else Ok buf.

(** The loop scheme_util.go:356-363. *)
Fixpoint encode_buckets (bs : list gslice) (buf : bytes) : res bytes :=
  match bs with
  | [] => Ok buf
  | b :: bs' =>
      let? e := encode_varchar (gcontent b) in
      let? buf' := scheme_limit (buf ++ e) in
      encode_buckets bs' buf'
  end.

(** Scheme.Encode, scheme_util.go:324-370: the bytes stored in [s.buf]. The magic bits are written as [0x00 << 7],
    [0x00 << 6] and [0x00 << 5], so the first byte stays 0. *)
Definition encode_scheme (s : scheme) : res bytes :=
  let buf := [x00] in
  let? buf := match s_domain s with
              | Some d => let? e := encode_varchar d in scheme_limit (buf ++ e)
              | None => Ok buf
              end in
  let? buf := match s_tablet s with
              | Some t => let? e := encode_varchar t in scheme_limit (buf ++ e)
              | None => Ok buf
              end in
  match s_buckets s with
  | Some bs =>
      let? c := encode_uvarint64 (N.of_nat (length bs)) in
      let? buf := scheme_limit (buf ++ c) in
      encode_buckets bs buf
  | None => Ok buf
  end.

(** MappedScheme.Decode, scheme_util.go:154-198, on a fresh NewMappedSchemd (44-46): fields and number of bytes consumed.
    The tests [s.buf[0]|(0x01<<7) != 0], [...<<6], [...<<5] (161, 170, 179) parse as [(s.buf[0]|bit) != 0], which holds for every
    byte; evaluating them on an empty buffer panics. The bucket loop (187-193) is the loop of MappedKey.Decode. *)
Definition decode_scheme (buf : bytes) : res (scheme * Z) :=
  let? b0 := go_index buf 0 in
  let has (bit : N) := negb (N.eqb (N.lor (b2n b0) bit) 0) in
  let? (d, pos) :=
    (if has 128%N
     then let? r := go_from buf 1 in let? (d, l) := decode_varchar r in Ok (Some d, 1 + l)
     else Ok (None, 1)) in
  let? (t, pos) :=
    (if has 64%N
     then let? r := go_from buf pos in let? (t, l) := decode_varchar r in Ok (Some t, pos + l)
     else Ok (None, pos)) in
  let? (bs, pos) :=
    (if has 32%N
     then let? r := go_from buf pos in
          let? (n, l) := decode_uvarint64 r in
          if make_slices_ok n
          then let? (bs, pos') := decode_subkeys (N.to_nat n) buf (pos + l) in Ok (Some bs, pos')
          else Panic
     else Ok (None, pos)) in
  Ok (mkScheme d t bs, pos).

(** MappedScheme.Copy, scheme_util.go:203-221 (the bytes are shared with the original; only the outer slice of the buckets is new).
    Scheme.Copy, 383-401, has the same effect on the fields. *)
Definition copy_scheme (s : scheme) : scheme := mkScheme (s_domain s) (s_tablet s) (s_buckets s).

(** EstBufSize, scheme_util.go:125-140 and 303-318. *)
Definition est_scheme (s : scheme) : Z :=
  1 + match s_domain s with Some d => 1 + zlen d | None => 0 end
    + match s_tablet s with Some t => 1 + zlen t | None => 0 end
    + match s_buckets s with
      | Some bs => 1 + fold_right (fun b n => 1 + zlen (gcontent b) + n) 0 bs
      | None => 0
      end.
