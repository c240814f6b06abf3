(** * Model of the variable-length codecs (/repo/src/util/misc_util.go:23-130)
    on top of Go's encoding/binary. *)
From Coq Require Import List NArith ZArith Bool.
From Coq Require Import Strings.Byte.
From Verif Require Import Base EndianModel.
Import ListNotations.
Local Open Scope N_scope.

(** binary.PutUvarint (Go standard library) writing into a buffer with [room] bytes left:
    [for x >= 0x80 { buf[i] = byte(x) | 0x80; x >>= 7; i++ }; buf[i] = byte(x)].
    Writing past the end of the buffer panics. *)
Fixpoint put_uvarint (room : nat) (x : N) : res bytes :=
  match room with
  | O => Panic
  | S room' =>
      if 128 <=? x
      then let? rest := put_uvarint room' (N.shiftr x 7) in
           Ok (n2b (N.lor (x mod 256) 128) :: rest)
      else Ok [n2b x]
  end.

(** binary.Uvarint (Go standard library): value and number of bytes read; 0 if the buffer is too small,
    negative on overflow. [i] is the index of the head of [buf], [x] and [s] the loop variables. *)
Fixpoint uvarint_loop (buf : bytes) (i : nat) (x s : N) : N * Z :=
  match buf with
  | [] => (0, 0%Z)
  | b :: buf' =>
      let v := b2n b in
      if v <? 128
      then if (Nat.ltb 9 i || (Nat.eqb i 9 && (1 <? v)))%bool
           then (0, (- (Z.of_nat i + 1))%Z)
           else (N.lor x (N.shiftl v s mod 2 ^ 64), (Z.of_nat i + 1)%Z)
      else uvarint_loop buf' (S i) (N.lor x (N.shiftl (N.land v 127) s mod 2 ^ 64)) (s + 7)
  end.
Definition uvarint (buf : bytes) : N * Z := uvarint_loop buf 0 0 0.

(** binary.PutVarint: zig-zag, [ux := uint64(x) << 1; if x < 0 { ux = ^ux }]. *)
Definition zigzag (x : Z) : N :=
  let ux := (2 * uint64_of_int64 x) mod 2 ^ 64 in
  if (x <? 0)%Z then 2 ^ 64 - 1 - ux else ux.
(** binary.Varint: [x := int64(ux >> 1); if ux&1 != 0 { x = ^x }]. *)
Definition unzigzag (ux : N) : Z :=
  let x := int64_of_uint64 (N.shiftr ux 1) in
  if N.odd ux then (- x - 1)%Z else x.

(** EncodeUvarint64, misc_util.go:61-73 (the buffer has 10 bytes; the length tests never fire). *)
Definition encode_uvarint64 (data : N) : res bytes := put_uvarint 10 (data mod 2 ^ 64).
(** EncodeVarint64, misc_util.go:27-39 ([data] is an int64). *)
Definition encode_varint64 (data : Z) : res bytes := put_uvarint 10 (zigzag data).

(** DecodeUvarint64, misc_util.go:75-93, returning value and consumed length. The third test adds the decoded
    *value* to the position, in 64-bit arithmetic, as in the source. *)
Definition decode_uvarint64 (buf : bytes) : res (N * Z) :=
  match buf with
  | [] => Ok (0, 0%Z)
  | b0 :: _ =>
      let '(v, n) := uvarint buf in
      if (n <? 0)%Z then Err
      else if (Z.eqb n 0 && negb (N.eqb (b2n b0) 0))%bool then Err
      else if (zlen buf <? wrap_int64 (n + int_of_uint64 v))%Z then Err
      else Ok (v, n)
  end.

(** DecodeVarint64, misc_util.go:41-59. *)
Definition decode_varint64 (buf : bytes) : res (Z * Z) :=
  match buf with
  | [] => Ok (0%Z, 0%Z)
  | b0 :: _ =>
      let '(ux, n) := uvarint buf in
      let v := unzigzag ux in
      if (n <? 0)%Z then Err
      else if (Z.eqb n 0 && negb (N.eqb (b2n b0) 0))%bool then Err
      else if (zlen buf <? wrap_int64 (n + v))%Z then Err
      else Ok (v, n)
  end.

(** EncodeVarchar, misc_util.go:95-110. *)
Definition encode_varchar (data : bytes) : res bytes :=
  let? l := put_uvarint 10 (N.of_nat (length data) mod 2 ^ 64) in
  Ok (l ++ data).

(** DecodeVarchar, misc_util.go:112-130: content and consumed length. The slice expression
    [buf[bufN : bufN+int(bufLength)]] panics when its bounds are not ordered. *)
Definition decode_varchar (buf : bytes) : res (bytes * Z) :=
  match buf with
  | [] => Ok ([], 0%Z)
  | b0 :: _ =>
      let '(v, n) := uvarint buf in
      if (n <? 0)%Z then Err
      else if (Z.eqb n 0 && negb (N.eqb (b2n b0) 0))%bool then Err
      else
        let e := wrap_int64 (n + int_of_uint64 v) in
        if (zlen buf <? e)%Z then Err
        else let? content := go_slice buf n e in
             Ok (content, e)
  end.
