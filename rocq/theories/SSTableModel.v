(** * Model of opening an SSTable (/repo/src/pdb/sstable.go).

    The package does not compile: it names types and functions that do not exist. The model reads util.IData as util.IValue and
    util.NewStandardMappedData as util.NewStandardMappedValue (without its length result); nothing else is changed. The operations on an open
    table (Get, Groups, Keys, Read) all return the error TODO. Opening the file and mapping it into memory are left out: the model starts from the
    mapped bytes, of which length and capacity agree. *)
From Coq Require Import List NArith ZArith Bool.
From Coq Require Import Strings.Byte.
From Verif Require Import Base EndianModel CrcModel KeyModel ValueModel ConsensusModel MPHModel.
Import ListNotations.
Local Open Scope Z_scope.

(** SSTableV1, sstable.go:46-67, without filepath and mmap_data; version is always 1. *)
Record sst_header := mkHeader {
  h_id : consensus_id; h_domain : mval; h_table : mval; h_start_time : ctime; h_end_time : ctime; h_start_key : mval; h_end_key : mval;
  h_level : N; h_count : N }.
Record sstable := mkSST { s_header : sst_header; s_mph : mph; s_offsets : list N; s_record_start : N }.

Definition sst_max_records : N := 1024 * 1024.

(** A length test, then binary.BigEndian.Uint32(mmap_data[pos : pos+4]). *)
Definition sst_u32 (buf : bytes) (pos : Z) : res N :=
  if zlen buf <? pos + 4 then Err else let? b := go_slice buf pos (pos + 4) in be_read 4 b.
(** mmap_data[pos:] parsed as a value; the position behind it. *)
Definition sst_value (buf : bytes) (pos : Z) : res (mval * Z) :=
  let? b := go_from buf pos in let? (v, _) := new_std_value b in Ok (v, pos + zlen (mv_buf v)).
Definition sst_time (buf : bytes) (pos : Z) : res (ctime * Z) :=
  let? b := go_from buf pos in let? t := new_consensus_time b in Ok (t, pos + zlen (ctime_buf t)).

(** LoadSSTableV1, sstable.go:91-183: the header and the position behind its checksum. *)
Definition load_header (buf : bytes) : res (sst_header * Z) :=
  let? version := sst_u32 buf 0 in
  if negb (version =? 1)%N then Err
  else
    let pos := 4 in
    let? b := go_from buf pos in
    let? id := new_consensus_id b in
    let pos := pos + zlen (cid_buf id) in
    let? (domain, pos) := sst_value buf pos in
    let? (table, pos) := sst_value buf pos in
    let? (start_time, pos) := sst_time buf pos in
    let? (end_time, pos) := sst_time buf pos in
    let? (start_key, pos) := sst_value buf pos in
    let? (end_key, pos) := sst_value buf pos in
    let? level := sst_u32 buf pos in
    let pos := pos + 4 in
    let? count := sst_u32 buf pos in
    if (sst_max_records <? count)%N then Err
    else
      let pos := pos + 4 in
      let? covered := go_upto buf pos in
      let? crc := sst_u32 buf pos in
      if negb (crc32 covered =? crc)%N then Err
      else Ok (mkHeader id domain table start_time end_time start_key end_key level count, pos + 4).

(** The loop 213-216, without length tests. *)
Fixpoint load_offsets (n : nat) (buf : bytes) (pos : Z) : res (list N * Z) :=
  match n with
  | O => Ok ([], pos)
  | S n' =>
      let? b := go_slice buf pos (pos + 4) in let? x := be_read 4 b in
      let? (l, pos') := load_offsets n' buf (pos + 4) in Ok (x :: l, pos')
  end.

(** 185-230: hash table and offsets. The test 209-211 sets err but does not return, so it has no effect on what follows: the loop then panics. *)
Definition load_index (buf : bytes) (pos : Z) : res (mph * list N * Z) :=
  let mph_pos := pos in
  let? b := go_from buf pos in
  let? (m, mph_length) := new_mph_table b in
  let pos := pos + mph_length in
  let? size := sst_u32 buf pos in
  if (sst_max_records <? size)%N then Err
  else
    let pos := pos + 4 in
    let? (offsets, pos) := load_offsets (N.to_nat size) buf pos in
    let? covered := go_slice buf mph_pos pos in
    let? crc := sst_u32 buf pos in
    if negb (crc32 covered =? crc)%N then Err else Ok (m, offsets, pos + 4).

(** LoadSSTableV1 on the mapped bytes. *)
Definition load_sstable (buf : bytes) : res sstable :=
  let? (h, pos) := load_header buf in
  let? (m, offsets, pos) := load_index buf pos in
  Ok (mkSST h m offsets (Z.to_N (pos mod 2 ^ 32))).
