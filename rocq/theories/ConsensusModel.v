(** * Model of consensus times and identifiers (/repo/src/util/consensus_util.go). *)
From Coq Require Import List NArith ZArith Bool.
From Coq Require Import Strings.Byte.
From Verif Require Import Base EndianModel.
Import ListNotations.
Local Open Scope N_scope.

(** LedgerTime (67-69) and RaftTime (133-137); the fields are uint32. *)
Inductive ctime :=
| Ledger (epoch : N)
| Raft (term millis count : N).

(** An argument of type IConsensusTime: the nil interface or a time. Nil pointers of type *LedgerTime and *RaftTime are left out. *)
Inductive ctarg := TNil | TArg (t : ctime).

(** NewConsensusTime, consensus_util.go:35-62. *)
Definition new_consensus_time (buf : bytes) : res ctime :=
  match buf with
  | [] => Err
  | m :: _ =>
      if b2n m =? 1
      then if Nat.ltb (length buf) 5 then Err
           else let? b := go_from buf 1 in
                let? e := be_read 4 b in Ok (Ledger e)
      else if b2n m =? 2
      then if Nat.ltb (length buf) 13 then Err
           else let? b1 := go_from buf 1 in let? t := be_read 4 b1 in
                let? b5 := go_from buf 5 in let? mi := be_read 4 b5 in
                let? b9 := go_from buf 9 in let? c := be_read 4 b9 in
                Ok (Raft t mi c)
      else Err
  end.

(** binary.BigEndian.PutUint32(buf[pos:], x) (Go standard library). *)
Definition put32_at (buf : bytes) (pos : nat) (x : N) : bytes :=
  firstn pos buf ++ be_put 4 x ++ skipn (pos + 4) buf.
(** buf[0] = b *)
Definition set0 (buf : bytes) (b : byte) : bytes := b :: skipn 1 buf.

(** LedgerTime.Buf, 75-80, and RaftTime.Buf, 143-150. The first PutUint32 of the latter goes to offset 0, over the magic. *)
Definition ctime_buf (t : ctime) : bytes :=
  match t with
  | Ledger e => put32_at (set0 (repeat x00 5) x01) 1 e
  | Raft t m c =>
      let buf := set0 (repeat x00 13) x02 in
      let buf := put32_at buf 0 t in
      let buf := put32_at buf 4 m in
      put32_at buf 8 c
  end.

(** LedgerTime.GT .. LE, 82-128. *)
Definition ledger_rel (f : N -> N -> bool) (e : N) (a : ctarg) : res bool :=
  match a with TArg (Ledger e') => Ok (f e e') | _ => Err end.
Definition neqb (a b : N) := negb (a =? b).

(** RaftTime.GT 152-173, GE 175-196. *)
Definition raft_gt_chain (last : bool) (t m c t' m' c' : N) : bool :=
  if t' <? t then true else if t <? t' then false else
  if m' <? m then true else if m <? m' then false else
  if c' <? c then true else if c <? c' then false else last.
(** RaftTime.LT 222-243, LE 245-266: the second test of every pair repeats the first. *)
Definition raft_lt_chain (last : bool) (t m c t' m' c' : N) : bool :=
  if t <? t' then true else if t <? t' then false else
  if m <? m' then true else if m <? m' then false else
  if c <? c' then true else if c <? c' then false else last.

Definition raft_rel (f : N -> N -> N -> N -> N -> N -> bool) (t m c : N) (a : ctarg) : res bool :=
  match a with TArg (Raft t' m' c') => Ok (f t m c t' m' c') | _ => Err end.

Definition ct_gt (x : ctime) (a : ctarg) : res bool :=
  match x with Ledger e => ledger_rel (fun e e' => e' <? e) e a | Raft t m c => raft_rel (raft_gt_chain false) t m c a end.
Definition ct_ge (x : ctime) (a : ctarg) : res bool :=
  match x with Ledger e => ledger_rel (fun e e' => e' <=? e) e a | Raft t m c => raft_rel (raft_gt_chain true) t m c a end.
(** RaftTime.EQ 198-208, NE 210-220. *)
Definition ct_eq (x : ctime) (a : ctarg) : res bool :=
  match x with
  | Ledger e => ledger_rel N.eqb e a
  | Raft t m c => raft_rel (fun t m c t' m' c' => (t =? t') && (m =? m') && (c =? c')) t m c a
  end.
Definition ct_ne (x : ctime) (a : ctarg) : res bool :=
  match x with
  | Ledger e => ledger_rel neqb e a
  | Raft t m c => raft_rel (fun t m c t' m' c' => neqb t t' || neqb m m' || neqb c c') t m c a
  end.
Definition ct_lt (x : ctime) (a : ctarg) : res bool :=
  match x with Ledger e => ledger_rel N.ltb e a | Raft t m c => raft_rel (raft_lt_chain false) t m c a end.
Definition ct_le (x : ctime) (a : ctarg) : res bool :=
  match x with Ledger e => ledger_rel N.leb e a | Raft t m c => raft_rel (raft_lt_chain true) t m c a end.

(** MappedConsensusID, consensus_util.go:271-280. *)
Record consensus_id := mkCID {
  cid_magic : byte;
  cid_universe : gslice; cid_cluster : gslice; cid_federation : gslice; cid_service : gslice;
  cid_shard_start : gslice; cid_shard_end : gslice;
  cid_buf : bytes }.

Definition bit (m : byte) (k : N) : bool := negb (N.land (N.shiftr (b2n m) k) 1 =? 0).

(** One of the four blocks 295-327: the field and the next position. *)
Definition id_field (buf : bytes) (present : bool) (pos : Z) : res (gslice * Z) :=
  if present
  then if (zlen buf <? pos + 32)%Z then Err
       else let? f := go_slice buf pos (pos + 32) in Ok (Some f, (pos + 32)%Z)
  else Ok (None, pos).

(** NewMappedConsensusID, consensus_util.go:282-340. The error message of the first test evaluates [buf[0]], which panics on an
    empty or nil buffer. *)
Definition new_consensus_id (buf : bytes) : res consensus_id :=
  match buf with
  | [] => Panic
  | m :: _ =>
      if b2n m =? 0 then Err
      else if negb (N.land (b2n m) 7 =? 0) then Err
      else
        let? (u, pos) := id_field buf (bit m 7) 1 in
        let? (c, pos) := id_field buf (bit m 6) pos in
        let? (f, pos) := id_field buf (bit m 5) pos in
        let? (s, pos) := id_field buf (bit m 4) pos in
        let? (ss, se, pos) :=
          (if bit m 3
           then if (zlen buf <? pos + 64)%Z then Err
                else let? a := go_slice buf pos (pos + 32) in
                     let? b := go_slice buf (pos + 32) (pos + 64) in
                     Ok (Some a, Some b, (pos + 64)%Z)
           else Ok (None, None, pos)) in
        let? b := go_upto buf pos in
        Ok (mkCID m u c f s ss se b)
  end.

(** Copy, consensus_util.go:350-360: an error becomes a panic. *)
Definition copy_consensus_id (c : consensus_id) : res consensus_id :=
  match new_consensus_id (cid_buf c) with Ok c' => Ok c' | _ => Panic end.
(** ConsensusMagic, 342-344. *)
Definition consensus_magic (c : consensus_id) : res byte := go_index (cid_buf c) 0.
