(** * Opening an SSTable: C72. *)
From Coq Require Import List NArith ZArith Bool Lia.
From Coq Require Import Strings.Byte.
From Verif Require Import Base BaseProofs EndianModel EndianProofs CrcModel CrcProofs KeyModel ValueModel ValueProofs RecordProofs
  ConsensusModel MPHModel MPHCodec MPHParse SSTableModel SSTableProofs.
Import ListNotations.
Local Open Scope N_scope.

(** A file that opens as the table [t]: the header and its checksum, the hash table and the offsets and their checksum, and the records. *)
Definition sstable_file (buf : bytes) (t : sstable) : Prop :=
  exists w rest, let hb := header_bytes (s_header t) in let ib := index_bytes w (s_offsets t) in
    buf = hb ++ be32 (crc32 hb) ++ ib ++ be32 (crc32 ib) ++ rest /\ header_ok (s_header t) /\ index_ok w (s_mph t) (s_offsets t) rest /\
    s_record_start t = N.of_nat (length hb + 4 + length ib + 4) mod 2 ^ 32.

Lemma record_start hb ib x y : Z.to_N (zlen ((hb ++ be32 x) ++ ib ++ be32 y) mod 2 ^ 32) = N.of_nat (length hb + 4 + length ib + 4) mod 2 ^ 32.
Proof.
  unfold zlen. rewrite !app_length, !be32_length. replace (length hb + 4 + (length ib + 4))%nat with (length hb + 4 + length ib + 4)%nat by lia.
  generalize (length hb + 4 + length ib + 4)%nat as k. intros k. rewrite <- nat_N_Z. change (2 ^ 32)%Z with (Z.of_N (2 ^ 32)). rewrite <- N2Z.inj_mod. apply N2Z.id.
Qed.

(** Opening succeeds exactly on these files. *)
Theorem C72_open_exact : forall buf t, load_sstable buf = Ok t <-> sstable_file buf t.
Proof.
  intros buf t. split.
  - unfold load_sstable. destruct (load_header_cases buf) as [E | [(E & _) | (h & rest & Eb & Hh & E)]]; rewrite E; cbn [rbind]; [congruence..|].
    rewrite Eb, app_assoc. destruct (load_index_cases (header_bytes h ++ be32 (crc32 (header_bytes h))) rest) as [E1 | [(E1 & _) | (w & m & offs & r & Er & Hi & E1)]];
      rewrite E1; cbn [rbind]; [congruence..|]. intros Q. assert (t = mkSST h m offs (Z.to_N (zlen ((header_bytes h ++ be32 (crc32 (header_bytes h))) ++ index_bytes w offs ++ be32 (crc32 (index_bytes w offs))) mod 2 ^ 32))) as -> by congruence.
    exists w, r. cbv zeta. cbn [s_header s_offsets s_mph s_record_start]. rewrite Er, <- !app_assoc. split; [reflexivity|]. split; [assumption|]. split; [assumption|].
    rewrite (app_assoc (header_bytes h)). apply record_start.
  - intros (w & rest & -> & Hh & Hi & Rs). unfold load_sstable. rewrite load_header_ok by assumption. cbn [rbind]. rewrite app_assoc.
    rewrite (load_index_ok _ _ _ _ _ Hi). cbn [rbind]. rewrite record_start, <- Rs. now destruct t.
Qed.
Print Assumptions C72_open_exact.

(** Opening panics exactly on the version number alone, and on a valid header followed by a hash table whose parsing panics (C76) or by fewer
    offsets than announced. *)
Theorem C72_panic_exact : forall buf,
  load_sstable buf = Panic <->
  buf = be32 1 \/
  exists h rest, buf = header_bytes h ++ be32 (crc32 (header_bytes h)) ++ rest /\ header_ok h /\ (new_mph_table rest = Panic \/ index_cut rest).
Proof.
  intros buf. split.
  - unfold load_sstable. destruct (load_header_cases buf) as [E | [(E & Eb) | (h & rest & Eb & Hh & E)]]; rewrite E; cbn [rbind]; [congruence|now left|].
    rewrite Eb, app_assoc. destruct (load_index_cases (header_bytes h ++ be32 (crc32 (header_bytes h))) rest) as [E1 | [(E1 & C) | (w & m & offs & r & Er & Hi & E1)]];
      rewrite E1; cbn [rbind]; [congruence| |congruence]. intros _. right. exists h, rest. rewrite <- app_assoc. auto.
  - intros [-> | (h & rest & -> & Hh & C)]; [reflexivity|]. unfold load_sstable. rewrite load_header_ok by assumption. cbn [rbind]. rewrite app_assoc.
    set (pre := header_bytes h ++ be32 (crc32 (header_bytes h))). unfold load_index. rewrite go_from_app. cbn [rbind].
    destruct C as [C | (m & w & n & short & -> & M & B & L)].
    + rewrite C. reflexivity.
    + rewrite M. cbn [rbind]. rewrite <- zlen_app, (app_assoc pre). rewrite sst_u32_ok by (clear - B; lia). cbn [rbind].
      destruct (N.ltb_spec sst_max_records n) as [C|_]; [exfalso; unfold sst_max_records in C; clear - B C; lia|].
      rewrite (pos4 _ n), (app_assoc (pre ++ w)), load_offsets_short by (clear - L; lia). reflexivity.
Qed.
Print Assumptions C72_panic_exact.

(** A file: one ledger identifier, nil domain, table and keys, an empty hash table and [n] announced offsets, of which [offs] follow. *)
Definition sample_header : bytes :=
  be32 1 ++ (x80 :: repeat x07 32) ++ [x00] ++ [x00] ++ (x01 :: be32 5) ++ (x02 :: be32 5 ++ be32 6 ++ be32 7) ++ [x00] ++ [x00] ++ be32 3 ++ be32 2.
Definition sample_index (n : N) (offs : list N) : bytes := (x00 :: be32 0 ++ be32 0 ++ be32 0 ++ be32 0 ++ be32 0 ++ be32 0) ++ be32 n ++ be32s offs.
Definition sample_sstable (n : N) (offs : list N) : bytes :=
  sample_header ++ be32 (crc32 sample_header) ++ sample_index n offs ++ be32 (crc32 (sample_index n offs)) ++ [x99; x98].
Example C72_open_exact_applies : exists t, load_sstable (sample_sstable 2 [17; 40]) = Ok t /\ s_offsets t = [17; 40] /\ h_level (s_header t) = 3 /\
  h_start_time (s_header t) = Ledger 5 /\ h_end_time (s_header t) = Raft 5 6 7 /\ s_record_start t = 112.
Proof. eexists. split; [vm_compute; reflexivity|]. repeat split. Qed.
(** A changed byte is found. *)
Example C72_checksum_applies : load_sstable (firstn 8 (sample_sstable 2 [17; 40]) ++ x08 :: skipn 9 (sample_sstable 2 [17; 40])) = Err.
Proof. vm_compute. reflexivity. Qed.

(** The full statement ("never panics") fails: on a file of four bytes, and on an offset table that is cut short. *)
Theorem C72_refuted : load_sstable [x00; x00; x00; x01] = Panic /\ load_sstable (sample_sstable 3 [17]) = Panic.
Proof. split; vm_compute; reflexivity. Qed.
Print Assumptions C72_refuted.

(** The part about checksums holds: whatever opens stores the checksum of its header behind the header and the checksum of its index behind the
    index; in the other direction, no other version and no wrong checksum opens. *)
Theorem C72_checksums_partial : forall buf t, load_sstable buf = Ok t ->
  exists hb ib rest, buf = hb ++ be32 (crc32 hb) ++ ib ++ be32 (crc32 ib) ++ rest /\ firstn 4 buf = be32 1 /\
    s_record_start t = N.of_nat (length buf - length rest) mod 2 ^ 32 /\ N.of_nat (length (s_offsets t)) <= 2 ^ 20 /\ h_count (s_header t) <= 2 ^ 20.
Proof.
  intros buf t H. apply C72_open_exact in H. destruct H as (w & rest & -> & Hh & Hi & Rs).
  set (hb := header_bytes (s_header t)) in *. set (ib := index_bytes w (s_offsets t)) in *. exists hb, ib, rest. split; [reflexivity|]. split.
  - unfold hb, header_bytes. rewrite <- app_assoc. now apply firstn_app_exact.
  - split; [|split; [apply Hi|apply Hh]]. rewrite Rs. f_equal. f_equal. rewrite !app_length, !be32_length. lia.
Qed.
Print Assumptions C72_checksums_partial.
