(** * Lemmas about opening an SSTable. *)
From Coq Require Import List NArith ZArith Bool Lia.
From Coq Require Import Strings.Byte.
From Verif Require Import Base BaseProofs EndianModel EndianProofs CrcModel CrcProofs KeyModel ValueModel ValueProofs ValueAccess ValueProps RecordProofs
  ConsensusModel ConsensusProofs ConsensusProps MPHModel MPHCodec MPHParse SSTableModel.
Import ListNotations.
Local Open Scope N_scope.

(** ** Vocabulary *)
(** The bytes from which a time is read. *)
Definition time_bytes (t : ctime) : bytes :=
  match t with Ledger e => x01 :: be32 e | Raft t m c => x02 :: be32 t ++ be32 m ++ be32 c end.
Definition time_ok (t : ctime) : Prop :=
  match t with Ledger e => e < 2 ^ 32 | Raft t m c => t < 2 ^ 32 /\ m < 2 ^ 32 /\ c < 2 ^ 32 end.
Definition value_ok (v : mval) : Prop := forall suf, new_std_value (mv_buf v ++ suf) = Ok (v, zlen (mv_buf v)).
Definition id_ok (i : consensus_id) : Prop := forall suf, new_consensus_id (cid_buf i ++ suf) = Ok i.
(** The header of a file, without the checksum. *)
Definition header_bytes (h : sst_header) : bytes :=
  be32 1 ++ cid_buf (h_id h) ++ mv_buf (h_domain h) ++ mv_buf (h_table h) ++ time_bytes (h_start_time h) ++ time_bytes (h_end_time h) ++
  mv_buf (h_start_key h) ++ mv_buf (h_end_key h) ++ be32 (h_level h) ++ be32 (h_count h).
Definition header_ok (h : sst_header) : Prop :=
  id_ok (h_id h) /\ value_ok (h_domain h) /\ value_ok (h_table h) /\ time_ok (h_start_time h) /\ time_ok (h_end_time h) /\
  value_ok (h_start_key h) /\ value_ok (h_end_key h) /\ h_level h < 2 ^ 32 /\ h_count h <= 2 ^ 20.

(** ** Steps *)
Lemma slice_mid (pre mid rest : bytes) : go_slice (pre ++ mid ++ rest) (zlen pre) (zlen pre + zlen mid) = Ok mid.
Proof. apply go_slice_mid; reflexivity. Qed.
Lemma sst_u32_ok pre x rest : x < 2 ^ 32 -> sst_u32 (pre ++ be32 x ++ rest) (zlen pre) = Ok x.
Proof.
  intros B. unfold sst_u32. destruct (Z.ltb_spec (zlen (pre ++ be32 x ++ rest)) (zlen pre + 4)) as [C|_].
  - rewrite !zlen_app, zlen_be32 in C. pose proof (zlen_nonneg rest). lia.
  - replace (zlen pre + 4)%Z with (zlen pre + zlen (be32 x))%Z by now rewrite zlen_be32. rewrite slice_mid. cbn [rbind].
    rewrite <- (app_nil_r (be32 x)). now apply be_read_be32.
Qed.
Lemma sst_u32_cases pre rest :
  (sst_u32 (pre ++ rest) (zlen pre) = Err /\ (length rest < 4)%nat) \/
  exists x rest', rest = be32 x ++ rest' /\ x < 2 ^ 32 /\ sst_u32 (pre ++ rest) (zlen pre) = Ok x.
Proof.
  destruct (Nat.lt_ge_cases (length rest) 4) as [L|L].
  - left. split; [|assumption]. unfold sst_u32. destruct (Z.ltb_spec (zlen (pre ++ rest)) (zlen pre + 4)); [reflexivity|].
    rewrite zlen_app in *. unfold zlen in *. lia.
  - right. destruct (take4 rest L) as (x & rest' & -> & B). exists x, rest'. split; [reflexivity|]. split; [assumption|]. now apply sst_u32_ok.
Qed.
Lemma sst_value_ok pre v rest : value_ok v -> sst_value (pre ++ mv_buf v ++ rest) (zlen pre) = Ok (v, zlen (pre ++ mv_buf v)).
Proof. intros H. unfold sst_value. rewrite go_from_app. cbn [rbind]. rewrite H. cbn [rbind]. now rewrite zlen_app. Qed.
Lemma sst_value_cases pre rest :
  sst_value (pre ++ rest) (zlen pre) = Err \/
  exists v rest', rest = mv_buf v ++ rest' /\ value_ok v /\ sst_value (pre ++ rest) (zlen pre) = Ok (v, zlen (pre ++ mv_buf v)).
Proof.
  destruct (new_std_cases rest) as [E | (v & E & s & Es)].
  - left. unfold sst_value. rewrite go_from_app. cbn [rbind]. now rewrite E.
  - right. exists v, s. split; [assumption|]. assert (value_ok v) as V.
    { intros suf. pose proof (C38_locality rest v _ suf E) as L. rewrite Es in L at 1. rewrite firstn_app_exact in L; [exact L|]. unfold zlen. lia. }
    split; [assumption|]. rewrite Es. now apply sst_value_ok.
Qed.
Lemma time_bytes_length t : zlen (ctime_buf t) = zlen (time_bytes t).
Proof. destruct t; reflexivity. Qed.
Lemma be32_put x : x < 2 ^ 32 -> be32 x = be_put 4 x.
Proof. intros B. unfold be32. now rewrite N.mod_small. Qed.
Lemma time_read t rest : time_ok t -> new_consensus_time (time_bytes t ++ rest) = Ok t.
Proof.
  intros B. assert (forall (b : byte) pre suf k, k = zlen (b :: pre) -> go_from (b :: pre ++ suf) k = Ok suf) as GF by (intros b pre suf k ->; apply (go_from_app (b :: pre))).
  destruct t as [e|t m c]; cbn [time_bytes time_ok app] in *; unfold new_consensus_time.
  - change (b2n x01 =? 1) with true. cbv iota. cbn [length]. rewrite app_length, be32_length.
    change (Nat.ltb (S (4 + length rest)) 5) with false. cbv iota. rewrite (GF x01 [] (be32 e ++ rest) 1%Z eq_refl : go_from (x01 :: be32 e ++ rest) 1 = _).
    cbn [rbind]. now rewrite be_read_be32.
  - destruct B as (B1 & B2 & B3). rewrite <- !app_assoc. change (b2n x02 =? 1) with false. change (b2n x02 =? 2) with true. cbv iota.
    cbn [length]. rewrite !app_length, !be32_length. change (Nat.ltb (S (4 + (4 + (4 + length rest)))) 13) with false. cbv iota.
    rewrite (GF x02 [] (be32 t ++ be32 m ++ be32 c ++ rest) 1%Z eq_refl : go_from (x02 :: be32 t ++ be32 m ++ be32 c ++ rest) 1 = _).
    cbn [rbind]. rewrite be_read_be32 by assumption. cbn [rbind].
    rewrite (GF x02 (be32 t) (be32 m ++ be32 c ++ rest) 5%Z) by (unfold zlen; cbn [length]; now rewrite be32_length).
    cbn [rbind]. rewrite be_read_be32 by assumption. cbn [rbind]. rewrite (app_assoc (be32 t)).
    rewrite (GF x02 (be32 t ++ be32 m) (be32 c ++ rest) 9%Z) by (unfold zlen; cbn [length]; now rewrite app_length, !be32_length).
    cbn [rbind]. now rewrite be_read_be32.
Qed.
Lemma sst_time_ok pre t rest : time_ok t -> sst_time (pre ++ time_bytes t ++ rest) (zlen pre) = Ok (t, zlen (pre ++ time_bytes t)).
Proof. intros B. unfold sst_time. rewrite go_from_app. cbn [rbind]. rewrite time_read by assumption. cbn [rbind]. now rewrite time_bytes_length, zlen_app. Qed.
Lemma sst_time_cases pre rest :
  sst_time (pre ++ rest) (zlen pre) = Err \/
  exists t rest', rest = time_bytes t ++ rest' /\ time_ok t /\ sst_time (pre ++ rest) (zlen pre) = Ok (t, zlen (pre ++ time_bytes t)).
Proof.
  destruct (consensus_time_cases rest) as [(e & s & Eb & B & _) | [(t & m & c & s & Eb & B1 & B2 & B3 & _) | Q]].
  - right. exists (Ledger e), s. assert (rest = time_bytes (Ledger e) ++ s) as -> by (cbn [time_bytes app]; now rewrite be32_put).
    split; [reflexivity|]. split; [exact B|]. apply sst_time_ok. exact B.
  - right. exists (Raft t m c), s. assert (rest = time_bytes (Raft t m c) ++ s) as -> by (cbn [time_bytes app]; rewrite !be32_put, <- !app_assoc by assumption; exact Eb).
    split; [reflexivity|]. split; [repeat split; assumption|]. apply sst_time_ok. repeat split; assumption.
  - left. unfold sst_time. rewrite go_from_app. cbn [rbind]. now rewrite Q.
Qed.
Lemma id_cases rest :
  (rest = [] /\ new_consensus_id rest = Panic) \/ new_consensus_id rest = Err \/
  exists i rest', rest = cid_buf i ++ rest' /\ id_ok i /\ new_consensus_id rest = Ok i.
Proof.
  destruct (new_consensus_id rest) as [i| |] eqn:E.
  - right. right. destruct (C52_parse_copy_partial rest i E) as ((r & Er) & _ & _ & _ & _ & G). exists i, r. auto.
  - now right; left.
  - left. split; [|reflexivity]. now apply C52_panics_exactly_on_empty.
Qed.
Lemma upto_pre (pre rest : bytes) : go_upto (pre ++ rest) (zlen pre) = Ok pre.
Proof. apply go_upto_app. Qed.

(** ** The header *)
Lemma header_assoc h X : header_bytes h ++ X =
  ((((((((be32 1 ++ cid_buf (h_id h)) ++ mv_buf (h_domain h)) ++ mv_buf (h_table h)) ++ time_bytes (h_start_time h)) ++ time_bytes (h_end_time h)) ++
  mv_buf (h_start_key h)) ++ mv_buf (h_end_key h)) ++ be32 (h_level h)) ++ be32 (h_count h) ++ X.
Proof. unfold header_bytes. now rewrite <- !app_assoc. Qed.
Lemma header_flat h : header_bytes h =
  ((((((((be32 1 ++ cid_buf (h_id h)) ++ mv_buf (h_domain h)) ++ mv_buf (h_table h)) ++ time_bytes (h_start_time h)) ++ time_bytes (h_end_time h)) ++
  mv_buf (h_start_key h)) ++ mv_buf (h_end_key h)) ++ be32 (h_level h)) ++ be32 (h_count h).
Proof. unfold header_bytes. now rewrite <- !app_assoc. Qed.
Lemma pos4 (pre : bytes) x : (zlen pre + 4)%Z = zlen (pre ++ be32 x).
Proof. now rewrite zlen_app, zlen_be32. Qed.
Lemma crc32_lt b : crc32 b < 2 ^ 32.
Proof. apply crc32_bound. Qed.

(** The rest of the header, from the position behind a prefix; the same calls as in [load_header]. *)
Lemma load_header_ok h rest : header_ok h ->
  load_header (header_bytes h ++ be32 (crc32 (header_bytes h)) ++ rest) = Ok (h, zlen (header_bytes h ++ be32 (crc32 (header_bytes h)))).
Proof.
  intros (I & V1 & V2 & T1 & T2 & V3 & V4 & B1 & B2).
  assert (h_count h < 2 ^ 32) as B3 by (clear - B2; lia).
  set (X := be32 (crc32 (header_bytes h)) ++ rest).
  unfold load_header.
  assert (header_bytes h ++ X = [] ++ be32 1 ++ (cid_buf (h_id h) ++ mv_buf (h_domain h) ++ mv_buf (h_table h) ++ time_bytes (h_start_time h) ++ time_bytes (h_end_time h) ++
    mv_buf (h_start_key h) ++ mv_buf (h_end_key h) ++ be32 (h_level h) ++ be32 (h_count h) ++ X)) as -> by (unfold header_bytes; now rewrite <- !app_assoc).
  change 0%Z with (zlen (@nil byte)) at 1. rewrite sst_u32_ok by reflexivity. cbn [rbind]. change (negb (1 =? 1)) with false. cbv iota zeta. cbn [app].
  rewrite (go_from_app (be32 1) _ : go_from (be32 1 ++ _) 4 = _). cbn [rbind]. rewrite I. cbn [rbind]. rewrite <- (zlen_app (be32 1) (cid_buf (h_id h)) : _ = (4 + zlen (cid_buf (h_id h)))%Z). rewrite (app_assoc (be32 1)).
  rewrite sst_value_ok by assumption. cbn [rbind]. rewrite (app_assoc _ _ (_ ++ _)).
  rewrite sst_value_ok by assumption. cbn [rbind]. rewrite (app_assoc _ _ (_ ++ _)).
  rewrite sst_time_ok by assumption. cbn [rbind]. rewrite (app_assoc _ _ (_ ++ _)).
  rewrite sst_time_ok by assumption. cbn [rbind]. rewrite (app_assoc _ _ (_ ++ _)).
  rewrite sst_value_ok by assumption. cbn [rbind]. rewrite (app_assoc _ _ (_ ++ _)).
  rewrite sst_value_ok by assumption. cbn [rbind]. rewrite (app_assoc _ _ (_ ++ _)).
  rewrite sst_u32_ok by assumption. cbn [rbind]. rewrite (pos4 _ (h_level h)). rewrite app_assoc.
  rewrite sst_u32_ok by assumption. cbn [rbind].
  destruct (N.ltb_spec sst_max_records (h_count h)) as [C|_]; [exfalso; unfold sst_max_records in C; clear - B2 C; lia|].
  rewrite (pos4 _ (h_count h)). rewrite app_assoc. rewrite <- header_flat. rewrite upto_pre. cbn [rbind].
  unfold X. rewrite sst_u32_ok by apply crc32_lt. cbn [rbind]. rewrite N.eqb_refl. cbn [negb]. rewrite (pos4 _ (crc32 (header_bytes h))).
  now destruct h.
Qed.
Lemma be_put_1 : be32 1 = [x00; x00; x00; x01].
Proof. reflexivity. Qed.
Lemma load_header_cases buf :
  load_header buf = Err \/ (load_header buf = Panic /\ buf = be32 1) \/
  exists h rest, buf = header_bytes h ++ be32 (crc32 (header_bytes h)) ++ rest /\ header_ok h /\
    load_header buf = Ok (h, zlen (header_bytes h ++ be32 (crc32 (header_bytes h)))).
Proof.
  unfold load_header at 1 2.
  destruct (sst_u32_cases [] buf) as [(E & _) | (x & r0 & Eb & Bx & E)]; cbn [app] in E; change (zlen (@nil byte)) with 0%Z in E; rewrite E; cbn [rbind]; [now left|].
  destruct (N.eqb_spec x 1) as [->|Nx]; cbn [negb]; [|now left]. cbv zeta. subst buf. clear E Bx.
  rewrite (go_from_app (be32 1) r0 : go_from (be32 1 ++ r0) 4 = _). cbn [rbind].
  destruct (id_cases r0) as [(-> & E) | [E | (i & r1 & -> & I & E)]]; rewrite E; cbn [rbind]; [right; left; now rewrite app_nil_r|now left|]. clear E.
  rewrite <- (zlen_app (be32 1) (cid_buf i) : _ = (4 + zlen (cid_buf i))%Z). rewrite (app_assoc (be32 1)).
  set (p1 := be32 1 ++ cid_buf i).
  destruct (sst_value_cases p1 r1) as [E | (v1 & r2 & -> & V1 & E)]; rewrite E; cbn [rbind]; [now left|]. clear E. rewrite (app_assoc p1).
  destruct (sst_value_cases (p1 ++ mv_buf v1) r2) as [E | (v2 & r3 & -> & V2 & E)]; rewrite E; cbn [rbind]; [now left|]. clear E. rewrite (app_assoc (p1 ++ mv_buf v1)).
  set (p2 := (p1 ++ mv_buf v1) ++ mv_buf v2).
  destruct (sst_time_cases p2 r3) as [E | (t1 & r4 & -> & T1 & E)]; rewrite E; cbn [rbind]; [now left|]. clear E. rewrite (app_assoc p2).
  destruct (sst_time_cases (p2 ++ time_bytes t1) r4) as [E | (t2 & r5 & -> & T2 & E)]; rewrite E; cbn [rbind]; [now left|]. clear E. rewrite (app_assoc (p2 ++ time_bytes t1)).
  set (p3 := (p2 ++ time_bytes t1) ++ time_bytes t2).
  destruct (sst_value_cases p3 r5) as [E | (v3 & r6 & -> & V3 & E)]; rewrite E; cbn [rbind]; [now left|]. clear E. rewrite (app_assoc p3).
  destruct (sst_value_cases (p3 ++ mv_buf v3) r6) as [E | (v4 & r7 & -> & V4 & E)]; rewrite E; cbn [rbind]; [now left|]. clear E. rewrite (app_assoc (p3 ++ mv_buf v3)).
  set (p4 := (p3 ++ mv_buf v3) ++ mv_buf v4).
  destruct (sst_u32_cases p4 r7) as [(E & _) | (lv & r8 & -> & L & E)]; rewrite E; cbn [rbind]; [now left|]. clear E. rewrite (pos4 p4 lv), (app_assoc p4).
  destruct (sst_u32_cases (p4 ++ be32 lv) r8) as [(E & _) | (ct & r9 & -> & C & E)]; rewrite E; cbn [rbind]; [now left|]. clear E.
  rewrite (pos4 _ ct), (app_assoc (p4 ++ be32 lv)).
  destruct (N.ltb_spec sst_max_records ct) as [C'|C']; [now left|]. rewrite upto_pre. cbn [rbind].
  destruct (sst_u32_cases ((p4 ++ be32 lv) ++ be32 ct) r9) as [(E & _) | (cr & r10 & -> & CR & E)]; rewrite E; cbn [rbind]; [now left|]. clear E.
  destruct (N.eqb_spec (crc32 ((p4 ++ be32 lv) ++ be32 ct)) cr) as [<-|Nc]; cbn [negb]; [|now left]. right. right.
  set (h := mkHeader i v1 v2 t1 t2 v3 v4 lv ct).
  assert ((p4 ++ be32 lv) ++ be32 ct = header_bytes h) as Eh by (rewrite header_flat; reflexivity). rewrite Eh.
  assert (header_ok h) as Hh by (repeat split; assumption).
  exists h, r10. split; [reflexivity|]. split; [assumption|]. now apply load_header_ok.
Qed.

(** ** The index *)
Lemma be_read_exact x : x < 2 ^ 32 -> be_read 4 (be32 x) = Ok x.
Proof. intros B. rewrite <- (app_nil_r (be32 x)). now apply be_read_be32. Qed.
Lemma load_offsets_ok xs : forall pre rest, Forall (fun x => x < 2 ^ 32) xs ->
  load_offsets (length xs) (pre ++ be32s xs ++ rest) (zlen pre) = Ok (xs, zlen (pre ++ be32s xs)).
Proof.
  induction xs as [|x xs IH]; intros pre rest F; [cbn; now rewrite app_nil_r|]. inversion F as [|? ? B F']; subst.
  cbn [length load_offsets]. change (be32s (x :: xs)) with (be32 x ++ be32s xs). rewrite <- (app_assoc (be32 x)).
  rewrite (pos4 pre x) at 1. rewrite (zlen_app pre (be32 x)), slice_mid. cbn [rbind]. rewrite be_read_exact by assumption. cbn [rbind].
  rewrite (pos4 pre x), app_assoc, IH by assumption. cbn [rbind]. now rewrite app_assoc.
Qed.
Lemma slice_beyond (buf : bytes) lo hi : (zlen buf < hi)%Z -> go_slice buf lo hi = Panic.
Proof. intros L. unfold go_slice. destruct (Z.leb_spec hi (zlen buf)); [lia|]. now rewrite !andb_false_r. Qed.
Lemma load_offsets_short n : forall pre rest, (length rest < 4 * n)%nat -> load_offsets n (pre ++ rest) (zlen pre) = Panic.
Proof.
  induction n as [|n IH]; intros pre rest L; [lia|]. cbn [load_offsets]. destruct (Nat.lt_ge_cases (length rest) 4) as [L4|L4].
  - rewrite slice_beyond; [reflexivity|]. rewrite zlen_app. unfold zlen. lia.
  - destruct (take4 rest L4) as (x & r & -> & B). rewrite (pos4 pre x) at 1. rewrite (zlen_app pre (be32 x)), slice_mid. cbn [rbind].
    rewrite be_read_exact by assumption. cbn [rbind]. rewrite (pos4 pre x), app_assoc, IH; [reflexivity|].
    rewrite app_length, be32_length in L. lia.
Qed.
(** The hash table, the number of offsets and the offsets. *)
Definition index_bytes (w : bytes) (offs : list N) : bytes := w ++ be32 (N.of_nat (length offs)) ++ be32s offs.
Definition index_ok (w : bytes) (m : mph) (offs : list N) (rest : bytes) : Prop :=
  new_mph_table (index_bytes w offs ++ be32 (crc32 (index_bytes w offs)) ++ rest) = Ok (m, zlen w) /\
  N.of_nat (length offs) <= 2 ^ 20 /\ Forall (fun x => x < 2 ^ 32) offs.
(** A table followed by a count of offsets larger than what is left. *)
Definition index_cut (rest : bytes) : Prop :=
  exists m w n short, rest = w ++ be32 n ++ short /\ new_mph_table rest = Ok (m, zlen w) /\ n <= 2 ^ 20 /\ N.of_nat (length short) < 4 * n.

Lemma mph_len rest m k : new_mph_table rest = Ok (m, k) -> exists w tail, rest = w ++ tail /\ k = zlen w.
Proof.
  intros E. destruct (new_mph_cases rest) as [Q | [(w & tail & m' & Eb & Q) | (t & n' & r & j & tail & _ & _ & _ & _ & _ & _ & Q)]]; [congruence| |congruence].
  exists w, tail. split; [assumption|congruence].
Qed.
Lemma load_index_ok pre w m offs rest : index_ok w m offs rest ->
  load_index (pre ++ index_bytes w offs ++ be32 (crc32 (index_bytes w offs)) ++ rest) (zlen pre) =
  Ok (m, offs, zlen (pre ++ index_bytes w offs ++ be32 (crc32 (index_bytes w offs)))).
Proof.
  intros (M & L & F). set (X := be32 (crc32 (index_bytes w offs)) ++ rest) in *. unfold load_index. rewrite go_from_app. cbn [rbind]. rewrite M. cbn [rbind].
  rewrite <- zlen_app.
  assert (pre ++ index_bytes w offs ++ X = (pre ++ w) ++ be32 (N.of_nat (length offs)) ++ be32s offs ++ X) as E1 by (unfold index_bytes; now rewrite <- !app_assoc).
  rewrite E1 at 1. rewrite sst_u32_ok by (clear - L; lia). cbn [rbind].
  destruct (N.ltb_spec sst_max_records (N.of_nat (length offs))) as [C|_]; [exfalso; unfold sst_max_records in C; clear - L C; lia|].
  rewrite E1 at 1. rewrite (pos4 _ (N.of_nat (length offs))), app_assoc. rewrite Nat2N.id, load_offsets_ok by assumption. cbn [rbind].
  assert (((pre ++ w) ++ be32 (N.of_nat (length offs))) ++ be32s offs = pre ++ index_bytes w offs) as E2 by (unfold index_bytes; now rewrite <- !app_assoc).
  rewrite E2. rewrite (zlen_app pre (index_bytes w offs)), slice_mid. cbn [rbind]. rewrite <- zlen_app. unfold X at 1. rewrite (app_assoc pre).
  rewrite sst_u32_ok by apply crc32_lt. cbn [rbind]. rewrite N.eqb_refl. cbn [negb]. rewrite (pos4 _ (crc32 (index_bytes w offs))). now rewrite app_assoc.
Qed.
Lemma load_index_cases pre rest :
  load_index (pre ++ rest) (zlen pre) = Err \/
  (load_index (pre ++ rest) (zlen pre) = Panic /\ (new_mph_table rest = Panic \/ index_cut rest)) \/
  exists w m offs rest', rest = index_bytes w offs ++ be32 (crc32 (index_bytes w offs)) ++ rest' /\ index_ok w m offs rest' /\
    load_index (pre ++ rest) (zlen pre) = Ok (m, offs, zlen (pre ++ index_bytes w offs ++ be32 (crc32 (index_bytes w offs)))).
Proof.
  unfold load_index at 1 2. rewrite go_from_app. cbn [rbind]. destruct (new_mph_table rest) as [[m k]| |] eqn:M; cbn [rbind]; [|now left|right; left; auto].
  destruct (mph_len _ _ _ M) as (w & r & -> & ->). rewrite <- zlen_app, (app_assoc pre).
  destruct (sst_u32_cases (pre ++ w) r) as [(E & _) | (n & r1 & -> & B & E)]; rewrite E; cbn [rbind]; [now left|]. clear E.
  destruct (N.ltb_spec sst_max_records n) as [C|C]; [now left|].
  rewrite (pos4 _ n), (app_assoc (pre ++ w)).
  destruct (Nat.lt_ge_cases (length r1) (4 * N.to_nat n)) as [L|L].
  - rewrite load_offsets_short by assumption. cbn [rbind]. right. left. split; [reflexivity|]. right. exists m, w, n, r1. repeat split; auto. clear - L. lia.
  - destruct (take4s (N.to_nat n) r1 L) as (offs & r2 & -> & Lo & F). assert (n = N.of_nat (length offs)) as -> by (clear - Lo; lia).
    rewrite Nat2N.id, load_offsets_ok by assumption. cbn [rbind].
    assert (((pre ++ w) ++ be32 (N.of_nat (length offs))) ++ be32s offs = pre ++ index_bytes w offs) as E2 by (unfold index_bytes; now rewrite <- !app_assoc).
    rewrite (app_assoc ((pre ++ w) ++ _)), E2. rewrite <- (app_assoc pre (index_bytes w offs) r2). rewrite (zlen_app pre (index_bytes w offs)), slice_mid. cbn [rbind]. rewrite <- zlen_app.
    rewrite (app_assoc pre).
    destruct (sst_u32_cases (pre ++ index_bytes w offs) r2) as [(E & _) | (c & r3 & -> & Bc & E)]; rewrite E; cbn [rbind]; [now left|]. clear E.
    destruct (N.eqb_spec (crc32 (index_bytes w offs)) c) as [<-|Nc]; cbn [negb]; [|now left]. right. right.
    exists w, m, offs, r3.
    assert (w ++ be32 (N.of_nat (length offs)) ++ be32s offs ++ be32 (crc32 (index_bytes w offs)) ++ r3 = index_bytes w offs ++ be32 (crc32 (index_bytes w offs)) ++ r3) as E3
      by (unfold index_bytes; now rewrite <- !app_assoc).
    split; [exact E3|]. assert (index_ok w m offs r3) as Hi by (split; [rewrite <- E3; exact M|split; [exact C|exact F]]).
    split; [assumption|]. rewrite <- (app_assoc pre). now apply load_index_ok.
Qed.
