(** * Proofs about the variable-length codecs. *)
From Coq Require Import List NArith ZArith Bool Lia.
From Coq Require Import Strings.Byte.
From Verif Require Import Base BaseProofs EndianModel EndianProofs VarintModel VarintSpec.
Import ListNotations.
Local Open Scope N_scope.

Lemma lor_disjoint a y s : a < 2 ^ s -> N.lor a (y * 2 ^ s) = a + y * 2 ^ s.
Proof.
  intros H. apply N.bits_inj. intros n.
  rewrite N.lor_spec.
  destruct (N.lt_ge_cases n s) as [C|C].
  - rewrite (N.mul_pow2_bits_low y s n) by assumption. rewrite orb_false_r.
    rewrite <- (N.mod_pow2_bits_low (a + y * 2 ^ s) s n) by assumption.
    rewrite N.mod_add by (apply N.pow_nonzero; lia).
    now rewrite N.mod_small.
  - rewrite N.mul_pow2_bits_high by assumption.
    replace (N.testbit a n) with false.
    + rewrite orb_false_l.
      rewrite <- (N.sub_add s n) at 2 by assumption.
      rewrite <- N.div_pow2_bits. rewrite N.div_add by (apply N.pow_nonzero; lia).
      rewrite N.div_small by assumption. now rewrite N.add_0_l.
    + symmetry. rewrite <- (N.mod_small a (2 ^ s)) by assumption.
      now rewrite N.mod_pow2_bits_high.
Qed.

Lemma lor128 b : N.lor (b2n b) 128 = b2n b mod 128 + 128.
Proof. destruct b; reflexivity. Qed.

Lemma lor_128 x : N.lor (x mod 256) 128 = x mod 128 + 128.
Proof.
  rewrite <- b2n_n2b, lor128, b2n_n2b. f_equal.
  change 256 with (128 * 2). rewrite N.mod_mul_r by lia.
  rewrite N.mul_comm, N.mod_add by lia. apply N.mod_mod. lia.
Qed.

Lemma land_127 v : N.land v 127 = v mod 128.
Proof. change 127 with (N.ones 7). rewrite N.land_ones. reflexivity. Qed.

Lemma leb128_nonempty l v : leb128 l v -> (1 <= length l)%nat.
Proof. destruct 1; simpl; lia. Qed.

Lemma leb128_prefix l v : leb128 l v -> forall l' v' s s', leb128 l' v' -> l ++ s = l' ++ s' -> l = l' /\ v = v'.
Proof.
  induction 1 as [b Hb|b l v Hb Hl IH]; intros l' v' s s' H' E; destruct H' as [b' Hb'|b' l' v' Hb' Hl'];
    simpl in E; inv E; try lia.
  - auto.
  - edestruct IH as [-> ->]; eauto.
Qed.

Lemma pow2_split i : 2 ^ (7 * N.of_nat (S i)) = 128 * 2 ^ (7 * N.of_nat i).
Proof. rewrite Nat2N.inj_succ. replace (7 * N.succ (N.of_nat i)) with (7 + 7 * N.of_nat i) by lia.
       rewrite N.pow_add_r. reflexivity. Qed.

Lemma pow2_le_64 i : (i <= 9)%nat -> exists q, 2 ^ 64 = q * 2 ^ (7 * N.of_nat i).
Proof.
  intros H. exists (2 ^ (64 - 7 * N.of_nat i)). rewrite <- N.pow_add_r. f_equal. lia.
Qed.

Lemma pow2_pos k : 0 < 2 ^ k.
Proof. pose proof (N.pow_nonzero 2 k). lia. Qed.

Lemma leb128_fits_more b v i :
  b < 256 -> 128 <= b -> (i <= 8)%nat ->
  (v * 2 ^ (7 * N.of_nat (S i)) < 2 ^ 64 <-> (b - 128 + 128 * v) * 2 ^ (7 * N.of_nat i) < 2 ^ 64).
Proof.
  intros Hb1 Hb2 Hi. destruct (pow2_le_64 (S i)) as [q Hq]; [lia|].
  rewrite Hq. rewrite pow2_split in *. pose proof (pow2_pos (7 * N.of_nat i)) as Hp.
  set (p := 2 ^ (7 * N.of_nat i)) in *. clearbody p. clear Hq Hi. split; intros H.
  - assert (v < q) by nia. nia.
  - assert (128 * v < q * 128) by nia. nia.
Qed.

Lemma uvarint_loop_fwd l v : leb128 l v -> forall i x suf,
  (i + length l <= 10)%nat -> v * 2 ^ (7 * N.of_nat i) < 2 ^ 64 -> x < 2 ^ (7 * N.of_nat i) ->
  uvarint_loop (l ++ suf) i x (7 * N.of_nat i) =
  (x + v * 2 ^ (7 * N.of_nat i), Z.of_nat (i + length l)).
Proof.
  induction 1 as [b Hb|b l v Hb Hl IH]; intros i x suf Hi Hv Hx; fold (b2n b) in *.
  - cbn [app uvarint_loop length] in *.
    destruct (N.ltb_spec (b2n b) 128); [|lia].
    destruct (Nat.ltb 9 i || Nat.eqb i 9 && (1 <? b2n b))%bool eqn:E.
    + exfalso. destruct (Nat.ltb_spec 9 i); [lia|].
      destruct (Nat.eqb_spec i 9) as [->|]; [|simpl in E; discriminate].
      simpl orb in E. cbn [andb] in E. apply N.ltb_lt in E.
      change (2 ^ (7 * N.of_nat 9)) with (2 ^ 63) in Hv. lia.
    + rewrite N.shiftl_mul_pow2, N.mod_small by assumption.
      rewrite lor_disjoint by assumption. f_equal. lia.
  - cbn [app uvarint_loop length] in *.
    destruct (N.ltb_spec (b2n b) 128); [lia|].
    pose proof (leb128_nonempty _ _ Hl). pose proof (b2n_bound b) as Bb.
    pose proof (proj2 (leb128_fits_more (b2n b) v i Bb Hb ltac:(lia)) Hv) as Hv'.
    rewrite land_127.
    replace (b2n b mod 128) with (b2n b - 128).
    2:{ apply N.mod_unique with (q := 1); lia. }
    assert ((b2n b - 128) * 2 ^ (7 * N.of_nat i) < 2 ^ 64) as Hs.
    { eapply N.le_lt_trans; [|exact Hv]. apply N.mul_le_mono_r. lia. }
    rewrite N.shiftl_mul_pow2, N.mod_small by assumption.
    rewrite lor_disjoint by assumption.
    replace (7 * N.of_nat i + 7) with (7 * N.of_nat (S i)) by lia.
    rewrite IH.
    + f_equal; [|lia]. rewrite pow2_split. lia.
    + lia.
    + assumption.
    + rewrite pow2_split. pose proof (pow2_pos (7 * N.of_nat i)) as Hp.
      set (p := 2 ^ (7 * N.of_nat i)) in *. clearbody p. nia.
Qed.

Lemma uvarint_loop_bwd buf : forall i x s v n, uvarint_loop buf i x s = (v, n) -> (n > 0)%Z ->
  exists pre suf w, buf = pre ++ suf /\ leb128 pre w /\ (i + length pre <= 10)%nat /\
                    w * 2 ^ (7 * N.of_nat i) < 2 ^ 64.
Proof.
  induction buf as [|b buf IH]; intros i x s v n H Hn.
  - simpl in H. inv H. lia.
  - cbn [uvarint_loop] in H. destruct (N.ltb_spec (b2n b) 128) as [C|C].
    + destruct (Nat.ltb 9 i || Nat.eqb i 9 && (1 <? b2n b))%bool eqn:E; [inv H; lia|].
      apply orb_false_iff in E. destruct E as [E1 E2]. apply Nat.ltb_ge in E1.
      exists [b], buf, (b2n b). split; [reflexivity|]. split; [now constructor|].
      split; [simpl; lia|].
      destruct (Nat.eqb_spec i 9) as [->|Ne].
      * cbn [andb] in E2. apply N.ltb_ge in E2. change (2 ^ (7 * N.of_nat 9)) with (2 ^ 63). lia.
      * destruct (pow2_le_64 (S i)) as [q Hq]; [lia|]. rewrite Hq, pow2_split.
        pose proof (pow2_pos (7 * N.of_nat i)).
        assert (q <> 0) by (intros ->; vm_compute in Hq; discriminate).
        set (p := 2 ^ (7 * N.of_nat i)) in *. clearbody p. clear Hq. nia.
    + destruct (IH _ _ _ _ _ H Hn) as (pre & suf & w & -> & L & Hl & Hw).
      exists (b :: pre), suf, (b2n b - 128 + 128 * w).
      split; [reflexivity|]. split; [now constructor 2|]. simpl length.
      split; [lia|]. pose proof (leb128_nonempty _ _ L). pose proof (b2n_bound b).
      apply leb128_fits_more; try assumption; lia.
Qed.

(** binary.Uvarint reads exactly the LEB128 numerals that fit. *)
Lemma uvarint_numeral_read l v suf : uvarint_numeral l v -> uvarint (l ++ suf) = (v, zlen l).
Proof.
  intros (L & Hl & Hv). unfold uvarint.
  pose proof (uvarint_loop_fwd l v L 0 0 suf) as F.
  change (7 * N.of_nat 0) with 0 in F. change (2 ^ 0) with 1 in F.
  rewrite N.mul_1_r, N.add_0_l in F. apply F; try lia.
Qed.

Lemma uvarint_positive buf v n : uvarint buf = (v, n) -> (n > 0)%Z ->
  exists pre suf, buf = pre ++ suf /\ uvarint_numeral pre v /\ n = zlen pre.
Proof.
  intros H Hn. destruct (uvarint_loop_bwd _ _ _ _ _ _ H Hn) as (pre & suf & w & E & L & Hl & Hw).
  change (2 ^ (7 * N.of_nat 0)) with 1 in Hw. rewrite N.mul_1_r in Hw.
  assert (uvarint_numeral pre w) as U by (split; [|split]; auto).
  pose proof (uvarint_numeral_read pre w suf U) as R. rewrite <- E, H in R. inv R.
  exists pre, suf. auto.
Qed.

Lemma uvarint_loop_zero buf : forall i x s v, uvarint_loop buf i x s = (v, 0%Z) -> forall b, In b buf -> 128 <= b2n b.
Proof.
  induction buf as [|b buf IH]; intros i x s v H c Hc.
  - destruct Hc.
  - cbn [uvarint_loop] in H. destruct (N.ltb_spec (b2n b) 128) as [C|C].
    + destruct (Nat.ltb 9 i || Nat.eqb i 9 && (1 <? b2n b))%bool; inv H; lia.
    + destruct Hc as [<-|Hc]; [assumption|eauto].
Qed.

Lemma uvarint_zero buf v : uvarint buf = (v, 0%Z) -> forall b, In b buf -> 128 <= b2n b.
Proof. apply uvarint_loop_zero. Qed.

Lemma put_uvarint_spec k x : (1 <= k)%nat -> x < 2 ^ (7 * N.of_nat k - 6) ->
  exists l, put_uvarint k x = Ok l /\ leb128 l x /\ (length l <= k)%nat.
Proof.
  revert x. induction k as [|k IH]; intros x Hk Hx; [lia|].
  cbn [put_uvarint]. destruct (N.leb_spec 128 x) as [C|C].
  - assert (1 <= k)%nat.
    { destruct k; [|lia]. change (2 ^ (7 * N.of_nat 1 - 6)) with 2 in Hx. lia. }
    destruct (IH (N.shiftr x 7)) as (l & E & L & Hl); [lia| |].
    + rewrite N.shiftr_div_pow2. apply N.div_lt_upper_bound; [apply N.pow_nonzero; lia|].
      rewrite <- N.pow_add_r. replace (7 + (7 * N.of_nat k - 6)) with (7 * N.of_nat (S k) - 6) by lia.
      assumption.
    + rewrite E. cbn [rbind]. eexists. split; [reflexivity|]. split; [|simpl; lia].
      rewrite lor_128. pose proof (N.mod_upper_bound x 128 ltac:(lia)).
      assert (b2n (n2b (x mod 128 + 128)) = x mod 128 + 128) as Eb by (apply b2n_n2b_small; lia).
      replace x with ((b2n (n2b (x mod 128 + 128)) - 128) + 128 * N.shiftr x 7) at 2.
      * constructor; [|assumption]. fold (b2n (n2b (x mod 128 + 128))). rewrite Eb. lia.
      * rewrite Eb, N.shiftr_div_pow2. change (2 ^ 7) with 128.
        pose proof (N.div_mod x 128). lia.
  - eexists. split; [reflexivity|]. split; [|simpl; lia].
    assert (b2n (n2b x) = x) as Eb by (apply b2n_n2b_small; lia).
    rewrite <- Eb at 2. constructor. fold (b2n (n2b x)). lia.
Qed.

Lemma put_uvarint_10 x : x < 2 ^ 64 -> exists l, put_uvarint 10 x = Ok l /\ uvarint_numeral l x.
Proof.
  intros H. destruct (put_uvarint_spec 10 x) as (l & E & L & Hl); [lia|exact H|].
  exists l. split; [assumption|]. split; [|split]; auto.
Qed.

Lemma numeral_length l v : uvarint_numeral l v -> (1 <= length l <= 10)%nat.
Proof. intros (L & Hl & _). pose proof (leb128_nonempty _ _ L). lia. Qed.

Lemma numeral_prefix l v l' v' s s' :
  uvarint_numeral l v -> uvarint_numeral l' v' -> l ++ s = l' ++ s' -> l = l' /\ v = v' /\ s = s'.
Proof.
  intros (L & _) (L' & _) E. destruct (leb128_prefix _ _ L _ _ _ _ L' E) as [-> ->].
  split; [|split]; auto. now apply app_inv_head in E.
Qed.

(** Length of the canonical numeral. *)
Lemma put_uvarint_length1 k x l : put_uvarint k x = Ok l -> x < 128 -> length l = 1%nat.
Proof. destruct k; simpl; [discriminate|]. destruct (N.leb_spec 128 x); [lia|]. intros E _. inv E. reflexivity. Qed.

(** The three-way analysis of a non-empty buffer. *)
Inductive header (buf : bytes) : Prop :=
| HdrBad v n (E : uvarint buf = (v, n)) (Hn : (n <= 0)%Z)
| HdrNum pre suf v (Eb : buf = pre ++ suf) (U : uvarint_numeral pre v) (E : uvarint buf = (v, zlen pre)).

Lemma header_cases buf : header buf.
Proof.
  destruct (uvarint buf) as [v n] eqn:E. destruct (Z.le_gt_cases n 0) as [C|C].
  - eapply HdrBad; eauto.
  - destruct (uvarint_positive _ _ _ E ltac:(lia)) as (pre & suf & -> & U & ->).
    eapply HdrNum; eauto.
Qed.

Lemma bad_header_err buf v n :
  buf <> [] -> uvarint buf = (v, n) -> (n <= 0)%Z ->
  decode_varchar buf = Err /\ decode_uvarint64 buf = Err /\ decode_varint64 buf = Err.
Proof.
  intros Hne E Hn. unfold decode_varchar, decode_uvarint64, decode_varint64.
  destruct buf as [|b0 buf]; [congruence|]. rewrite E.
  destruct (Z.ltb_spec n 0); [auto|].
  assert (n = 0%Z) as -> by lia.
  pose proof (uvarint_zero _ _ E b0 (or_introl eq_refl)) as Hb.
  destruct (N.eqb_spec (b2n b0) 0); [lia|]. simpl. auto.
Qed.

Lemma int_of_uint64_cases v : v < 2 ^ 64 ->
  (v < 2 ^ 63 /\ int_of_uint64 v = Z.of_N v) \/ (2 ^ 63 <= v /\ int_of_uint64 v = (Z.of_N v - 2 ^ 64)%Z).
Proof.
  intros H. unfold int_of_uint64. destruct (N.lt_ge_cases v (2 ^ 63)) as [C|C].
  - left. split; [assumption|]. apply wrap_int64_id. lia.
  - right. split; [assumption|].
    rewrite <- (wrap_int64_shift (Z.of_N v) (-1)). rewrite wrap_int64_id; lia.
Qed.

(** The end position computed by the decoders. *)
Lemma end_pos n v : (1 <= n <= 10)%Z -> v < 2 ^ 64 ->
  (n + Z.of_N v < 2 ^ 63 -> wrap_int64 (n + int_of_uint64 v) = n + Z.of_N v)%Z /\
  (2 ^ 63 <= n + Z.of_N v -> wrap_int64 (n + int_of_uint64 v) < n)%Z.
Proof.
  intros Hn Hv. destruct (int_of_uint64_cases v Hv) as [[C ->]|[C ->]]; split; intros H.
  - apply wrap_int64_id. lia.
  - rewrite <- (wrap_int64_shift _ (-1)). rewrite wrap_int64_id; lia.
  - lia.
  - rewrite wrap_int64_id; lia.
Qed.

Lemma decode_varchar_header pre suf v : uvarint_numeral pre v ->
  decode_varchar (pre ++ suf) =
    if (2 ^ 63 <=? zlen pre + Z.of_N v)%Z then Panic
    else if (zlen suf <? Z.of_N v)%Z then Err
    else Ok (firstn (N.to_nat v) suf, (zlen pre + Z.of_N v)%Z).
Proof.
  intros U. pose proof (numeral_length _ _ U) as Hl.
  assert (zlen (pre ++ suf) = (zlen pre + zlen suf)%Z) as Lz by apply zlen_app.
  pose proof (zlen_nonneg suf).
  unfold decode_varchar. rewrite (uvarint_numeral_read _ _ suf U).
  destruct (pre ++ suf) as [|b0 rest] eqn:E.
  { destruct pre; simpl in *; [lia|discriminate]. }
  rewrite <- E in *. clear E.
  assert (1 <= zlen pre <= 10)%Z as Zl by (unfold zlen; lia).
  destruct (Z.ltb_spec (zlen pre) 0); [lia|].
  destruct (Z.eqb_spec (zlen pre) 0); [lia|]. cbn [andb].
  destruct (end_pos (zlen pre) v Zl ltac:(apply U)) as [E1 E2].
  destruct (Z.leb_spec (2 ^ 63) (zlen pre + Z.of_N v)) as [C|C].
  - specialize (E2 C). destruct (Z.ltb_spec (zlen (pre ++ suf)) (wrap_int64 (zlen pre + int_of_uint64 v))); [lia|].
    unfold go_slice.
    destruct ((0 <=? zlen pre) && (zlen pre <=? wrap_int64 (zlen pre + int_of_uint64 v)))%Z eqn:F; [lia|].
    reflexivity.
  - rewrite E1 by assumption. rewrite Lz.
    destruct (Z.ltb_spec (zlen suf) (Z.of_N v)) as [D|D].
    + destruct (Z.ltb_spec (zlen pre + zlen suf) (zlen pre + Z.of_N v)); [reflexivity|lia].
    + destruct (Z.ltb_spec (zlen pre + zlen suf) (zlen pre + Z.of_N v)); [lia|].
      unfold go_slice. rewrite Lz.
      destruct ((0 <=? zlen pre) && (zlen pre <=? zlen pre + Z.of_N v) && (zlen pre + Z.of_N v <=? zlen pre + zlen suf))%Z eqn:F; [|lia].
      cbn [rbind]. rewrite skipn_app_exact by (unfold zlen; lia).
      do 2 f_equal. f_equal. lia.
Qed.

Lemma decode_uvarint64_header pre suf v : uvarint_numeral pre v ->
  decode_uvarint64 (pre ++ suf) =
    if ((zlen pre + Z.of_N v <? 2 ^ 63) && (zlen suf <? Z.of_N v))%Z then Err
    else Ok (v, zlen pre).
Proof.
  intros U. pose proof (numeral_length _ _ U) as Hl.
  assert (zlen (pre ++ suf) = (zlen pre + zlen suf)%Z) as Lz by apply zlen_app.
  pose proof (zlen_nonneg suf).
  unfold decode_uvarint64. rewrite (uvarint_numeral_read _ _ suf U).
  destruct (pre ++ suf) as [|b0 rest] eqn:E.
  { destruct pre; simpl in *; [lia|discriminate]. }
  rewrite <- E in *. clear E.
  assert (1 <= zlen pre <= 10)%Z as Zl by (unfold zlen; lia).
  destruct (Z.ltb_spec (zlen pre) 0); [lia|].
  destruct (Z.eqb_spec (zlen pre) 0); [lia|]. cbn [andb].
  destruct (end_pos (zlen pre) v Zl ltac:(apply U)) as [E1 E2].
  destruct (Z.ltb_spec (zlen pre + Z.of_N v) (2 ^ 63)) as [C|C]; cbn [andb].
  - rewrite E1 by assumption. rewrite Lz.
    destruct (Z.ltb_spec (zlen suf) (Z.of_N v));
    destruct (Z.ltb_spec (zlen pre + zlen suf) (zlen pre + Z.of_N v)); try lia; reflexivity.
  - specialize (E2 C).
    destruct (Z.ltb_spec (zlen (pre ++ suf)) (wrap_int64 (zlen pre + int_of_uint64 v))); [lia|reflexivity].
Qed.

Lemma unzigzag_range v : v < 2 ^ 64 -> (- 2 ^ 63 <= unzigzag v < 2 ^ 63)%Z.
Proof.
  intros H. unfold unzigzag.
  assert (N.shiftr v 1 < 2 ^ 63) as B.
  { rewrite N.shiftr_div_pow2. apply N.div_lt_upper_bound; lia. }
  rewrite int64_uint64_small by assumption. destruct (N.odd v); lia.
Qed.

Lemma zigzag_bound x : (- 2 ^ 63 <= x < 2 ^ 63)%Z -> zigzag x < 2 ^ 64.
Proof.
  intros H. unfold zigzag. pose proof (N.mod_upper_bound (2 * uint64_of_int64 x) (2 ^ 64) ltac:(lia)).
  destruct (x <? 0)%Z; lia.
Qed.

Lemma zigzag_val x : (- 2 ^ 63 <= x < 2 ^ 63)%Z ->
  zigzag x = if (x <? 0)%Z then Z.to_N (- 2 * x - 1) else Z.to_N (2 * x).
Proof.
  intros H. unfold zigzag, uint64_of_int64. destruct (Z.ltb_spec x 0) as [C|C].
  - assert (x mod 2 ^ 64 = x + 2 ^ 64)%Z as E.
    { symmetry. apply Z.mod_unique with (q := (-1)%Z); lia. }
    rewrite E.
    assert ((2 * Z.to_N (x + 2 ^ 64)) mod 2 ^ 64 = Z.to_N (2 * x + 2 ^ 64)) as E2.
    { symmetry. apply N.mod_unique with (q := 1); lia. }
    rewrite E2. lia.
  - rewrite Z.mod_small by lia. rewrite N.mod_small by lia. lia.
Qed.

Lemma unzigzag_zigzag x : (- 2 ^ 63 <= x < 2 ^ 63)%Z -> unzigzag (zigzag x) = x.
Proof.
  intros H. rewrite zigzag_val by assumption. unfold unzigzag.
  destruct (Z.ltb_spec x 0) as [C|C].
  - replace (Z.to_N (-2 * x - 1)) with (2 * Z.to_N (- x - 1) + 1) by lia.
    replace (N.odd (2 * Z.to_N (- x - 1) + 1)) with true
      by (symmetry; rewrite N.add_1_r, N.odd_succ, N.even_mul; reflexivity).
    rewrite N.shiftr_div_pow2. change (2 ^ 1) with 2.
    replace ((2 * Z.to_N (- x - 1) + 1) / 2) with (Z.to_N (- x - 1)).
    + rewrite int64_uint64_small by lia. lia.
    + apply N.div_unique with (r := 1); lia.
  - replace (Z.to_N (2 * x)) with (2 * Z.to_N x) by lia.
    replace (N.odd (2 * Z.to_N x)) with false by (symmetry; rewrite N.odd_mul; reflexivity).
    rewrite N.shiftr_div_pow2. change (2 ^ 1) with 2.
    rewrite N.mul_comm, N.div_mul by lia. rewrite int64_uint64_small by lia. lia.
Qed.

Lemma decode_varint64_header pre suf v : uvarint_numeral pre v ->
  decode_varint64 (pre ++ suf) =
    if ((zlen pre + unzigzag v <? 2 ^ 63) && (zlen suf <? unzigzag v))%Z then Err
    else Ok (unzigzag v, zlen pre).
Proof.
  intros U. pose proof (numeral_length _ _ U) as Hl.
  assert (zlen (pre ++ suf) = (zlen pre + zlen suf)%Z) as Lz by apply zlen_app.
  pose proof (zlen_nonneg suf).
  unfold decode_varint64. rewrite (uvarint_numeral_read _ _ suf U).
  destruct (pre ++ suf) as [|b0 rest] eqn:E.
  { destruct pre; simpl in *; [lia|discriminate]. }
  rewrite <- E in *. clear E.
  assert (1 <= zlen pre <= 10)%Z as Zl by (unfold zlen; lia).
  destruct (Z.ltb_spec (zlen pre) 0); [lia|].
  destruct (Z.eqb_spec (zlen pre) 0); [lia|]. cbn [andb].
  pose proof (unzigzag_range v ltac:(apply U)) as Rv.
  destruct (Z.ltb_spec (zlen pre + unzigzag v) (2 ^ 63)) as [C|C]; cbn [andb].
  - rewrite wrap_int64_id by lia. rewrite Lz.
    destruct (Z.ltb_spec (zlen suf) (unzigzag v));
    destruct (Z.ltb_spec (zlen pre + zlen suf) (zlen pre + unzigzag v)); try lia; reflexivity.
  - rewrite <- (wrap_int64_shift _ (-1)). rewrite wrap_int64_id by lia.
    destruct (Z.ltb_spec (zlen (pre ++ suf)) (zlen pre + unzigzag v + -1 * 2 ^ 64)); [lia|reflexivity].
Qed.

Lemma of_nat_zlen {A} (l : list A) : Z.of_N (N.of_nat (length l)) = zlen l.
Proof. unfold zlen. lia. Qed.

Lemma varchar_layout data : (zlen data + 10 < 2 ^ 63)%Z ->
  exists l, encode_varchar data = Ok (l ++ data) /\ uvarint_numeral l (N.of_nat (length data)).
Proof.
  intros H. unfold zlen in H. unfold encode_varchar. rewrite N.mod_small by lia.
  destruct (put_uvarint_10 (N.of_nat (length data)) ltac:(lia)) as (l & E & U).
  exists l. rewrite E. auto.
Qed.

Lemma varchar_roundtrip data suffix : (zlen data + 10 < 2 ^ 63)%Z ->
  exists buf, encode_varchar data = Ok buf /\ decode_varchar (buf ++ suffix) = Ok (data, zlen buf).
Proof.
  intros H. destruct (varchar_layout data H) as (l & E & U). exists (l ++ data). split; [assumption|].
  pose proof (numeral_length _ _ U) as Hl.
  rewrite <- app_assoc, (decode_varchar_header _ _ _ U), of_nat_zlen.
  rewrite !zlen_app. pose proof (zlen_nonneg suffix).
  destruct (Z.leb_spec (2 ^ 63) (zlen l + zlen data)) as [C|C]; [unfold zlen in *; lia|].
  destruct (Z.ltb_spec (zlen data + zlen suffix) (zlen data)) as [D|D]; [lia|].
  rewrite Nat2N.id, firstn_app, firstn_all, Nat.sub_diag, firstn_O, app_nil_r. reflexivity.
Qed.

Lemma varchar_panic_exact buf :
  decode_varchar buf = Panic <->
  exists pre suf v, buf = pre ++ suf /\ uvarint_numeral pre v /\ (2 ^ 63 <= zlen pre + Z.of_N v)%Z.
Proof.
  split.
  - intros H. destruct buf as [|b buf]; [discriminate|].
    destruct (header_cases (b :: buf)) as [v n E Hn|pre suf v Eb U E].
    + destruct (bad_header_err (b :: buf) v n) as (F & _); [discriminate|assumption..|]. congruence.
    + exists pre, suf, v. rewrite Eb, (decode_varchar_header _ _ _ U) in H. split; [assumption|].
      split; [assumption|]. destruct (Z.leb_spec (2 ^ 63) (zlen pre + Z.of_N v)) as [C|C]; [assumption|].
      destruct (zlen suf <? Z.of_N v)%Z; discriminate.
  - intros (pre & suf & v & -> & U & C). rewrite (decode_varchar_header _ _ _ U).
    destruct (Z.leb_spec (2 ^ 63) (zlen pre + Z.of_N v)); [reflexivity|lia].
Qed.

Lemma leb128_bound l v : leb128 l v -> v < 2 ^ (7 * N.of_nat (length l)).
Proof.
  induction 1 as [b Hb|b l v Hb Hl IH].
  - exact Hb.
  - simpl length. rewrite pow2_split. pose proof (b2n_bound b) as B. unfold b2n in B.
    set (p := 2 ^ (7 * N.of_nat (length l))) in *. clearbody p. nia.
Qed.

Lemma leb128_inner l v : leb128 l v -> forall i b suf, nth_error (l ++ suf) i = Some b -> b2n b < 128 ->
  (length l <= S i)%nat.
Proof.
  induction 1 as [b Hb|b l v Hb Hl IH]; intros i c suf E Hc.
  - simpl. lia.
  - destruct i as [|i]; simpl in E.
    + inv E. unfold b2n in Hc. lia.
    + simpl. specialize (IH _ _ _ E Hc). lia.
Qed.

Lemma varchar_no_panic_short buf :
  (length buf < 9)%nat \/ (exists i b, (i < 8)%nat /\ nth_error buf i = Some b /\ b2n b < 128) ->
  decode_varchar buf <> Panic.
Proof.
  intros H P. apply varchar_panic_exact in P. destruct P as (pre & suf & v & -> & (L & Hl & Hv) & C).
  assert (length pre <= 8)%nat as Hp.
  { destruct H as [H|(i & b & Hi & E & Hb)].
    - rewrite app_length in H. lia.
    - pose proof (leb128_inner _ _ L _ _ _ E Hb). lia. }
  pose proof (leb128_bound _ _ L) as B.
  assert (2 ^ (7 * N.of_nat (length pre)) <= 2 ^ 56) by (apply N.pow_le_mono_r; lia).
  unfold zlen in C. lia.
Qed.

Lemma varchar_inside buf content n :
  decode_varchar buf = Ok (content, n) ->
  (buf = [] /\ content = [] /\ n = 0%Z) \/
  exists pre rest, buf = pre ++ content ++ rest /\ uvarint_numeral pre (N.of_nat (length content)) /\
                   n = zlen (pre ++ content).
Proof.
  intros H. destruct buf as [|b buf]; [left; inv H; auto|]. right.
  destruct (header_cases (b :: buf)) as [v m E Hn|pre suf v Eb U E].
  - destruct (bad_header_err (b :: buf) v m) as (F & _); [discriminate|assumption..|]. congruence.
  - rewrite Eb, (decode_varchar_header _ _ _ U) in H. rewrite Eb. clear Eb E.
    destruct (Z.leb_spec (2 ^ 63) (zlen pre + Z.of_N v)) as [C|C]; [discriminate|].
    destruct (Z.ltb_spec (zlen suf) (Z.of_N v)) as [D|D]; [discriminate|].
    inv H. exists pre, (skipn (N.to_nat v) suf). rewrite firstn_skipn.
    assert (length (firstn (N.to_nat v) suf) = N.to_nat v) as L by (rewrite firstn_length; unfold zlen in D; lia).
    split; [reflexivity|]. split.
    + rewrite L, N2Nat.id. assumption.
    + rewrite zlen_app. unfold zlen. rewrite L. lia.
Qed.

Lemma varchar_extension buf more content n :
  buf <> [] -> decode_varchar buf = Ok (content, n) -> decode_varchar (buf ++ more) = Ok (content, n).
Proof.
  intros Hne H. 
  destruct (header_cases buf) as [v m E Hn|pre suf v Eb U E].
  - destruct (bad_header_err buf v m) as (F & _); [assumption..|]. congruence.
  - subst buf. rewrite (decode_varchar_header _ _ _ U) in H.
    rewrite <- app_assoc, (decode_varchar_header _ _ _ U), zlen_app.
    pose proof (zlen_nonneg more).
    destruct (Z.leb_spec (2 ^ 63) (zlen pre + Z.of_N v)) as [C|C]; [discriminate|].
    destruct (Z.ltb_spec (zlen suf) (Z.of_N v)) as [D|D]; [discriminate|].
    destruct (Z.ltb_spec (zlen suf + zlen more) (Z.of_N v)); [lia|].
    rewrite <- H. do 2 f_equal. rewrite firstn_app.
    replace (N.to_nat v - length suf)%nat with 0%nat by (unfold zlen in D; lia).
    now rewrite firstn_O, app_nil_r.
Qed.

Lemma varchar_prefix_free d1 d2 e1 e2 more :
  (zlen d1 + 10 < 2 ^ 63)%Z -> (zlen d2 + 10 < 2 ^ 63)%Z ->
  encode_varchar d1 = Ok e1 -> encode_varchar d2 = Ok e2 -> e2 = e1 ++ more -> d1 = d2 /\ more = [].
Proof.
  intros H1 H2 E1 E2 ->.
  destruct (varchar_layout d1 H1) as (l1 & F1 & U1). destruct (varchar_layout d2 H2) as (l2 & F2 & U2).
  rewrite E1 in F1. rewrite E2 in F2. injection F1 as ->. injection F2 as E.
  rewrite <- app_assoc in E. destruct (numeral_prefix _ _ _ _ _ _ U1 U2 E) as (_ & L & E').
  apply Nat2N.inj in L. assert (length more = 0)%nat as M.
  { apply (f_equal (@length _)) in E'. rewrite app_length in E'. lia. }
  destruct more; [|discriminate]. rewrite app_nil_r in E'. auto.
Qed.

(** ** Minimal numerals *)
Lemma put_uvarint_lower k : forall x l, put_uvarint k x = Ok l -> (length l = 1)%nat \/ 2 ^ (7 * N.of_nat (length l - 1)) <= x.
Proof.
  induction k as [|k IH]; intros x l H; [discriminate|].
  cbn [put_uvarint] in H. destruct (N.leb_spec 128 x) as [C|C].
  - destruct (put_uvarint k (N.shiftr x 7)) as [r| |] eqn:E; cbn [rbind] in H; try discriminate.
    inv H. right. simpl length. replace (S (length r) - 1)%nat with (length r) by lia. destruct (IH _ _ E) as [L|L].
    + rewrite L. exact C.
    + assert (length r <> 0)%nat as Hr.
      { destruct r; [|discriminate]. destruct k; [discriminate|]. cbn [put_uvarint] in E.
        destruct (128 <=? N.shiftr x 7); [|discriminate]. destruct (put_uvarint k _); discriminate. }
      replace (length r) with (S (length r - 1)) by lia. rewrite pow2_split.
      rewrite N.shiftr_div_pow2 in L. change (2 ^ 7) with 128 in L.
      pose proof (N.mul_div_le x 128 ltac:(lia)). lia.
  - inv H. now left.
Qed.

Lemma put_uvarint_minimal k x l : put_uvarint k x = Ok l -> leb128 l x -> uvarint_minimal l x.
Proof.
  intros E L. split; [assumption|]. intros l' L'. pose proof (leb128_nonempty _ _ L').
  destruct (put_uvarint_lower _ _ _ E) as [->|B]; [assumption|].
  pose proof (leb128_bound _ _ L') as U.
  assert (7 * N.of_nat (length l - 1) < 7 * N.of_nat (length l')) as C; [|lia].
  apply (N.pow_lt_mono_r_iff 2); lia.
Qed.

Lemma leb128_inj l v : leb128 l v -> forall l', leb128 l' v -> length l = length l' -> l = l'.
Proof.
  induction 1 as [b Hb|b l v Hb Hl IH]; intros l' L' E.
  - remember (Byte.to_N b) as w eqn:Ew. destruct L' as [b' Hb'|b' l' v' Hb' Hl']; simpl in E.
    + f_equal. symmetry. now apply b2n_inj.
    + pose proof (leb128_nonempty _ _ Hl'). lia.
  - remember (Byte.to_N b - 128 + 128 * v) as w eqn:Ew.
    destruct L' as [b' Hb'|b' l' v' Hb' Hl']; simpl in E.
    + pose proof (leb128_nonempty _ _ Hl). lia.
    + pose proof (b2n_bound b) as B. pose proof (b2n_bound b') as B'. unfold b2n in *.
      assert (v' = v /\ Byte.to_N b' = Byte.to_N b) as [-> Eb] by lia.
      rewrite (b2n_inj b b') by (unfold b2n; congruence). f_equal. apply IH; [assumption|lia].
Qed.

Lemma uvarint_minimal_fun l l' v : uvarint_minimal l v -> uvarint_minimal l' v -> l = l'.
Proof.
  intros [L M] [L' M']. eapply leb128_inj; eauto. specialize (M _ L'). specialize (M' _ L). lia.
Qed.

Lemma put_uvarint_10_min x : x < 2 ^ 64 -> exists l, put_uvarint 10 x = Ok l /\ uvarint_numeral l x /\ uvarint_minimal l x.
Proof.
  intros H. destruct (put_uvarint_10 x H) as (l & E & U). exists l. split; [assumption|]. split; [assumption|].
  eapply put_uvarint_minimal; [exact E|apply U].
Qed.

Lemma minimal_numeral l v : uvarint_minimal l v -> v < 2 ^ 64 -> uvarint_numeral l v.
Proof.
  intros M H. destruct (put_uvarint_10_min v H) as (l' & _ & U & M').
  rewrite (uvarint_minimal_fun _ _ _ M M'). assumption.
Qed.

Lemma encode_uvarint64_minimal x : x < 2 ^ 64 -> exists l, encode_uvarint64 x = Ok l /\ uvarint_minimal l x.
Proof.
  intros H. unfold encode_uvarint64. rewrite N.mod_small by assumption.
  destruct (put_uvarint_10_min x H) as (l & E & _ & M). eauto.
Qed.

Lemma encode_varchar_of data : (zlen data + 10 < 2 ^ 63)%Z -> exists l, encode_varchar data = Ok l /\ varchar_of data l.
Proof.
  intros H. unfold zlen in H. unfold encode_varchar. rewrite N.mod_small by lia.
  destruct (put_uvarint_10_min (N.of_nat (length data)) ltac:(lia)) as (l & E & _ & M).
  rewrite E. eexists. split; [reflexivity|]. exists l. auto.
Qed.

Lemma varchar_of_fun d l l' : varchar_of d l -> varchar_of d l' -> l = l'.
Proof. intros (n & M & ->) (n' & M' & ->). f_equal. eapply uvarint_minimal_fun; eauto. Qed.

Lemma varchar_of_nonempty d l : varchar_of d l -> (1 <= length l)%nat.
Proof. intros (n & [L _] & ->). rewrite app_length. pose proof (leb128_nonempty _ _ L). lia. Qed.

Lemma varchar_of_decode d l suf : (zlen d + 10 < 2 ^ 63)%Z -> varchar_of d l ->
  decode_varchar (l ++ suf) = Ok (d, zlen l).
Proof.
  intros H V. destruct (varchar_roundtrip d suf H) as (l' & E & D).
  destruct (encode_varchar_of d H) as (l2 & E2 & V2). rewrite E in E2. injection E2 as <-.
  now rewrite (varchar_of_fun _ _ _ V V2).
Qed.

(** A proper, non-empty prefix of a length-prefixed string is rejected. *)
Lemma varchar_of_truncated d l p x q : (zlen d + 10 < 2 ^ 63)%Z -> varchar_of d l -> l = p ++ x :: q -> p <> [] ->
  decode_varchar p = Err.
Proof.
  intros Hd (n & M & ->) E Hp. unfold zlen in Hd.
  pose proof (minimal_numeral _ _ M ltac:(lia)) as U.
  destruct (header_cases p) as [v m Ev Hm|pre suf v Eb U' Ev].
  - edestruct bad_header_err as (R & _); eauto.
  - rewrite Eb in *. rewrite <- app_assoc in E.
    destruct (numeral_prefix _ _ _ _ _ _ U U' E) as (-> & <- & ->).
    rewrite (decode_varchar_header _ _ _ U').
    pose proof (numeral_length _ _ U'). rewrite app_length in Hd. simpl in Hd.
    assert (Z.of_N (N.of_nat (length (suf ++ x :: q))) = zlen suf + 1 + zlen q)%Z as L.
    { rewrite app_length. simpl. unfold zlen. lia. }
    rewrite L. unfold zlen in *.
    destruct (Z.leb_spec (2 ^ 63) (Z.of_nat (length pre) + (Z.of_nat (length suf) + 1 + Z.of_nat (length q)))) as [C|C]; [lia|].
    destruct (Z.ltb_spec (Z.of_nat (length suf)) (Z.of_nat (length suf) + 1 + Z.of_nat (length q))) as [D|D]; [reflexivity|lia].
Qed.
