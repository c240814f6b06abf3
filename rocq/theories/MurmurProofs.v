(** * MurmurSeed.Hash computes MurmurHash3. *)
From Coq Require Import List NArith ZArith Bool Lia.
From Coq Require Import Strings.Byte.
From Verif Require Import Base BaseProofs MurmurModel MurmurSpec.
Import ListNotations.
Local Open Scope N_scope.

(** Words that share no bit. *)
Lemma disjoint_lxor a b n : b < 2 ^ n -> N.lxor (a * 2 ^ n) b = a * 2 ^ n + b.
Proof.
  intros Hb. symmetry. apply N.add_nocarry_lxor. apply N.bits_inj. intros i. rewrite N.land_spec, N.bits_0.
  destruct (N.lt_ge_cases i n) as [H|H].
  - rewrite N.mul_pow2_bits_low by exact H. reflexivity.
  - replace (N.testbit b i) with false; [apply andb_false_r|]. symmetry.
    destruct (N.eq_dec b 0) as [->|Hz]; [apply N.bits_0|].
    apply N.bits_above_log2. apply N.log2_lt_pow2; [lia|].
    eapply N.lt_le_trans; [exact Hb|]. apply N.pow_le_mono_r; lia.
Qed.

Lemma disjoint_lor a b n : b < 2 ^ n -> N.lor (a * 2 ^ n) b = a * 2 ^ n + b.
Proof.
  intros Hb. rewrite <- (disjoint_lxor a b n Hb). symmetry. apply N.lxor_lor.
  apply N.bits_inj. intros i. rewrite N.land_spec, N.bits_0.
  destruct (N.lt_ge_cases i n) as [H|H].
  - rewrite N.mul_pow2_bits_low by exact H. reflexivity.
  - replace (N.testbit b i) with false; [apply andb_false_r|]. symmetry.
    destruct (N.eq_dec b 0) as [->|Hz]; [apply N.bits_0|].
    apply N.bits_above_log2. apply N.log2_lt_pow2; [lia|].
    eapply N.lt_le_trans; [exact Hb|]. apply N.pow_le_mono_r; lia.
Qed.

Lemma mul_pow2_mod x r s : (x * 2 ^ r) mod 2 ^ (r + s) = (x mod 2 ^ s) * 2 ^ r.
Proof. rewrite N.pow_add_r, (N.mul_comm (2 ^ r)). apply N.mul_mod_distr_r; apply N.pow_nonzero; discriminate. Qed.

Lemma rol_ok x r s : r + s = 32 -> x < two32 -> N.lor (shl32 x r) (shr32 x s) = rol32 r x.
Proof.
  intros E Hx. unfold shl32, shr32, rol32. rewrite N.shiftl_mul_pow2, N.shiftr_div_pow2.
  replace (32 - r) with s by lia. unfold M. replace two32 with (2 ^ (r + s)) by (rewrite E; reflexivity).
  replace (2 ^ 32) with (2 ^ (r + s)) by (rewrite E; reflexivity).
  rewrite mul_pow2_mod. apply disjoint_lor.
  apply N.div_lt_upper_bound; [apply N.pow_nonzero; discriminate|].
  rewrite <- N.pow_add_r, N.add_comm, E. exact Hx.
Qed.

Lemma mod32 x : x mod two32 < two32.
Proof. apply N.mod_lt. discriminate. Qed.

Lemma scramble_ok k : mm_scramble k = scramble k.
Proof.
  unfold mm_scramble, scramble. rewrite rol_ok; [reflexivity|reflexivity|]. apply mod32.
Qed.

Lemma lxor_bound a b n : a < 2 ^ n -> b < 2 ^ n -> N.lxor a b < 2 ^ n.
Proof.
  intros Ha Hb. destruct (N.eq_dec (N.lxor a b) 0) as [->|Hz]; [apply N.neq_0_lt_0, N.pow_nonzero; discriminate|].
  apply N.log2_lt_pow2; [lia|]. eapply N.le_lt_trans; [apply N.log2_lxor|].
  destruct (N.eq_dec a 0) as [->|Za], (N.eq_dec b 0) as [->|Zb].
  - now rewrite N.lxor_0_l in Hz.
  - rewrite N.max_r by (cbn; lia). apply N.log2_lt_pow2; lia.
  - rewrite N.max_l by (cbn; lia). apply N.log2_lt_pow2; lia.
  - apply N.max_lub_lt; apply N.log2_lt_pow2; lia.
Qed.

Lemma scramble_bound k : scramble k < 2 ^ 32.
Proof. apply mod32. Qed.

Lemma round_ok h k : h < 2 ^ 32 ->
  mm_round h k = (rol32 13 (N.lxor h (scramble k)) * 5 + 0xe6546b64) mod M.
Proof.
  intros Hh. unfold mm_round. rewrite scramble_ok, rol_ok; [|reflexivity|].
  - unfold add32, mul32, mm_m, mm_n, M. change two32 with (2 ^ 32). now rewrite N.add_mod_idemp_l by discriminate.
  - apply lxor_bound; [exact Hh|apply scramble_bound].
Qed.

Lemma le4 b0 b1 b2 b3 : b2n b0 + 2 ^ 8 * b2n b1 + 2 ^ 16 * b2n b2 + 2 ^ 24 * b2n b3 = little_endian [b0; b1; b2; b3].
Proof. cbn [little_endian]. unfold b2n. change (2 ^ 8) with 256. change (2 ^ 16) with 65536. change (2 ^ 24) with 16777216. lia. Qed.

(** Indices into the rest of the string. *)
Lemma index_shift b0 b1 b2 b3 (r : bytes) (n : nat) :
  go_index (b0 :: b1 :: b2 :: b3 :: r) (Z.of_nat (4 + n)) = go_index r (Z.of_nat n).
Proof.
  unfold go_index. destruct (Z.ltb_spec (Z.of_nat (4 + n)) 0); [lia|]. destruct (Z.ltb_spec (Z.of_nat n) 0); [lia|].
  rewrite !Nat2Z.id. reflexivity.
Qed.

Lemma blocks_shift b0 b1 b2 b3 r is h :
  mm_blocks (b0 :: b1 :: b2 :: b3 :: r) (map S is) h = mm_blocks r is h.
Proof.
  revert h. induction is as [|i is IH]; intros h; [reflexivity|]. cbn [map mm_blocks]. unfold mm_word.
  replace (4 * S i)%nat with (4 + 4 * i)%nat by lia.
  rewrite <- !Nat.add_assoc, !index_shift.
  destruct (go_index r (Z.of_nat (4 * i))); cbn [rbind]; try reflexivity.
  destruct (go_index r (Z.of_nat (4 * i + 1))); cbn [rbind]; try reflexivity.
  destruct (go_index r (Z.of_nat (4 * i + 2))); cbn [rbind]; try reflexivity.
  destruct (go_index r (Z.of_nat (4 * i + 3))); cbn [rbind]; try reflexivity. apply IH.
Qed.

Lemma len4 (b0 b1 b2 b3 : byte) r :
  (length (b0 :: b1 :: b2 :: b3 :: r) / 4 = S (length r / 4) /\
   length (b0 :: b1 :: b2 :: b3 :: r) mod 4 = length r mod 4)%nat.
Proof.
  cbn [length]. replace (S (S (S (S (length r))))) with (length r + 1 * 4)%nat by lia.
  rewrite Nat.div_add, Nat.mod_add by discriminate. split; lia.
Qed.

Lemma tail_shift b0 b1 b2 b3 r h : mm_tail (b0 :: b1 :: b2 :: b3 :: r) h = mm_tail r h.
Proof.
  unfold mm_tail. destruct (len4 b0 b1 b2 b3 r) as [_ ->].
  assert (Hm : (length r mod 4 <= length r)%nat) by (apply Nat.mod_le; discriminate).
  set (n := (length r mod 4)%nat) in *. cbn [length].
  replace (S (S (S (S (length r)))) - n)%nat with (4 + (length r - n))%nat by lia.
  set (j := (length r - n)%nat).
  replace (Z.of_nat (4 + j) + 2)%Z with (Z.of_nat (4 + (j + 2))) by lia.
  replace (Z.of_nat (4 + j) + 1)%Z with (Z.of_nat (4 + (j + 1))) by lia.
  replace (Z.of_nat j + 2)%Z with (Z.of_nat (j + 2)) by lia.
  replace (Z.of_nat j + 1)%Z with (Z.of_nat (j + 1)) by lia.
  rewrite !index_shift. reflexivity.
Qed.

Lemma tail1 b0 h : mm_tail [b0] h = Ok (N.lxor h (scramble (little_endian [b0]))).
Proof.
  transitivity (Ok (N.lxor h (mm_scramble (N.lxor 0 (b2n b0))))); [reflexivity|].
  rewrite scramble_ok, N.lxor_0_l. cbn [little_endian]. now rewrite N.mul_0_r, N.add_0_r.
Qed.

Lemma shl8 b : shl32 (b2n b) 8 = b2n b * 2 ^ 8.
Proof.
  unfold shl32. rewrite N.shiftl_mul_pow2. apply N.mod_small. pose proof (b2n_bound b).
  change two32 with 4294967296. change (2 ^ 8) with 256. lia.
Qed.
Lemma shl16 b : shl32 (b2n b) 16 = b2n b * 2 ^ 16.
Proof.
  unfold shl32. rewrite N.shiftl_mul_pow2. apply N.mod_small. pose proof (b2n_bound b).
  change two32 with 4294967296. change (2 ^ 16) with 65536. lia.
Qed.

Lemma tail2 b0 b1 h : mm_tail [b0; b1] h = Ok (N.lxor h (scramble (little_endian [b0; b1]))).
Proof.
  transitivity (Ok (N.lxor h (mm_scramble (N.lxor (N.lxor 0 (shl32 (b2n b1) 8)) (b2n b0))))); [reflexivity|].
  rewrite scramble_ok, N.lxor_0_l, shl8. pose proof (b2n_bound b0).
  rewrite disjoint_lxor by (change (2 ^ 8) with 256; lia).
  repeat f_equal. cbn [little_endian]. unfold b2n. change (2 ^ 8) with 256. lia.
Qed.

Lemma tail3 b0 b1 b2 h : mm_tail [b0; b1; b2] h = Ok (N.lxor h (scramble (little_endian [b0; b1; b2]))).
Proof.
  transitivity (Ok (N.lxor h (mm_scramble (N.lxor (N.lxor (N.lxor 0 (shl32 (b2n b2) 16)) (shl32 (b2n b1) 8)) (b2n b0)))));
    [reflexivity|].
  rewrite scramble_ok, N.lxor_0_l, shl8, shl16. pose proof (b2n_bound b0). pose proof (b2n_bound b1).
  rewrite disjoint_lxor by (change (2 ^ 8) with 256; change (2 ^ 16) with 65536; lia).
  replace (b2n b2 * 2 ^ 16 + b2n b1 * 2 ^ 8) with ((b2n b2 * 2 ^ 8 + b2n b1) * 2 ^ 8)
    by (change (2 ^ 8) with 256; change (2 ^ 16) with 65536; lia).
  rewrite disjoint_lxor by (change (2 ^ 8) with 256; lia).
  repeat f_equal. cbn [little_endian]. unfold b2n. change (2 ^ 8) with 256. lia.
Qed.

Lemma body_ok b : forall h, h < 2 ^ 32 ->
  (let? h1 := mm_blocks b (seq 0 (length b / 4)) h in mm_tail b h1) = Ok (body h b) /\ body h b < 2 ^ 32.
Proof.
  remember (length b) as n eqn:En. revert b En. induction n as [n IH] using lt_wf_ind. intros b En h Hh.
  destruct b as [|b0 [|b1 [|b2 [|b3 r]]]]; subst n.
  - split; [reflexivity|exact Hh].
  - split; [apply tail1|]. apply lxor_bound; [exact Hh|apply scramble_bound].
  - split; [apply tail2|]. apply lxor_bound; [exact Hh|apply scramble_bound].
  - split; [apply tail3|]. apply lxor_bound; [exact Hh|apply scramble_bound].
  - destruct (len4 b0 b1 b2 b3 r) as [-> _]. cbn [seq]. rewrite <- seq_shift. cbn [mm_blocks].
    assert (E : mm_word (b0 :: b1 :: b2 :: b3 :: r) 0 = Ok (little_endian [b0; b1; b2; b3])) by (rewrite <- le4; reflexivity).
    rewrite E. cbn [rbind]. rewrite blocks_shift, round_ok by exact Hh.
    cbn [body]. set (h1 := (rol32 13 (N.lxor h (scramble (little_endian [b0; b1; b2; b3]))) * 5 + 0xe6546b64) mod M).
    assert (H1 : h1 < 2 ^ 32) by apply mod32.
    destruct (IH (length r) ltac:(cbn [length]; lia) r eq_refl h1 H1) as [R1 R2]. split; [|exact R2].
    rewrite <- R1. destruct (mm_blocks r (seq 0 (length r / 4)) h1); cbn [rbind]; try reflexivity. apply tail_shift.
Qed.

Lemma final_ok h l : mm_final h l = avalanche (N.lxor h (l mod M)).
Proof. unfold mm_final, avalanche, shr32, mul32. rewrite !N.shiftr_div_pow2. reflexivity. Qed.

Lemma shift_bound h k : h < 2 ^ 32 -> h / 2 ^ k < 2 ^ 32.
Proof.
  intros H. eapply N.le_lt_trans; [|exact H]. apply N.div_le_upper_bound; [apply N.pow_nonzero; discriminate|].
  assert (2 ^ k <> 0) by (apply N.pow_nonzero; discriminate). generalize dependent (2 ^ k). intros p Hp. nia.
Qed.

Lemma avalanche_bound h : avalanche h < 2 ^ 32.
Proof. unfold avalanche. apply lxor_bound; [apply mod32|]. apply shift_bound, mod32. Qed.

Lemma murmur_ok seed b : seed < 2 ^ 32 -> murmur_hash seed b = Ok (murmur3_32 seed b).
Proof.
  intros Hs. unfold murmur_hash, murmur3_32. destruct (body_ok b seed Hs) as [E _].
  destruct (mm_blocks b (seq 0 (length b / 4)) seed) as [h| |]; cbn [rbind] in *; try discriminate.
  rewrite E. cbn [rbind]. now rewrite final_ok.
Qed.
