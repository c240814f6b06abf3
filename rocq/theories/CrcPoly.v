(** * CRC-32 is the remainder of a polynomial division. *)
From Coq Require Import List NArith ZArith Bool Lia Arith.
From Coq Require Import Strings.Byte.
From Verif Require Import Base BaseProofs CrcModel CrcProofs CrcSpec.
Import ListNotations.
Local Open Scope N_scope.

Lemma double_lxor a b : 2 * N.lxor a b = N.lxor (2 * a) (2 * b).
Proof.
  apply N.bits_inj. intros i. rewrite N.lxor_spec. destruct (N.eq_dec i 0) as [->|H].
  - rewrite !N.testbit_even_0. reflexivity.
  - replace i with (N.succ (N.pred i)) by lia. rewrite !N.testbit_even_succ by lia. apply N.lxor_spec.
Qed.
Lemma pmul_double a b : pmul (2 * a) b = 2 * pmul a b.
Proof. destruct a; reflexivity. Qed.
Lemma pmul_succ_double a b : pmul (2 * a + 1) b = N.lxor b (2 * pmul a b).
Proof. destruct a; [simpl; now rewrite N.lxor_0_r|reflexivity]. Qed.
Lemma bin_cases a : a = 2 * N.div2 a \/ a = 2 * N.div2 a + 1.
Proof. destruct a as [|[p|p|]]; cbn; lia. Qed.
Ltac xor_bits := apply N.bits_inj; let i := fresh "i" in intros i; rewrite ?N.lxor_spec;
  repeat match goal with |- context [N.testbit ?x i] => destruct (N.testbit x i) end; reflexivity.
Lemma lxor4 a b c d : N.lxor (N.lxor a b) (N.lxor c d) = N.lxor (N.lxor a c) (N.lxor b d).
Proof. apply N.bits_inj. intros i. rewrite !N.lxor_spec. destruct (N.testbit a i), (N.testbit b i), (N.testbit c i), (N.testbit d i); reflexivity. Qed.
Lemma lxor_even_odd a b : N.lxor (2 * a) (2 * b + 1) = 2 * N.lxor a b + 1.
Proof.
  apply N.bits_inj. intros i. rewrite N.lxor_spec. destruct (N.eq_dec i 0) as [->|H].
  - rewrite !N.testbit_odd_0, N.testbit_even_0. reflexivity.
  - replace i with (N.succ (N.pred i)) by lia. rewrite !N.testbit_odd_succ, N.testbit_even_succ by lia. symmetry. apply N.lxor_spec.
Qed.
Lemma lxor_odd_odd a b : N.lxor (2 * a + 1) (2 * b + 1) = 2 * N.lxor a b.
Proof.
  apply N.bits_inj. intros i. rewrite N.lxor_spec. destruct (N.eq_dec i 0) as [->|H].
  - rewrite !N.testbit_odd_0, N.testbit_even_0. reflexivity.
  - replace i with (N.succ (N.pred i)) by lia. rewrite !N.testbit_odd_succ, N.testbit_even_succ by lia. symmetry. apply N.lxor_spec.
Qed.

Lemma pmul_lxor g : forall n p q, (N.to_nat (N.size p) <= n)%nat -> pmul (N.lxor p q) g = N.lxor (pmul p g) (pmul q g).
Proof.
  induction n as [|n IH]; intros p q L.
  - assert (p = 0) as ->; [|now rewrite !N.lxor_0_l]. destruct p as [|p]; [reflexivity|]. destruct p; cbn in L; lia.
  - assert (S : (N.to_nat (N.size (N.div2 p)) <= n)%nat).
    { destruct p as [|[p|p|]]; cbn in *; try lia; rewrite Pos2Nat.inj_succ in L; lia. }
    destruct (bin_cases p) as [E|E], (bin_cases q) as [E'|E']; rewrite E, E'.
    + rewrite <- double_lxor, !pmul_double, IH by exact S. apply double_lxor.
    + rewrite lxor_even_odd, pmul_succ_double, pmul_double, pmul_succ_double, IH, double_lxor by exact S. xor_bits.
    + rewrite N.lxor_comm, lxor_even_odd, pmul_succ_double, pmul_double, pmul_succ_double, N.lxor_comm.
      rewrite (N.lxor_comm (N.div2 q)), IH, double_lxor by exact S.
      xor_bits.
    + rewrite lxor_odd_odd, pmul_double, !pmul_succ_double, IH, double_lxor by exact S. rewrite lxor4, N.lxor_nilpotent, N.lxor_0_l. reflexivity.
Qed.

(** Congruence is kept by sums and by multiplication with x. *)
Lemma congruent_refl g a : congruent g a a.
Proof. exists 0. apply N.lxor_nilpotent. Qed.
Lemma congruent_trans g a b c : congruent g a b -> congruent g b c -> congruent g a c.
Proof.
  intros (p & P) (q & Q). exists (N.lxor p q). rewrite (pmul_lxor g _ p q (le_n _)), <- P, <- Q.
  xor_bits.
Qed.
Lemma congruent_lxor g a b c : congruent g a b -> congruent g (N.lxor a c) (N.lxor b c).
Proof. intros (q & Q). exists q. rewrite lxor4, N.lxor_nilpotent, N.lxor_0_r. exact Q. Qed.
Lemma congruent_double g a b : congruent g a b -> congruent g (2 * a) (2 * b).
Proof. intros (q & Q). exists (2 * q). rewrite <- double_lxor, Q. now rewrite pmul_double. Qed.

(** Reflection. *)
Lemma reflect_bits k : forall s i, N.testbit (reflect k s) i = (i <? N.of_nat k) && N.testbit s (N.of_nat k - 1 - i).
Proof.
  induction k as [|k IH]; intros s i.
  - cbn [reflect]. rewrite N.bits_0. replace (i <? N.of_nat 0) with false; [reflexivity|]. symmetry. apply N.ltb_ge. lia.
  - cbn [reflect]. rewrite N.lxor_spec, IH.
    assert (B : N.testbit (N.b2n (N.odd s) * 2 ^ N.of_nat k) i = (i =? N.of_nat k) && N.odd s).
    { destruct (N.odd s); cbn [N.b2n]; [rewrite N.mul_1_l, N.pow2_bits_eqb, N.eqb_sym, andb_true_r; reflexivity|].
      rewrite N.mul_0_l, N.bits_0, andb_false_r. reflexivity. }
    rewrite B. clear B. rewrite N.div2_spec. destruct (N.eqb_spec i (N.of_nat k)) as [->|H].
    + rewrite N.ltb_irrefl. replace (N.of_nat k <? N.of_nat (S k)) with true by (symmetry; apply N.ltb_lt; lia).
      replace (N.of_nat (S k) - 1 - N.of_nat k) with 0 by lia. rewrite N.bit0_odd. cbn. apply xorb_false_r.
    + cbn [andb]. rewrite xorb_false_l. destruct (N.ltb_spec i (N.of_nat k)) as [L|L].
      * replace (i <? N.of_nat (S k)) with true by (symmetry; apply N.ltb_lt; lia). cbn [andb]. rewrite N.shiftr_spec'. f_equal. lia.
      * replace (i <? N.of_nat (S k)) with false by (symmetry; apply N.ltb_ge; lia). reflexivity.
Qed.
Lemma reflect_lxor k a b : reflect k (N.lxor a b) = N.lxor (reflect k a) (reflect k b).
Proof. apply N.bits_inj. intros i. rewrite N.lxor_spec, !reflect_bits, N.lxor_spec. destruct (i <? N.of_nat k); reflexivity. Qed.
Lemma reflect_bound k s : reflect k s < 2 ^ N.of_nat k.
Proof.
  destruct (N.eq_dec (reflect k s) 0) as [->|H]; [apply N.neq_0_lt_0, N.pow_nonzero; discriminate|].
  apply N.log2_lt_pow2; [lia|]. destruct (N.lt_ge_cases (N.log2 (reflect k s)) (N.of_nat k)) as [L|L]; [exact L|exfalso].
  pose proof (N.bit_log2 _ H) as B. rewrite reflect_bits in B. apply N.ltb_ge in L. rewrite L in B. discriminate.
Qed.
Lemma bits_above s k i : s < 2 ^ k -> k <= i -> N.testbit s i = false.
Proof.
  intros H L. destruct (N.eq_dec s 0) as [->|Hn]; [apply N.bits_0|]. apply N.bits_above_log2. apply N.log2_lt_pow2 in H; lia.
Qed.
Lemma reflect_involutive k s : s < 2 ^ N.of_nat k -> reflect k (reflect k s) = s.
Proof.
  intros H. apply N.bits_inj. intros i. rewrite !reflect_bits. destruct (N.ltb_spec i (N.of_nat k)) as [L|L].
  - cbn [andb]. replace (N.of_nat k - 1 - i <? N.of_nat k) with true by (symmetry; apply N.ltb_lt; lia). cbn [andb]. f_equal. lia.
  - cbn [andb]. symmetry. now apply (bits_above s (N.of_nat k)).
Qed.

(** One step of the register: x times the polynomial, up to a multiple of the generator. *)
Lemma bit_step s : s < 2 ^ 32 -> congruent g32 (2 * reflect 32 s) (reflect 32 (crc_bit s)).
Proof.
  intros H.
  assert (D : 2 * reflect 32 s = N.lxor (N.b2n (N.odd s) * 2 ^ 32) (reflect 32 (N.div2 s))).
  { apply N.bits_inj. intros i. rewrite N.lxor_spec, reflect_bits, N.div2_spec, N.shiftr_spec'. change (N.of_nat 32) with 32.
    assert (B : N.testbit (N.b2n (N.odd s) * 2 ^ 32) i = (i =? 32) && N.odd s).
    { destruct (N.odd s); cbn [N.b2n]; [rewrite N.mul_1_l, N.pow2_bits_eqb, N.eqb_sym, andb_true_r; reflexivity|].
      rewrite N.mul_0_l, N.bits_0, andb_false_r. reflexivity. }
    rewrite B. clear B. destruct (N.eq_dec i 0) as [->|Hi].
    - rewrite N.testbit_even_0. cbn [N.ltb N.compare andb N.eqb]. rewrite xorb_false_l. symmetry. apply (bits_above s 32); [exact H|reflexivity].
    - replace (N.testbit (2 * reflect 32 s) i) with (N.testbit (reflect 32 s) (N.pred i))
        by (replace i with (N.succ (N.pred i)) at 2 by lia; rewrite N.testbit_even_succ by lia; reflexivity).
      rewrite reflect_bits. change (N.of_nat 32) with 32. destruct (N.eqb_spec i 32) as [->|H32].
      + cbn [N.pred Pos.pred_N N.ltb N.compare Pos.compare Pos.compare_cont andb]. change (32 - 1 - N.pred 32) with 0. rewrite N.bit0_odd.
        change (32 <? 32) with false. cbn [andb]. rewrite xorb_false_r. reflexivity.
      + cbn [andb]. rewrite xorb_false_l. destruct (N.ltb_spec i 32) as [L|L].
        * replace (N.pred i <? 32) with true by (symmetry; apply N.ltb_lt; lia). cbn [andb]. f_equal. lia.
        * replace (N.pred i <? 32) with false by (symmetry; apply N.ltb_ge; lia). reflexivity. }
  rewrite D. unfold crc_bit. destruct (N.odd s); cbn [N.b2n].
  - rewrite N.mul_1_l, reflect_lxor. exists 1. rewrite (N.lxor_comm (2 ^ 32)), lxor4, N.lxor_nilpotent, N.lxor_0_l. reflexivity.
  - rewrite N.mul_0_l, N.lxor_0_l. apply congruent_refl.
Qed.

(** Several bits: the register after the bits [bs], and the congruence it keeps. *)
Definition feed (s : N) (b : bool) : N := crc_bit (N.lxor s (N.b2n b)).
Lemma feed_bound s b : s < 2 ^ 32 -> feed s b < 2 ^ 32.
Proof. intros H. apply crc_bit_bound, lxor_bound; [exact H|destruct b; reflexivity]. Qed.
Definition shift_in (m : N) (b : bool) : N := 2 * m + N.b2n b.
Lemma reflect_bit (b : bool) : reflect 32 (N.b2n b) = 2 ^ 31 * N.b2n b.
Proof. destruct b; reflexivity. Qed.
Lemma feed_step s b : s < 2 ^ 32 -> congruent g32 (N.lxor (2 * reflect 32 s) (2 ^ 32 * N.b2n b)) (reflect 32 (feed s b)).
Proof.
  intros H. unfold feed. replace (N.lxor (2 * reflect 32 s) (2 ^ 32 * N.b2n b)) with (2 * reflect 32 (N.lxor s (N.b2n b))).
  - apply bit_step, lxor_bound; [exact H|destruct b; reflexivity].
  - rewrite reflect_lxor, double_lxor, reflect_bit. f_equal. destruct b; reflexivity.
Qed.
Lemma pow2_lxor k a b : 2 ^ k * N.lxor a b = N.lxor (2 ^ k * a) (2 ^ k * b).
Proof. rewrite !(N.mul_comm (2 ^ k)), <- !N.shiftl_mul_pow2. apply N.shiftl_lxor. Qed.
Lemma shift_in_lxor m b : shift_in m b = N.lxor (2 * m) (N.b2n b).
Proof. unfold shift_in. destruct b; cbn [N.b2n]; [destruct m; reflexivity|now rewrite N.add_0_r, N.lxor_0_r]. Qed.

Lemma feed_all bs : forall s a m, s < 2 ^ 32 -> congruent g32 (N.lxor (2 ^ 32 * m) a) (reflect 32 s) ->
  fold_left feed bs s < 2 ^ 32 /\
  congruent g32 (N.lxor (2 ^ 32 * fold_left shift_in bs m) (2 ^ N.of_nat (length bs) * a)) (reflect 32 (fold_left feed bs s)).
Proof.
  induction bs as [|b bs IH]; intros s a m H C.
  - cbn [fold_left length]. change (2 ^ N.of_nat 0) with 1. rewrite N.mul_1_l. split; assumption.
  - cbn [fold_left length]. replace (2 ^ N.of_nat (S (length bs)) * a) with (2 ^ N.of_nat (length bs) * (2 * a))
      by (rewrite Nat2N.inj_succ, N.pow_succ_r'; lia).
    apply IH; [now apply feed_bound|].
    eapply congruent_trans; [|apply feed_step, H].
    rewrite shift_in_lxor, pow2_lxor. replace (2 ^ 32 * (2 * m)) with (2 * (2 ^ 32 * m)) by lia.
    rewrite N.lxor_assoc, (N.lxor_comm (2 ^ 32 * N.b2n b)), <- N.lxor_assoc, <- double_lxor.
    apply congruent_lxor, congruent_double, C.
Qed.

(** A byte is its eight bits. *)
Lemma byte_value b : b2n b = N.b2n (N.testbit (b2n b) 0) + 2 * (N.b2n (N.testbit (b2n b) 1) + 2 * (N.b2n (N.testbit (b2n b) 2) + 2 * (N.b2n (N.testbit (b2n b) 3) +
  2 * (N.b2n (N.testbit (b2n b) 4) + 2 * (N.b2n (N.testbit (b2n b) 5) + 2 * (N.b2n (N.testbit (b2n b) 6) + 2 * N.b2n (N.testbit (b2n b) 7))))))).
Proof. destruct b; reflexivity. Qed.
Lemma bits_feed bs : forall s, crc_bits (length bs) (N.lxor s (fold_right (fun b n => N.b2n b + 2 * n) 0 bs)) = fold_left feed bs s.
Proof.
  induction bs as [|b bs IH]; intros s; [cbn; now rewrite N.lxor_0_r|].
  cbn [length crc_bits fold_right fold_left]. rewrite <- IH. f_equal. unfold feed. rewrite <- crc_bit_shift. f_equal.
  rewrite N.lxor_assoc. f_equal. destruct b; cbn [N.b2n]; [rewrite N.add_comm; destruct (fold_right _ 0 bs); reflexivity|].
  now rewrite N.add_0_l, N.lxor_0_l.
Qed.
Lemma byte_feed s b : crc_byte s b = fold_left feed (byte_bits b) s.
Proof. rewrite <- bits_feed. unfold crc_byte. cbn [byte_bits map length]. f_equal. f_equal. destruct b; reflexivity. Qed.
Lemma message_bits l : message l = fold_left shift_in (flat_map byte_bits l) 0.
Proof. reflexivity. Qed.
Lemma bytes_feed l : forall s, fold_left crc_byte l s = fold_left feed (flat_map byte_bits l) s.
Proof. induction l as [|b l IH]; intros s; [reflexivity|]. cbn [fold_left flat_map]. rewrite fold_left_app, IH. now rewrite byte_feed. Qed.
Lemma bits_length l : length (flat_map byte_bits l) = (8 * length l)%nat.
Proof. induction l as [|b l IH]; [reflexivity|]. cbn [flat_map length]. rewrite app_length, IH. cbn [byte_bits map length]. lia. Qed.

Theorem crc32_is l : is_crc32 l (crc32 l).
Proof.
  split; [apply crc32_bound|].
  destruct (feed_all (flat_map byte_bits l) crc_mask ones32 0) as [B C].
  - reflexivity.
  - rewrite N.mul_0_r, N.lxor_0_l. exists 0. reflexivity.
  - rewrite bits_length in C. unfold crc32. rewrite reflect_lxor. rewrite bytes_feed. change (reflect 32 crc_mask) with ones32.
    rewrite N.lxor_assoc, N.lxor_nilpotent, N.lxor_0_r. exact C.
Qed.

(** The remainder is unique. *)
Lemma pmul_pos_size p : 2 ^ 32 <= pmul_pos p g32 /\ N.log2 (pmul_pos p g32) = N.log2 (Npos p) + 32.
Proof.
  induction p as [p [IH1 IH2]|p [IH1 IH2]|]; cbn [pmul_pos].
  - assert (L : N.log2 (2 * pmul_pos p g32) = N.log2 (Npos p~1) + 32).
    { rewrite N.log2_double by lia. rewrite IH2. change (Npos p~1) with (2 * Npos p + 1). rewrite N.log2_succ_double by lia. lia. }
    assert (E : N.log2 (N.lxor g32 (2 * pmul_pos p g32)) = N.log2 (Npos p~1) + 32).
    { rewrite <- L. apply N.log2_bits_unique.
      - rewrite N.lxor_spec, (N.bit_log2 (2 * pmul_pos p g32)) by lia.
        rewrite (bits_above g32 33); [reflexivity|reflexivity|]. rewrite L. change (Npos p~1) with (2 * Npos p + 1). rewrite N.log2_succ_double by lia. lia.
      - intros m Hm. rewrite N.lxor_spec, (N.bits_above_log2 (2 * pmul_pos p g32)) by exact Hm.
        rewrite (bits_above g32 33); [reflexivity|reflexivity|]. rewrite L in Hm. lia. }
    split; [|exact E].
    destruct (N.lt_ge_cases (N.lxor g32 (2 * pmul_pos p g32)) (2 ^ 32)) as [C|C]; [exfalso|exact C].
    destruct (N.eq_dec (N.lxor g32 (2 * pmul_pos p g32)) 0) as [Z|Z]; [rewrite Z in E; cbn [N.log2] in E; lia|].
    apply N.log2_lt_pow2 in C; lia.
  - split; [lia|]. rewrite N.log2_double by lia. rewrite IH2. change (Npos p~0) with (2 * Npos p). rewrite N.log2_double by lia. lia.
  - split; [vm_compute; discriminate|reflexivity].
Qed.
Lemma remainder_unique a r r' : congruent g32 a r -> congruent g32 a r' -> r < 2 ^ 32 -> r' < 2 ^ 32 -> r = r'.
Proof.
  intros (p & P) (q & Q) R R'. assert (E : N.lxor r r' = pmul (N.lxor p q) g32).
  { rewrite (pmul_lxor g32 _ p q (le_n _)), <- P, <- Q, lxor4, N.lxor_nilpotent, N.lxor_0_l. reflexivity. }
  destruct (N.lxor p q) as [|z]; [now apply N.lxor_eq|]. cbn [pmul] in E. pose proof (proj1 (pmul_pos_size z)) as L. rewrite <- E in L.
  pose proof (lxor_bound r r' 32 R R'). lia.
Qed.
Theorem crc32_unique l c : is_crc32 l c <-> c = crc32 l.
Proof.
  split; [|intros ->; apply crc32_is]. intros [B C]. destruct (crc32_is l) as [B' C'].
  assert (O : forall x, N.lxor (reflect 32 x) ones32 < 2 ^ 32) by (intros x; apply lxor_bound; [apply (reflect_bound 32)|reflexivity]).
  pose proof (remainder_unique _ _ _ C C' (O _) (O _)) as E. apply lxor_cancel_r in E.
  rewrite <- (reflect_involutive 32 c B), <- (reflect_involutive 32 (crc32 l) B'). now rewrite E.
Qed.
