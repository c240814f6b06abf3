(** * The CRC detects every change inside four consecutive bytes; hex decoding inverts encoding. *)
From Coq Require Import List NArith ZArith Lia Bool.
From Coq Require Import Strings.Byte.
From Verif Require Import Base BaseProofs CrcModel.
Import ListNotations.
Local Open Scope N_scope.

Lemma lxor_bound a b k : a < 2 ^ k -> b < 2 ^ k -> N.lxor a b < 2 ^ k.
Proof.
  intros Ha Hb. destruct (N.eq_dec (N.lxor a b) 0) as [->|H]; [apply N.neq_0_lt_0, N.pow_nonzero; discriminate|].
  apply N.log2_lt_pow2; [lia|]. eapply N.le_lt_trans; [apply N.log2_lxor|].
  assert (forall x, x < 2 ^ k -> 0 < k -> N.log2 x < k) as L.
  { intros x Hx Hk. destruct (N.eq_dec x 0) as [->|Hn]; [exact Hk|]. apply N.log2_lt_pow2; [lia|assumption]. }
  assert (0 < k). { destruct (N.eq_dec k 0) as [->|]; [|lia]. simpl in *. assert (a = 0) as -> by lia. assert (b = 0) as -> by lia. now destruct H. }
  apply N.max_lub_lt; apply L; assumption.
Qed.
Lemma lxor_cancel_r a b c : N.lxor a c = N.lxor b c -> a = b.
Proof. intros H. rewrite <- (N.lxor_0_r a), <- (N.lxor_0_r b), <- (N.lxor_nilpotent c), <- !N.lxor_assoc. now rewrite H. Qed.
Lemma lxor_cancel_l a b c : N.lxor c a = N.lxor c b -> a = b.
Proof. rewrite !(N.lxor_comm c). apply lxor_cancel_r. Qed.

Lemma crc_bit_bound s : s < 2 ^ 32 -> crc_bit s < 2 ^ 32.
Proof.
  intros H. unfold crc_bit. assert (N.div2 s < 2 ^ 32) by (rewrite N.div2_div; apply N.div_lt_upper_bound; lia).
  destruct (N.odd s); [|assumption]. apply lxor_bound; [assumption|reflexivity].
Qed.
Lemma small_bit31 s : s < 2 ^ 32 -> N.testbit (N.div2 s) 31 = false.
Proof.
  intros H. rewrite N.div2_spec, N.shiftr_spec'. apply N.bits_above_log2.
  destruct (N.eq_dec s 0) as [->|Hn]; [reflexivity|]. apply N.log2_lt_pow2; [lia|assumption].
Qed.
Lemma crc_bit_inj s t : s < 2 ^ 32 -> t < 2 ^ 32 -> crc_bit s = crc_bit t -> s = t.
Proof.
  intros Hs Ht H. assert (forall x, x < 2 ^ 32 -> N.testbit (crc_bit x) 31 = N.odd x) as B.
  { intros x Hx. unfold crc_bit. destruct (N.odd x); [rewrite N.lxor_spec|]; rewrite (small_bit31 _ Hx); reflexivity. }
  assert (N.odd s = N.odd t) as O by (rewrite <- !B by assumption; now rewrite H).
  assert (N.div2 s = N.div2 t) as D.
  { unfold crc_bit in H. rewrite O in H. destruct (N.odd t); [|assumption]. exact (lxor_cancel_r _ _ _ H). }
  rewrite (N.div2_odd s), (N.div2_odd t), D, O. reflexivity.
Qed.
Lemma crc_bits_bound k : forall s, s < 2 ^ 32 -> crc_bits k s < 2 ^ 32.
Proof. induction k; simpl; intros s H; [assumption|]. apply IHk, crc_bit_bound, H. Qed.
Lemma crc_bits_inj k : forall s t, s < 2 ^ 32 -> t < 2 ^ 32 -> crc_bits k s = crc_bits k t -> s = t.
Proof.
  induction k; simpl; intros s t Hs Ht H; [assumption|].
  apply (crc_bit_inj s t Hs Ht). apply IHk; [now apply crc_bit_bound..|assumption].
Qed.
Lemma byte_small b : b2n b < 2 ^ 32.
Proof. pose proof (b2n_bound b). lia. Qed.
Lemma crc_byte_bound s b : s < 2 ^ 32 -> crc_byte s b < 2 ^ 32.
Proof. intros H. apply crc_bits_bound, lxor_bound; [assumption|apply byte_small]. Qed.
Lemma crc_fold_bound l : forall s, s < 2 ^ 32 -> fold_left crc_byte l s < 2 ^ 32.
Proof. induction l; simpl; intros s H; [assumption|]. apply IHl, crc_byte_bound, H. Qed.
Lemma crc_byte_inj s t b : s < 2 ^ 32 -> t < 2 ^ 32 -> crc_byte s b = crc_byte t b -> s = t.
Proof.
  intros Hs Ht H. apply (lxor_cancel_r s t (b2n b)).
  apply (crc_bits_inj 8); [apply lxor_bound; [assumption|apply byte_small]..|exact H].
Qed.
Lemma crc_fold_inj l : forall s t, s < 2 ^ 32 -> t < 2 ^ 32 -> fold_left crc_byte l s = fold_left crc_byte l t -> s = t.
Proof.
  induction l as [|b l IH]; simpl; intros s t Hs Ht H; [assumption|].
  apply (crc_byte_inj s t b Hs Ht). apply IH; [now apply crc_byte_bound..|assumption].
Qed.

(** Folding bytes in is shifting in the little-endian number they form. *)
Fixpoint le_val (l : bytes) : N := match l with [] => 0 | b :: l' => b2n b + 256 * le_val l' end.
Lemma crc_bit_shift s t : crc_bit (N.lxor s (2 * t)) = N.lxor (crc_bit s) t.
Proof.
  unfold crc_bit. assert (N.odd (N.lxor s (2 * t)) = N.odd s) as ->.
  { rewrite <- !N.bit0_odd, N.lxor_spec, N.testbit_even_0. apply xorb_false_r. }
  assert (N.div2 (N.lxor s (2 * t)) = N.lxor (N.div2 s) t) as ->.
  { rewrite !N.div2_spec, N.shiftr_lxor. f_equal. rewrite <- N.div2_spec. apply N.div2_double. }
  destruct (N.odd s); [|reflexivity]. rewrite !N.lxor_assoc. f_equal. apply N.lxor_comm.
Qed.
Lemma crc_bits_shift k : forall s t, crc_bits k (N.lxor s (2 ^ N.of_nat k * t)) = N.lxor (crc_bits k s) t.
Proof.
  induction k as [|k IH]; intros s t; [simpl; destruct t; reflexivity|].
  cbn [crc_bits]. replace (2 ^ N.of_nat (S k) * t) with (2 * (2 ^ N.of_nat k * t)).
  - rewrite crc_bit_shift. apply IH.
  - rewrite Nat2N.inj_succ, N.pow_succ_r'. lia.
Qed.
Lemma crc_bits_add j : forall k s, crc_bits (j + k) s = crc_bits k (crc_bits j s).
Proof. induction j; simpl; auto. Qed.
Lemma lxor_add_low a t k : a < 2 ^ k -> a + 2 ^ k * t = N.lxor a (2 ^ k * t).
Proof.
  intros H. rewrite N.mul_comm, <- N.shiftl_mul_pow2. apply N.add_nocarry_lxor. apply N.bits_inj. intros i.
  rewrite N.land_spec, N.bits_0. destruct (N.lt_ge_cases i k) as [C|C].
  - rewrite N.shiftl_spec_low by assumption. apply andb_false_r.
  - replace (N.testbit a i) with false; [reflexivity|]. symmetry.
    destruct (N.eq_dec a 0) as [->|Hn]; [apply N.bits_0|]. apply N.bits_above_log2.
    apply (N.lt_le_trans _ k); [apply N.log2_lt_pow2; [lia|assumption]|assumption].
Qed.
Lemma crc_fold_bits l : forall s, fold_left crc_byte l s = crc_bits (8 * length l) (N.lxor s (le_val l)).
Proof.
  induction l as [|b l IH]; intros s.
  - cbn [fold_left length le_val]. now rewrite N.lxor_0_r.
  - cbn [fold_left length le_val]. rewrite IH. replace (8 * S (length l))%nat with (8 + 8 * length l)%nat by lia.
    rewrite crc_bits_add. f_equal. unfold crc_byte.
    change 256 with (2 ^ 8). rewrite (lxor_add_low (b2n b) (le_val l) 8) by (exact (b2n_bound b)).
    rewrite <- N.lxor_assoc. change (2 ^ 8) with (2 ^ N.of_nat 8). now rewrite crc_bits_shift.
Qed.
Lemma le_val_bound l : le_val l < 256 ^ N.of_nat (length l).
Proof.
  induction l as [|b l IH]; [reflexivity|]. cbn [le_val length]. rewrite Nat2N.inj_succ, N.pow_succ_r'.
  pose proof (b2n_bound b). lia.
Qed.
Lemma le_val_inj l : forall m, length l = length m -> le_val l = le_val m -> l = m.
Proof.
  induction l as [|b l IH]; intros [|c m] L H; try discriminate; [reflexivity|]. cbn [le_val] in H.
  pose proof (b2n_bound b). pose proof (b2n_bound c).
  assert (b2n b = b2n c) as Hb by lia. assert (le_val l = le_val m) as Hl by lia.
  apply b2n_inj in Hb. subst c. f_equal. apply IH; [now inversion L|assumption].
Qed.

(** Two different strings of the same length that agree outside four consecutive bytes have different checksums. *)
Theorem crc_burst a m m' z : (length m <= 4)%nat -> length m = length m' -> m <> m' -> crc32 (a ++ m ++ z) <> crc32 (a ++ m' ++ z).
Proof.
  intros H4 L Hne H. unfold crc32 in H. apply lxor_cancel_r in H. rewrite !fold_left_app in H.
  pose proof (crc_fold_bound a crc_mask eq_refl) as Ha.
  apply crc_fold_inj in H; [|apply crc_fold_bound, Ha..].
  rewrite (crc_fold_bits m), (crc_fold_bits m') in H.
  assert (forall x, (length x <= 4)%nat -> le_val x < 2 ^ 32) as B.
  { intros x Hx. eapply N.lt_le_trans; [apply le_val_bound|]. change (2 ^ 32) with (256 ^ 4). apply N.pow_le_mono_r; lia. }
  rewrite L in H. apply crc_bits_inj in H; [|apply lxor_bound; [exact Ha|apply B; lia]..].
  apply lxor_cancel_l in H. apply Hne, le_val_inj; assumption.
Qed.
Lemma crc32_bound l : crc32 l < 2 ^ 32.
Proof. apply lxor_bound; [|reflexivity]. apply crc_fold_bound. reflexivity. Qed.

(** Hex. *)
Lemma hex_val_digit n : n < 16 -> hex_val (hex_digit n) = Some n.
Proof.
  intros H. assert (forall k, (k < 16)%nat -> hex_val (hex_digit (N.of_nat k)) = Some (N.of_nat k)) as G.
  { intros k Hk. do 16 (destruct k as [|k]; [reflexivity|]). lia. }
  rewrite <- (N2Nat.id n). apply G. lia.
Qed.
Lemma hex_val_bound c n : hex_val c = Some n -> n < 16.
Proof.
  unfold hex_val. intros H.
  repeat match type of H with context [if ?x then _ else _] => destruct x eqn:? end; try discriminate;
    (assert (n = b2n c - 48 \/ n = b2n c - 55 \/ n = b2n c - 87) by (injection H; auto)); injection H as <-; lia.
Qed.
Lemma hex_decode_encode l : hex_decode (hex_encode l) = Ok l.
Proof.
  induction l as [|b l IH]; [reflexivity|]. cbn [hex_encode hex_decode]. pose proof (b2n_bound b).
  rewrite !hex_val_digit by (first [apply N.div_lt_upper_bound; lia|apply N.mod_lt; lia]). rewrite IH. cbn [rbind].
  rewrite <- N.div_mod by discriminate. now rewrite n2b_b2n.
Qed.
Lemma hex_encode_length l : length (hex_encode l) = (2 * length l)%nat.
Proof. induction l as [|b l IH]; [reflexivity|]. cbn [hex_encode length]. lia. Qed.
Lemma hex_encode_app l m : hex_encode (l ++ m) = hex_encode l ++ hex_encode m.
Proof. induction l as [|b l IH]; [reflexivity|]. cbn [hex_encode app]. now rewrite IH. Qed.
Lemma hex_decode_not_panic t : hex_decode t <> Panic.
Proof.
  assert (forall n t, (length t <= n)%nat -> hex_decode t <> Panic) as G.
  { induction n as [|n IH]; intros u L; [destruct u; [discriminate|simpl in L; lia]|].
    destruct u as [|a [|b u]]; try discriminate. simpl in L. specialize (IH u ltac:(lia)).
    cbn [hex_decode]. destruct (hex_val a), (hex_val b); try discriminate. destruct (hex_decode u); [discriminate..|congruence]. }
  exact (G (length t) t (le_n _)).
Qed.
Lemma hex_decode_length t l : hex_decode t = Ok l -> length t = (2 * length l)%nat.
Proof.
  revert l. assert (forall n t l, (length t <= n)%nat -> hex_decode t = Ok l -> length t = (2 * length l)%nat) as G.
  { induction n as [|n IH]; intros u l L H; [destruct u; [inv H; reflexivity|simpl in L; lia]|].
    destruct u as [|a [|b u]]; [inv H; reflexivity|discriminate|]. cbn [hex_decode] in H.
    destruct (hex_val a); [|discriminate]. destruct (hex_val b); [|discriminate].
    destruct (hex_decode u) as [r| |] eqn:E; cbn [rbind] in H; try discriminate. inv H.
    simpl in L |- *. rewrite (IH u r ltac:(lia) E). lia. }
  intros l. exact (G (length t) t l (le_n _)).
Qed.
(** Replacing one character of a text that decodes: the result does not decode, or decodes to the same bytes, or to bytes that differ in
    exactly one position. *)
Lemma hex_replace_char t1 : forall c c' t2 l l', hex_decode (t1 ++ c :: t2) = Ok l -> hex_decode (t1 ++ c' :: t2) = Ok l' ->
  exists a b b' z, l = a ++ b :: z /\ l' = a ++ b' :: z.
Proof.
  assert (forall n t1, (length t1 <= n)%nat -> forall c c' t2 l l', hex_decode (t1 ++ c :: t2) = Ok l -> hex_decode (t1 ++ c' :: t2) = Ok l' ->
    exists a b b' z, l = a ++ b :: z /\ l' = a ++ b' :: z) as G.
  { induction n as [|n IH]; intros u L c c' t2 l l' H H'.
    - destruct u; [|simpl in L; lia]. cbn [app] in *. destruct t2 as [|y t2]; [discriminate|]. cbn [hex_decode] in *.
      destruct (hex_val c); [|discriminate]. destruct (hex_val c'); [|discriminate]. destruct (hex_val y); [|discriminate].
      destruct (hex_decode t2) as [r| |]; cbn [rbind] in *; try discriminate. exists [], (n2b (16 * n + n1)), (n2b (16 * n0 + n1)), r.
      split; cbn [app]; congruence.
    - destruct u as [|a [|b u]].
      + apply (IH [] ltac:(simpl; lia) _ _ _ _ _ H H').
      + cbn [app hex_decode] in *. destruct (hex_val a); [|discriminate]. destruct (hex_val c); [|discriminate]. destruct (hex_val c'); [|discriminate].
        destruct (hex_decode t2) as [r| |]; cbn [rbind] in *; try discriminate. exists [], (n2b (16 * n0 + n1)), (n2b (16 * n0 + n2)), r.
        split; cbn [app]; congruence.
      + cbn [app hex_decode] in *. destruct (hex_val a); [|discriminate]. destruct (hex_val b); [|discriminate].
        destruct (hex_decode (u ++ c :: t2)) as [r| |] eqn:E; cbn [rbind] in *; try discriminate.
        destruct (hex_decode (u ++ c' :: t2)) as [r'| |] eqn:E'; cbn [rbind] in *; try discriminate.
        destruct (IH u ltac:(simpl in L; lia) _ _ _ _ _ E E') as (x & y & y' & z & -> & ->).
        exists (n2b (16 * n0 + n1) :: x), y, y', z. split; cbn [app]; congruence. }
  intros c c' t2 l l'. exact (G (length t1) t1 (le_n _) c c' t2 l l').
Qed.
