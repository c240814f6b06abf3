(** * Proofs about the sums. *)
From Coq Require Import List NArith ZArith Bool Lia Sorted Znumtheory.
From Coq Require Import Strings.Byte.
From Verif Require Import Base BaseProofs EndianModel EndianProofs DigestModel DigestSpec.
Import ListNotations.
Local Open Scope N_scope.
Local Open Scope list_scope.

(** ** Words *)
Lemma word_bits_gen (f : nat -> bool) k : forall s i,
  N.testbit (fold_right (fun i a => N.b2n (f i) + 2 * a) 0 (seq s k)) (N.of_nat i) = Nat.ltb i k && f (s + i)%nat.
Proof.
  induction k as [|k IH]; intros s i.
  - cbn [seq fold_right]. now rewrite N.bits_0.
  - cbn [seq fold_right]. destruct i as [|i].
    + cbn [N.of_nat]. rewrite N.add_b2n_double_bit0. now rewrite Nat.add_0_r.
    + rewrite Nat2N.inj_succ, N.add_comm, N.testbit_succ_r, IH. replace (S s + i)%nat with (s + S i)%nat by lia. reflexivity.
Qed.
Lemma word_bits f i : bit (word_of f) i = Nat.ltb i 32 && f i.
Proof. unfold bit, word_of. now rewrite word_bits_gen. Qed.
Lemma word_eq x f : is_word x -> (forall i, (i < 32)%nat -> bit x i = f i) -> x = word_of f.
Proof.
  intros W H. apply N.bits_inj. intros n. rewrite <- (N2Nat.id n). fold (bit x (N.to_nat n)). fold (bit (word_of f) (N.to_nat n)).
  rewrite word_bits. destruct (Nat.ltb_spec (N.to_nat n) 32) as [L|L]; [now rewrite H|].
  cbn [andb]. unfold bit. rewrite N2Nat.id. destruct (N.eq_dec x 0) as [->|Z]; [apply N.bits_0|].
  apply N.bits_above_log2. apply N.log2_lt_pow2; [lia|]. unfold is_word in W.
  apply N.lt_le_trans with (2 ^ 32); [assumption|]. apply N.pow_le_mono_r; lia.
Qed.
Lemma high_bits x i : is_word x -> (32 <= i)%nat -> bit x i = false.
Proof.
  intros W L. unfold bit. destruct (N.eq_dec x 0) as [->|Z]; [apply N.bits_0|].
  apply N.bits_above_log2. apply N.log2_lt_pow2; [lia|]. unfold is_word in W.
  apply N.lt_le_trans with (2 ^ 32); [assumption|]. apply N.pow_le_mono_r; lia.
Qed.
Lemma word_by_bits x : (forall i, (32 <= i)%nat -> bit x i = false) -> is_word x.
Proof.
  intros H. unfold is_word. destruct (N.eq_dec x 0) as [->|Z]; [reflexivity|]. apply N.log2_lt_pow2; [lia|].
  destruct (N.lt_ge_cases (N.log2 x) 32) as [L|L]; [assumption|]. exfalso.
  specialize (H (N.to_nat (N.log2 x)) ltac:(lia)). unfold bit in H. rewrite N2Nat.id in H. rewrite N.bit_log2 in H by assumption. discriminate.
Qed.
Lemma word_of_word f : is_word (word_of f).
Proof. apply word_by_bits. intros i L. rewrite word_bits. destruct (Nat.ltb_spec i 32); [lia|reflexivity]. Qed.
Lemma m32_pow : m32 = 2 ^ 32.
Proof. reflexivity. Qed.
Lemma mod_word x : is_word (x mod 2 ^ 32).
Proof. apply N.mod_lt. discriminate. Qed.
Lemma add32_word a b : is_word (add32 a b).
Proof. unfold add32. rewrite m32_pow. apply mod_word. Qed.

Lemma bit_lxor x y i : bit (N.lxor x y) i = xorb (bit x i) (bit y i).
Proof. apply N.lxor_spec. Qed.
Lemma bit_land x y i : bit (N.land x y) i = bit x i && bit y i.
Proof. apply N.land_spec. Qed.
Lemma bit_lor x y i : bit (N.lor x y) i = bit x i || bit y i.
Proof. apply N.lor_spec. Qed.
Lemma bit_shiftr x n i : bit (N.shiftr x (N.of_nat n)) i = bit x (i + n).
Proof. unfold bit. rewrite N.shiftr_spec'. f_equal. lia. Qed.
Lemma bit_shl x n i : bit (shl32 x (N.of_nat n)) i = Nat.ltb i 32 && Nat.leb n i && bit x (i - n).
Proof.
  unfold bit, shl32. rewrite m32_pow. destruct (Nat.ltb_spec i 32) as [L|L].
  - rewrite N.mod_pow2_bits_low by lia. cbn [andb]. destruct (Nat.leb_spec n i) as [M|M].
    + rewrite N.shiftl_spec_high' by lia. cbn [andb]. f_equal. lia.
    + rewrite N.shiftl_spec_low by lia. reflexivity.
  - rewrite N.mod_pow2_bits_high by lia. reflexivity.
Qed.
Lemma bit_not x i : (i < 32)%nat -> bit (not32 x) i = negb (bit x i).
Proof.
  intros L. unfold not32. rewrite bit_lxor. replace (bit 0xffffffff i) with true; [now rewrite xorb_true_r|].
  symmetry. change 0xffffffff with (N.ones 32). unfold bit. apply N.ones_spec_low. lia.
Qed.
Lemma lxor_word x y : is_word x -> is_word y -> is_word (N.lxor x y).
Proof. intros X Y. apply word_by_bits. intros i L. rewrite bit_lxor, !high_bits by assumption. reflexivity. Qed.
Lemma land_word x y : is_word x -> is_word (N.land x y).
Proof. intros X. apply word_by_bits. intros i L. rewrite bit_land, (high_bits x) by assumption. reflexivity. Qed.
Lemma land_word_r x y : is_word y -> is_word (N.land x y).
Proof. intros X. rewrite N.land_comm. now apply land_word. Qed.
Lemma lor_word x y : is_word x -> is_word y -> is_word (N.lor x y).
Proof. intros X Y. apply word_by_bits. intros i L. rewrite bit_lor, !high_bits by assumption. reflexivity. Qed.
Lemma shr_word x n : is_word x -> is_word (N.shiftr x (N.of_nat n)).
Proof. intros X. apply word_by_bits. intros i L. rewrite bit_shiftr. apply high_bits; [assumption|lia]. Qed.
Lemma shl_word x n : is_word (shl32 x n).
Proof. unfold shl32. rewrite m32_pow. apply mod_word. Qed.
Lemma not_word x : is_word x -> is_word (not32 x).
Proof. intros X. apply lxor_word; [assumption|reflexivity]. Qed.

Lemma rotr_ok x n : is_word x -> (0 < n < 32)%nat -> rotr32 x (N.of_nat n) = ROTR n x.
Proof.
  intros X Hn. unfold rotr32, ROTR. replace (32 - N.of_nat n) with (N.of_nat (32 - n)) by lia.
  apply word_eq; [apply lor_word; [now apply shr_word|apply shl_word]|].
  intros i L. rewrite bit_lor, bit_shiftr, bit_shl. destruct (Nat.ltb_spec i 32); [|lia]. cbn [andb].
  destruct (Nat.leb_spec (32 - n) i) as [M|M].
  - rewrite (high_bits x (i + n)) by (assumption || lia). cbn [orb andb]. f_equal.
    replace (i + n)%nat with (i - (32 - n) + 1 * 32)%nat by lia. rewrite Nat.mod_add, Nat.mod_small by lia. reflexivity.
  - cbn [andb]. rewrite orb_false_r, Nat.mod_small by lia. reflexivity.
Qed.
Lemma rotl_ok x n : is_word x -> (0 < n < 32)%nat -> rotl32 x (N.of_nat n) = ROTL n x.
Proof.
  intros X Hn. unfold rotl32. rewrite N.lor_comm. pose proof (rotr_ok x (32 - n) X ltac:(lia)) as R. unfold rotr32 in R.
  replace (N.of_nat (32 - n)) with (32 - N.of_nat n) in R by lia.
  replace (32 - (32 - N.of_nat n)) with (N.of_nat n) in R by lia. exact R.
Qed.
Lemma shr_ok x n : is_word x -> N.shiftr x (N.of_nat n) = SHR n x.
Proof.
  intros X. unfold SHR. apply word_eq; [now apply shr_word|]. intros i L. rewrite bit_shiftr.
  destruct (Nat.ltb_spec (i + n) 32) as [M|M]; [reflexivity|]. cbn [andb]. now apply high_bits.
Qed.
Lemma rotr_word x n : is_word x -> (0 < n < 32)%nat -> is_word (rotr32 x (N.of_nat n)).
Proof. intros X H. rewrite rotr_ok by assumption. apply word_of_word. Qed.
Lemma xor3_ok x y z : is_word x -> is_word y -> is_word z -> N.lxor (N.lxor x y) z = xor3 x y z.
Proof.
  intros X Y Z. unfold xor3. apply word_eq; [repeat apply lxor_word; assumption|]. intros i L. now rewrite !bit_lxor.
Qed.
Lemma sigma0_ok x : is_word x -> N.lxor (N.lxor (rotr32 x 7) (rotr32 x 18)) (N.shiftr x 3) = sigma0 x.
Proof.
  intros X. change 7 with (N.of_nat 7). change 18 with (N.of_nat 18). change 3 with (N.of_nat 3).
  unfold sigma0. rewrite !rotr_ok, shr_ok by (assumption || lia). apply xor3_ok; apply word_of_word.
Qed.
Lemma sigma1_ok x : is_word x -> N.lxor (N.lxor (rotr32 x 17) (rotr32 x 19)) (N.shiftr x 10) = sigma1 x.
Proof.
  intros X. change 17 with (N.of_nat 17). change 19 with (N.of_nat 19). change 10 with (N.of_nat 10).
  unfold sigma1. rewrite !rotr_ok, shr_ok by (assumption || lia). apply xor3_ok; apply word_of_word.
Qed.
Lemma Sigma0_ok x : is_word x -> N.lxor (N.lxor (rotr32 x 2) (rotr32 x 13)) (rotr32 x 22) = Sigma0 x.
Proof.
  intros X. change 2 with (N.of_nat 2). change 13 with (N.of_nat 13). change 22 with (N.of_nat 22).
  unfold Sigma0. rewrite !rotr_ok by (assumption || lia). apply xor3_ok; apply word_of_word.
Qed.
Lemma Sigma1_ok x : is_word x -> N.lxor (N.lxor (rotr32 x 6) (rotr32 x 11)) (rotr32 x 25) = Sigma1 x.
Proof.
  intros X. change 6 with (N.of_nat 6). change 11 with (N.of_nat 11). change 25 with (N.of_nat 25).
  unfold Sigma1. rewrite !rotr_ok by (assumption || lia). apply xor3_ok; apply word_of_word.
Qed.
Ltac words := repeat first [assumption | apply not_word; assumption | apply lxor_word | apply land_word; assumption | apply land_word_r; assumption | apply lor_word | apply not_word].
Ltac bits := intros i L; rewrite ?bit_lxor, ?bit_land, ?bit_lor, ?bit_lxor, ?bit_land, ?bit_not by assumption;
  repeat match goal with |- context [bit ?x ?k] => destruct (bit x k) end; reflexivity.
Lemma Ch_ok x y z : is_word x -> is_word y -> is_word z -> N.lxor (N.land x y) (N.land (not32 x) z) = Ch x y z.
Proof. intros X Y Z. unfold Ch. apply word_eq; [words|bits]. Qed.
Lemma Maj_ok x y z : is_word x -> is_word y -> is_word z -> N.lxor (N.lxor (N.land x y) (N.land x z)) (N.land y z) = Maj x y z.
Proof. intros X Y Z. unfold Maj. apply word_eq; [words|bits]. Qed.
Lemma F_ok b c d : is_word b -> is_word c -> is_word d -> N.lxor (N.land (N.lxor c d) b) d = md5_F b c d.
Proof. intros X Y Z. unfold md5_F. apply word_eq; [words|bits]. Qed.
Lemma G_ok b c d : is_word b -> is_word c -> is_word d -> N.lxor (N.land (N.lxor b c) d) c = md5_G b c d.
Proof. intros X Y Z. unfold md5_G. apply word_eq; [words|bits]. Qed.
Lemma H_ok b c d : is_word b -> is_word c -> is_word d -> N.lxor (N.lxor b c) d = md5_H b c d.
Proof. intros X Y Z. unfold md5_H. apply word_eq; [words|bits]. Qed.
Lemma I_ok b c d : is_word b -> is_word c -> is_word d -> N.lxor c (N.lor b (not32 d)) = md5_I b c d.
Proof. intros X Y Z. unfold md5_I. apply word_eq; [words|bits]. Qed.

Lemma add32_mod_l a b : add32 (a mod 2 ^ 32) b = (a + b) mod 2 ^ 32.
Proof. unfold add32. rewrite m32_pow. apply N.add_mod_idemp_l. discriminate. Qed.
Lemma add32_mod_r a b : add32 a (b mod 2 ^ 32) = (a + b) mod 2 ^ 32.
Proof. unfold add32. rewrite m32_pow. apply N.add_mod_idemp_r. discriminate. Qed.
Lemma add32_eq a b : add32 a b = (a + b) mod 2 ^ 32.
Proof. reflexivity. Qed.

(** ** Bytes of numbers *)
Lemma byte_at_n2b x j : byte_at x j = n2b (N.shiftr x (8 * N.of_nat j)).
Proof.
  unfold byte_at. rewrite N.shiftr_div_pow2. replace (2 ^ (8 * N.of_nat j)) with (256 ^ N.of_nat j) by (rewrite N.pow_mul_r; reflexivity).
  apply b2n_inj. rewrite b2n_n2b. set (y := (x / 256 ^ N.of_nat j) mod 256). assert (y < 256) as B by (apply N.mod_lt; discriminate).
  destruct (Byte.of_N y) as [b|] eqn:E.
  - apply Byte.to_of_N in E. exact E.
  - exfalso. apply Byte.of_N_None_iff in E. lia.
Qed.
Lemma big_endian_put k x : big_endian k x = be_put k x.
Proof.
  unfold big_endian. induction k as [|k IH]; [reflexivity|].
  cbn [be_put]. rewrite <- IH. rewrite seq_S, rev_app_distr. cbn [rev app map]. now rewrite byte_at_n2b.
Qed.
Lemma little_endian_put k x : little_endian k x = le_put k x.
Proof. unfold le_put. rewrite <- big_endian_put. unfold little_endian, big_endian. now rewrite map_rev, rev_involutive. Qed.
Lemma le_put_length k x : length (le_put k x) = k.
Proof. unfold le_put. rewrite rev_length. apply be_put_length. Qed.
Lemma le_put_inj k x y : x < 256 ^ N.of_nat k -> y < 256 ^ N.of_nat k -> le_put k x = le_put k y -> x = y.
Proof.
  intros X Y E. apply (be_put_inj k); [assumption|assumption|]. unfold le_put in E. apply (f_equal (@rev byte)) in E. now rewrite !rev_involutive in E.
Qed.
Lemma four (b : bytes) t : length b = 64%nat -> (t < 16)%nat ->
  firstn 4 (skipn (4 * t) b) = [nth (4 * t) b x00; nth (4 * t + 1) b x00; nth (4 * t + 2) b x00; nth (4 * t + 3) b x00].
Proof.
  intros L T. assert (forall k, nth (4 * t + k) b x00 = nth k (skipn (4 * t) b) x00) as K.
  { intros k. rewrite <- (firstn_skipn (4 * t) b) at 1. rewrite app_nth2; rewrite firstn_length; [|lia]. f_equal. lia. }
  replace (nth (4 * t) b x00) with (nth (4 * t + 0) b x00) by (f_equal; lia). rewrite !K.
  assert (4 <= length (skipn (4 * t) b))%nat as M by (rewrite skipn_length; lia).
  destruct (skipn (4 * t) b) as [|a [|c [|d [|e r]]]]; cbn [length] in M; try lia. reflexivity.
Qed.
Lemma be_word_ok b t : length b = 64%nat -> (t < 16)%nat -> nth t (sha_words b) 0 = be_word b t.
Proof.
  intros L T. unfold sha_words. rewrite (nth_indep _ 0 (be_get (firstn 4 (skipn (4 * 0) b)))) by (rewrite map_length, seq_length; lia).
  rewrite (map_nth (fun i => be_get (firstn 4 (skipn (4 * i) b)))), seq_nth by assumption. cbn [Nat.add]. rewrite four by assumption.
  unfold be_word, octet, be_get. cbn [fold_left]. unfold b2n. lia.
Qed.
Lemma le_word_ok b t : length b = 64%nat -> (t < 16)%nat -> nth t (md5_words b) 0 = le_word b t.
Proof.
  intros L T. unfold md5_words. rewrite (nth_indep _ 0 (le_get (firstn 4 (skipn (4 * 0) b)))) by (rewrite map_length, seq_length; lia).
  rewrite (map_nth (fun i => le_get (firstn 4 (skipn (4 * i) b)))), seq_nth by assumption. cbn [Nat.add]. rewrite four by assumption.
  unfold le_word, octet, le_get, be_get. cbn [rev app fold_left]. unfold b2n. lia.
Qed.
Lemma octet_small b i : octet b i < 256.
Proof. unfold octet. pose proof (b2n_bound (nth i b x00)) as B. exact B. Qed.
Lemma be_word_word b t : is_word (be_word b t).
Proof.
  unfold is_word, be_word. pose proof (octet_small b (4 * t)). pose proof (octet_small b (4 * t + 1)).
  pose proof (octet_small b (4 * t + 2)). pose proof (octet_small b (4 * t + 3)). lia.
Qed.
Lemma le_word_word b t : is_word (le_word b t).
Proof.
  unfold is_word, le_word. pose proof (octet_small b (4 * t)). pose proof (octet_small b (4 * t + 1)).
  pose proof (octet_small b (4 * t + 2)). pose proof (octet_small b (4 * t + 3)). lia.
Qed.

(** ** One block of SHA-256 *)
Lemma nth_word l i : Forall is_word l -> is_word (nth i l 0).
Proof.
  intros F. destruct (Nat.lt_ge_cases i (length l)) as [L|L].
  - rewrite Forall_forall in F. apply F. now apply nth_In.
  - rewrite nth_overflow by assumption. reflexivity.
Qed.
Lemma sha_next_ok ws : (16 <= length ws)%nat -> Forall is_word ws -> let i := length ws in
  sha_next ws = (sigma1 (nth (i - 2) ws 0) + nth (i - 7) ws 0 + sigma0 (nth (i - 15) ws 0) + nth (i - 16) ws 0) mod 2 ^ 32.
Proof.
  intros L F i. unfold sha_next. fold i. rewrite sigma1_ok, sigma0_ok by now apply nth_word.
  rewrite (add32_eq (sigma1 _)), !add32_mod_l. reflexivity.
Qed.
Lemma sha_schedule_ok n : forall ws, (16 <= length ws)%nat -> Forall is_word ws ->
  exists r, sha_schedule n ws = ws ++ r /\ length r = n /\ Forall is_word (ws ++ r) /\
  forall t, (length ws <= t < length ws + n)%nat -> let w := sha_schedule n ws in
    nth t w 0 = (sigma1 (nth (t - 2) w 0) + nth (t - 7) w 0 + sigma0 (nth (t - 15) w 0) + nth (t - 16) w 0) mod 2 ^ 32.
Proof.
  induction n as [|n IH]; intros ws L F.
  - exists []. rewrite app_nil_r. repeat split; [assumption|]. intros t T. lia.
  - cbn [sha_schedule]. assert (is_word (sha_next ws)) as W by (rewrite sha_next_ok by assumption; apply mod_word).
    destruct (IH (ws ++ [sha_next ws])) as (r & E & Lr & Fr & H).
    { rewrite app_length. cbn [length]. lia. }
    { apply Forall_app. split; [assumption|]. constructor; [assumption|constructor]. }
    exists (sha_next ws :: r). rewrite <- app_assoc in E, Fr. cbn [app] in E, Fr. split; [assumption|]. split; [cbn [length]; lia|]. split; [assumption|].
    intros t T. rewrite app_length in H. cbn [length] in H. destruct (Nat.eq_dec t (length ws)) as [->|N].
    + cbn zeta. rewrite E. rewrite (app_nth2 ws (sha_next ws :: r) 0 (le_n (length ws))), Nat.sub_diag. cbn [nth]. rewrite !app_nth1 by lia. now apply sha_next_ok.
    + apply H. lia.
Qed.
Definition good_state (n : nat) (s : list N) : Prop := length s = n /\ Forall is_word s.
Lemma sha_round_ok s k w : good_state 8 s -> is_sha_round k w s (sha_round s (k, w)) /\ good_state 8 (sha_round s (k, w)).
Proof.
  intros (L & F). destruct s as [|a [|b [|c [|d [|e [|f [|g [|h [|z s]]]]]]]]]; try discriminate L.
  repeat match goal with H : Forall _ (_ :: _) |- _ => inv H end.
  split.
  - exists a, b, c, d, e, f, g, h. split; [reflexivity|]. cbn zeta. cbn [sha_round fst snd].
    rewrite Sigma1_ok, Ch_ok, Sigma0_ok, Maj_ok by assumption.
    rewrite (add32_eq h), !add32_mod_l, add32_mod_r, (add32_eq (Sigma0 a)), N.add_mod_idemp_r by discriminate. reflexivity.
  - split; [reflexivity|]. cbn [sha_round]. repeat constructor; try assumption; apply add32_word.
Qed.
(** The states after each round. *)
Lemma rounds_states {A} (f : list N -> A -> list N) (P : list N -> Prop) (l : list A) (d : A) : (forall s x, P s -> P (f s x)) ->
  forall s, P s -> exists st : nat -> list N, st 0%nat = s /\ st (length l) = fold_left f l s /\
  (forall t, (t < length l)%nat -> P (st t) /\ st (S t) = f (st t) (nth t l d)) /\ P (fold_left f l s).
Proof.
  intros I. induction l as [|x l IH]; intros s Ps.
  - exists (fun _ => s). repeat split; try reflexivity; [cbn [length] in *; lia|cbn [length] in *; lia|assumption].
  - destruct (IH (f s x) (I s x Ps)) as (st & E0 & E1 & H & Q).
    exists (fun t => match t with O => s | S t' => st t' end). cbn [length fold_left nth]. split; [reflexivity|]. split; [assumption|]. split; [|assumption].
    intros [|t] T; [split; [assumption|exact E0]|]. apply H. lia.
Qed.
Lemma add_words_nth a b n i : length a = n -> length b = n -> (i < n)%nat -> nth i (add_words a b) 0 = (nth i b 0 + nth i a 0) mod 2 ^ 32.
Proof.
  intros A B L. unfold add_words. rewrite (nth_indep _ 0 ((fun p => add32 (fst p) (snd p)) (0, 0))) by (rewrite map_length, combine_length; lia).
  rewrite (map_nth (fun p : N * N => add32 (fst p) (snd p))), combine_nth by lia. cbn [fst snd]. rewrite add32_eq. f_equal. lia.
Qed.
Lemma add_words_good a b n : length a = n -> length b = n -> good_state n (add_words a b).
Proof.
  intros A B. unfold add_words. split; [rewrite map_length, combine_length; lia|].
  apply Forall_forall. intros x H. apply in_map_iff in H. destruct H as (p & <- & _). apply add32_word.
Qed.
Lemma sha_words_good b : length b = 64%nat -> good_state 16 (sha_words b).
Proof.
  intros L. split; [reflexivity|]. apply Forall_forall. intros x H. destruct (In_nth _ _ 0 H) as (t & T & <-).
  change (length (sha_words b)) with 16%nat in T. rewrite be_word_ok by assumption. apply be_word_word.
Qed.
Lemma sha_block_ok h b : good_state 8 h -> length b = 64%nat -> is_sha_step sha_k h b (sha_block h b) /\ good_state 8 (sha_block h b).
Proof.
  intros (Lh & Fh) Lb. destruct (sha_words_good b Lb) as (Lw & Fw).
  destruct (sha_schedule_ok 48 (sha_words b) ltac:(rewrite Lw; lia) Fw) as (r & E & Lr & Fr & H). rewrite Lw in H.
  set (w := sha_schedule 48 (sha_words b)) in *.
  assert (length w = 64%nat) as Lww by (rewrite E, app_length; lia).
  destruct (rounds_states sha_round (good_state 8) (combine sha_k w) (0, 0) (fun s x => match x with (k, v) => fun P => proj2 (sha_round_ok s k v P) end) h (conj Lh Fh))
    as (st & E0 & E1 & R & Q).
  rewrite combine_length, Lww in E1, R. change (Nat.min (length sha_k) 64) with 64%nat in *.
  assert (good_state 8 (sha_block h b)) as G by (apply add_words_good; [assumption|apply Q]).
  split; [|assumption]. split; [assumption|]. split; [assumption|]. split; [assumption|].
  exists (fun t => nth t w 0), st. repeat split.
  - intros t T. rewrite E, app_nth1 by lia. now apply be_word_ok.
  - intros t T. apply H. lia.
  - assumption.
  - intros t T. destruct (R t T) as (P & ->). rewrite combine_nth by (rewrite Lww; reflexivity). now apply sha_round_ok.
  - apply G.
  - intros i L. rewrite E1. apply (add_words_nth _ _ 8); [assumption|apply Q|assumption].
Qed.

(** ** One block of MD5 *)
Lemma md5_words_good b : length b = 64%nat -> good_state 16 (md5_words b).
Proof.
  intros L. split; [reflexivity|]. apply Forall_forall. intros x H. destruct (In_nth _ _ 0 H) as (t & T & <-).
  change (length (md5_words b)) with 16%nat in T. rewrite le_word_ok by assumption. apply le_word_word.
Qed.
Definition md5_f (i : nat) : N -> N -> N -> N := match Nat.div i 16 with 0%nat => md5_F | 1%nat => md5_G | 2%nat => md5_H | _ => md5_I end.
Definition md5_index (i : nat) : nat :=
  match Nat.div i 16 with 0%nat => i | 1%nat => Nat.modulo (1 + 5 * i)%nat 16 | 2%nat => Nat.modulo (5 + 3 * i)%nat 16 | _ => Nat.modulo (7 * i)%nat 16 end.
Definition md5_shift (i : nat) : nat :=
  nth (Nat.modulo i 4) (match Nat.div i 16 with 0%nat => [7; 12; 17; 22] | 1%nat => [5; 9; 14; 20] | 2%nat => [4; 11; 16; 23] | _ => [6; 10; 15; 21] end)%nat O.
Lemma md5_table i f k s : nth_error md5_operations i = Some (f, (k, s)) ->
  (i < 64)%nat /\ f = md5_f i /\ k = md5_index i /\ s = md5_shift i /\ (k < 16)%nat /\ (0 < s < 32)%nat.
Proof.
  intros H. assert (i < 64)%nat as L.
  { assert (nth_error md5_operations i <> None) as N by (rewrite H; discriminate). apply nth_error_Some in N. exact N. }
  split; [assumption|]. do 64 (destruct i as [|i]; [cbn in H; injection H as <- <- <-; repeat split; cbn; lia|]). lia.
Qed.
Lemma md5_round_ok x s i : Forall is_word x -> good_state 4 s -> (i < 64)%nat ->
  operation (md5_f i) (nth (md5_index i) x 0) (nth i md5_t 0) (md5_shift i) s (md5_round x s i).
Proof.
  intros X (L & F) I. destruct s as [|a [|b [|c [|d [|z s]]]]]; try discriminate L.
  repeat match goal with H : Forall _ (_ :: _) |- _ => inv H end.
  exists a, b, c, d. split; [reflexivity|]. unfold md5_round, md5_f, md5_index, md5_shift.
  assert (forall l (n : nat), nth n (map N.of_nat l) 0 = N.of_nat (nth n l O)) as Nn by (intros; exact (map_nth N.of_nat l O n)).
  assert (Nat.modulo i 4 < 4)%nat as M by (apply Nat.mod_upper_bound; discriminate). set (j := Nat.modulo i 4) in *. clearbody j.
  set (q := Nat.div i 16). assert (q < 4)%nat as Q by (apply Nat.div_lt_upper_bound; [discriminate|lia]). clearbody q.
  destruct q as [|[|[|[|q]]]]; [| | | |lia]; cbv zeta beta iota.
  - rewrite F_ok by assumption. change [7; 12; 17; 22] with (map N.of_nat [7; 12; 17; 22]%nat). rewrite Nn, rotl_ok.
    + now rewrite (add32_eq a), !add32_mod_l.
    + apply add32_word.
    + destruct j as [|[|[|[|j]]]]; cbn; lia.
  - rewrite G_ok by assumption. change [5; 9; 14; 20] with (map N.of_nat [5; 9; 14; 20]%nat). rewrite Nn, rotl_ok.
    + now rewrite (add32_eq a), !add32_mod_l.
    + apply add32_word.
    + destruct j as [|[|[|[|j]]]]; cbn; lia.
  - rewrite H_ok by assumption. change [4; 11; 16; 23] with (map N.of_nat [4; 11; 16; 23]%nat). rewrite Nn, rotl_ok.
    + now rewrite (add32_eq a), !add32_mod_l.
    + apply add32_word.
    + destruct j as [|[|[|[|j]]]]; cbn; lia.
  - rewrite I_ok by assumption. change [6; 10; 15; 21] with (map N.of_nat [6; 10; 15; 21]%nat). rewrite Nn, rotl_ok.
    + now rewrite (add32_eq a), !add32_mod_l.
    + apply add32_word.
    + destruct j as [|[|[|[|j]]]]; cbn; lia.
Qed.
Lemma md5_round_good x s i : good_state 4 s -> good_state 4 (md5_round x s i).
Proof.
  intros (L & F). destruct s as [|a [|b [|c [|d [|z s]]]]]; try discriminate L.
  repeat match goal with H : Forall _ (_ :: _) |- _ => inv H end.
  unfold md5_round. destruct (Nat.div i 16) as [|[|[|q]]]; cbv zeta beta iota; (split; [reflexivity|]); repeat constructor; try assumption; apply add32_word.
Qed.
Lemma md5_block_ok h b : good_state 4 h -> length b = 64%nat -> is_md5_step md5_t h b (md5_block h b) /\ good_state 4 (md5_block h b).
Proof.
  intros (Lh & Fh) Lb. destruct (md5_words_good b Lb) as (Lw & Fw).
  destruct (rounds_states (md5_round (md5_words b)) (good_state 4) (seq 0 64) O (fun s x => md5_round_good _ s x) h (conj Lh Fh)) as (st & E0 & E1 & R & Q).
  rewrite seq_length in E1, R.
  assert (good_state 4 (md5_block h b)) as G by (apply add_words_good; [assumption|apply Q]).
  split; [|assumption]. split; [assumption|]. split; [assumption|]. split; [assumption|].
  exists st. split; [assumption|]. split; [|split; [apply G|]].
  - intros i f k s H. apply md5_table in H. destruct H as (I & -> & -> & -> & K & _). destruct (R i I) as (P & ->). rewrite seq_nth by assumption. cbn [Nat.add].
    rewrite <- le_word_ok by assumption. now apply md5_round_ok.
  - intros i L. rewrite E1. apply (add_words_nth _ _ 4); [assumption|apply Q|assumption].
Qed.

(** ** The digest as it is written to *)
Section Chaining.
  Context (block : list N -> bytes -> list N) (step : list N -> bytes -> list N -> Prop) (good : list N -> Prop).
  Context (block_ok : forall h b, good h -> length b = 64%nat -> step h b (block h b) /\ good (block h b)).

  Definition steps (h : list N) (l : bytes) (h' : list N) : Prop := chain (fun h b h' => good h /\ length b = 64%nat /\ h' = block h b) h l h'.
  Lemma steps_chain h l h' : steps h l h' -> chain step h l h'.
  Proof using Type*.
    induction 1 as [|h b h1 l h2 (G & L & ->) _ IH]; [constructor|]. econstructor; [apply (block_ok h b G L)|exact IH].
  Qed.
  Lemma steps_app h l h1 m h2 : steps h l h1 -> steps h1 m h2 -> steps h (l ++ m) h2.
  Proof using Type.
    induction 1 as [|h b h' l h'' S _ IH]; intros M; [exact M|]. rewrite <- app_assoc. econstructor; [exact S|now apply IH].
  Qed.
  Lemma steps_one h b : good h -> length b = 64%nat -> steps h b (block h b).
  Proof using Type.
    intros G L. assert (steps h (b ++ []) (block h b)) as S; [|now rewrite app_nil_r in S].
    econstructor; [split; [exact G|split; [exact L|reflexivity]]|constructor].
  Qed.
  Lemma steps_good h l h' : steps h l h' -> good h -> good h'.
  Proof using Type*. induction 1 as [|h b h1 l h2 (G & L & ->) _ IH]; intros Gh; [assumption|]. apply IH. now apply block_ok. Qed.
  Lemma steps_length h l h' : steps h l h' -> exists k, length l = (64 * k)%nat.
  Proof using Type. clear block_ok step. induction 1 as [|h b h1 l h2 (G & L & _) _ (k & IH)]; [exists O; reflexivity|]. exists (S k). rewrite app_length. lia. Qed.
  Lemma absorb_steps k : forall fuel h l, good h -> length l = (64 * k)%nat -> (k <= fuel)%nat -> steps h l (absorb block fuel h l).
  Proof using Type*.
    induction k as [|k IH]; intros fuel h l G L F.
    - destruct l; [|discriminate L]. replace (absorb block fuel h []) with h by (destruct fuel; reflexivity). constructor.
    - destruct fuel as [|fuel]; [lia|]. cbn [absorb]. destruct (Nat.leb_spec 64 (length l)) as [M|M]; [|lia].
      rewrite <- (firstn_skipn 64 l) at 1. assert (length (firstn 64 l) = 64%nat) as B by (rewrite firstn_length; lia).
      econstructor; [split; [exact G|split; [exact B|reflexivity]]|]. apply IH; [now apply block_ok|rewrite skipn_length; lia|lia].
  Qed.
  (** [d] has taken exactly the bytes [m]. *)
  Definition taken (iv : list N) (d : digest) (m : bytes) : Prop :=
    d_len d = N.of_nat (length m) mod 2 ^ 64 /\ (length (d_x d) < 64)%nat /\ exists f, m = f ++ d_x d /\ steps iv f (d_h d).
  Lemma bulk_steps iv h x p f : good iv -> steps iv f h -> (length x < 64)%nat -> x = [] \/ p = [] ->
    let (h', x') := bulk block h x p in (length x' < 64)%nat /\ exists f', f ++ x ++ p = f' ++ x' /\ steps iv f' h'.
  Proof using Type*.
    intros G S Lx [-> | ->].
    - unfold bulk. set (n := if Nat.leb 64 (length p) then (length p / 64 * 64)%nat else O).
      assert (exists k, n = (64 * k)%nat /\ (n <= length p)%nat /\ (length p - n < 64)%nat) as (k & En & Ln & Lr).
      { unfold n. destruct (Nat.leb_spec 64 (length p)) as [M|M]; [|exists O; lia]. exists (length p / 64)%nat.
        pose proof (Nat.div_mod (length p) 64 ltac:(discriminate)). pose proof (Nat.mod_upper_bound (length p) 64 ltac:(discriminate)). lia. }
      clearbody n. assert (steps iv (f ++ firstn n p) (absorb block (length p) h (firstn n p))) as T.
      { eapply steps_app; [exact S|]. apply (absorb_steps k); [eapply steps_good; eassumption|rewrite firstn_length; lia|lia]. }
      assert (length (skipn n p) < 64)%nat as Ls by (rewrite skipn_length; lia).
      pose proof (firstn_skipn n p) as E. destruct (skipn n p) as [|c r].
      + split; [cbn [length]; lia|]. exists (f ++ firstn n p). split; [|exact T]. cbn [app]. rewrite !app_nil_r in *. now rewrite E.
      + split; [exact Ls|]. exists (f ++ firstn n p). split; [|exact T]. cbn [app]. rewrite <- app_assoc. now rewrite E.
    - unfold bulk. cbn [length Nat.leb firstn skipn absorb]. split; [exact Lx|]. exists f. split; [now rewrite app_nil_r|exact S].
  Qed.
  Lemma write_taken iv d m p : good iv -> taken iv d m -> taken iv (write block d p) (m ++ p).
  Proof using Type*.
    intros G (El & Lx & f & -> & S). unfold write.
    assert (let '(h1, x1, p1) := fill block (d_h d) (d_x d) p in (length x1 < 64)%nat /\ (x1 = [] \/ p1 = []) /\
            exists f', (f ++ d_x d) ++ p = f' ++ x1 ++ p1 /\ steps iv f' h1) as Fl.
    { unfold fill. destruct (d_x d) as [|c x] eqn:Ex.
      - split; [cbn [length]; lia|]. split; [now left|]. exists f. split; [now rewrite app_nil_r|exact S].
      - rewrite <- Ex in *. clear Ex c x. set (x := d_x d) in *. set (n := Nat.min (64 - length x) (length p)). destruct (Nat.eqb_spec (length (x ++ firstn n p)) 64) as [E|E].
        + split; [cbn [length]; lia|]. split; [now left|]. exists (f ++ x ++ firstn n p). split.
          * cbn [app]. rewrite <- !app_assoc. now rewrite firstn_skipn.
          * eapply steps_app; [exact S|]. apply steps_one; [eapply steps_good; eassumption|exact E].
        + rewrite app_length, firstn_length in *. assert (n = length p) as N by lia. split; [lia|]. split; [right; rewrite N; apply skipn_all|].
          exists f. split; [|exact S]. rewrite <- !app_assoc. now rewrite firstn_skipn. }
    destruct (fill block (d_h d) (d_x d) p) as [[h1 x1] p1]. destruct Fl as (L1 & D1 & f' & E1 & S1).
    pose proof (bulk_steps iv h1 x1 p1 f' G S1 L1 D1) as B. destruct (bulk block h1 x1 p1) as [h2 x2]. destruct B as (L2 & f2 & E2 & S2).
    unfold taken. cbn [d_h d_x d_len]. split; [|split; [assumption|exists f2; split; [congruence|assumption]]].
    rewrite El, (app_length (f ++ d_x d)), Nat2N.inj_add. rewrite N.add_mod_idemp_l by discriminate. reflexivity.
  Qed.
  Context (put_len : N -> bytes) (put_len_length : forall x, length (put_len x) = 8%nat).
  Definition zeros (r : N) : nat := Nat.pred (N.to_nat (if r <? 56 then 56 - r else 120 - r)).
  Lemma check_sum_taken iv d m : good iv -> taken iv d m -> exists h, check_sum block put_len d = Ok h /\
    let p := m ++ (x80 :: repeat x00 (zeros (N.of_nat (length m) mod 64))) ++ put_len (N.of_nat (length m) mod 2 ^ 64 * 8 mod 2 ^ 64) in
    steps iv p h /\ Nat.modulo (length p) 64 = O.
  Proof using Type*.
    intros G T. unfold check_sum. pose proof (proj1 T) as El. rewrite El.
    assert (N.of_nat (length m) mod 2 ^ 64 mod 64 = N.of_nat (length m) mod 64) as ->.
    { change (2 ^ 64) with (64 * 2 ^ 58). rewrite N.mod_mul_r by discriminate. rewrite N.add_mod, N.mul_comm, N.mod_mul, N.add_0_r, !N.mod_mod by discriminate. reflexivity. }
    cbv zeta. fold (zeros (N.of_nat (length m) mod 64)).
    set (z := x80 :: repeat x00 (zeros (N.of_nat (length m) mod 64))).
    set (e := put_len (N.of_nat (length m) mod 2 ^ 64 * 8 mod 2 ^ 64)).
    pose proof (write_taken iv _ _ e G (write_taken iv d m z G T)) as W. rewrite <- app_assoc in W.
    assert (Nat.modulo (length (m ++ z ++ e)) 64 = O) as L.
    { rewrite !app_length. unfold z, e. cbn [length]. rewrite repeat_length, put_len_length. unfold zeros.
      assert (N.of_nat (length m) mod 64 = N.of_nat (Nat.modulo (length m) 64)) as -> by (rewrite Nat2N.inj_mod; reflexivity).
      pose proof (Nat.div_mod (length m) 64 ltac:(discriminate)) as D. pose proof (Nat.mod_upper_bound (length m) 64 ltac:(discriminate)) as U.
      set (r := Nat.modulo (length m) 64) in *. set (q := Nat.div (length m) 64) in *. rewrite D. destruct (N.ltb_spec (N.of_nat r) 56) as [C|C].
      - replace (64 * q + r + (S (Nat.pred (N.to_nat (56 - N.of_nat r))) + 8))%nat with ((q + 1) * 64)%nat by lia. now apply Nat.mod_mul.
      - replace (64 * q + r + (S (Nat.pred (N.to_nat (120 - N.of_nat r))) + 8))%nat with ((q + 2) * 64)%nat by lia. now apply Nat.mod_mul. }
    set (d2 := write block (write block d z) e) in *. destruct W as (_ & Lx & f & E & S).
    destruct (steps_length _ _ _ S) as (k & Lf).
    assert (d_x d2 = []) as X.
    { apply length_zero_iff_nil. rewrite E, app_length, Lf, Nat.mul_comm, Nat.add_comm, Nat.mod_add, Nat.mod_small in L by (lia || discriminate). exact L. }
    rewrite X. exists (d_h d2). split; [reflexivity|]. split; [|exact L]. rewrite X, app_nil_r in E. now rewrite E.
  Qed.
End Chaining.

(** ** Collisions *)
Section Collision.
  Context (block : list N -> bytes -> list N) (step : list N -> bytes -> list N -> Prop) (good : list N -> Prop).
  Context (block_ok : forall h b, good h -> length b = 64%nat -> step h b (block h b) /\ good (block h b)).
  Lemma blocks_dec (h h' : list N) (b b' : bytes) : (h, b) = (h', b') \/ (h, b) <> (h', b').
  Proof using Type.
    clear. destruct (list_eq_dec N.eq_dec h h') as [->|H]; [|right; congruence].
    destruct (list_eq_dec Byte.byte_eq_dec b b') as [->|B]; [now left|right; congruence].
  Qed.
  Lemma collide h b h' b' : good h -> good h' -> length b = 64%nat -> length b' = 64%nat -> block h b = block h' b' ->
    (h, b) = (h', b') \/ step_collision step.
  Proof using Type*.
    intros G G' L L' E. destruct (blocks_dec h h' b b') as [D|D]; [now left|]. right. exists h, b, h', b', (block h b).
    split; [now apply block_ok|]. split; [rewrite E; now apply block_ok|assumption].
  Qed.
  Lemma steps_inv h l o : steps block good h l o ->
    (l = [] /\ o = h) \/ exists b r, l = b ++ r /\ good h /\ length b = 64%nat /\ steps block good (block h b) r o.
  Proof using Type. intros [h0|h0 b h1 r h2 (G & L & ->) S]; [now left|]. right. exists b, r. auto. Qed.
  Lemma same_length h l o : steps block good h l o -> forall h' l', steps block good h' l' o -> length l = length l' ->
    (h, l) = (h', l') \/ step_collision step.
  Proof using Type*.
    induction 1 as [o|h b h1 l o (G & L & ->) _ IH]; intros h' l' S' E.
    - destruct (steps_inv _ _ _ S') as [(-> & ->) | (b' & r & -> & _ & L' & _)]; [now left|]. rewrite app_length in E. cbn [length] in E. lia.
    - destruct (steps_inv _ _ _ S') as [(-> & ->) | (b' & r & -> & G' & L' & S'')]; [rewrite app_length in E; cbn [length] in E; lia|].
      rewrite !app_length in E. destruct (IH _ _ S'' ltac:(lia)) as [D|D]; [|now right]. injection D as D ->.
      destruct (collide h b h' b' G G' L L' D) as [C|C]; [left; now injection C as -> ->|now right].
  Qed.
  Lemma last_block h l o : steps block good h l o -> l <> [] ->
    exists f b s, l = f ++ b /\ length b = 64%nat /\ good s /\ o = block s b.
  Proof using Type.
    induction 1 as [o|h b h1 l o (G & L & ->) S IH]; intros N; [congruence|].
    destruct l as [|c l].
    - destruct (steps_inv _ _ _ S) as [(_ & ->) | (b' & r & E & _ & L' & _)].
      + exists [], b, h. now rewrite app_nil_r.
      + destruct b'; [discriminate L'|discriminate E].
    - destruct IH as (f & b' & s & E & L' & G' & O); [discriminate|]. exists (b ++ f), b', s. rewrite E, app_assoc. auto.
  Qed.
  (** Different last 8 bytes. *)
  Lemma other_end h l e o h' l' e' : steps block good h (l ++ e) o -> steps block good h' (l' ++ e') o -> length e = 8%nat -> length e' = 8%nat ->
    e <> e' -> step_collision step.
  Proof using Type*.
    intros S S' L L' N.
    destruct (last_block _ _ _ S) as (f & b & s & E & Lb & G & O); [destruct l; [destruct e; discriminate|discriminate]|].
    destruct (last_block _ _ _ S') as (f' & b' & s' & E' & Lb' & G' & O'); [destruct l'; [destruct e'; discriminate|discriminate]|].
    destruct (collide s b s' b' G G' Lb Lb' ltac:(congruence)) as [C|C]; [|assumption]. exfalso. apply N. injection C as _ <-.
    assert (forall (u v w x : bytes), u ++ v = w ++ x -> length v = 8%nat -> length x = 64%nat -> v = skipn 56 x) as K.
    { clear. intros u v w x E V X. assert (length u = length w + 56)%nat as U by (apply (f_equal (@length byte)) in E; rewrite !app_length in E; lia).
      apply (f_equal (skipn (length u))) in E. rewrite skipn_app, skipn_all, Nat.sub_diag in E. cbn [app skipn] in E. rewrite E, skipn_app, U.
      rewrite skipn_all2 by lia. cbn [app]. f_equal. lia. }
    rewrite (K _ _ _ _ E L Lb). symmetry. exact (K _ _ _ _ E' L' Lb).
  Qed.
End Collision.

(** ** The padded data *)
Definition padding (put_len : N -> bytes) (m : bytes) : bytes :=
  (x80 :: repeat x00 (zeros (N.of_nat (length m) mod 64))) ++ put_len (N.of_nat (length m) mod 2 ^ 64 * 8 mod 2 ^ 64).
Lemma sum_steps (block : list N -> bytes -> list N) (step : list N -> bytes -> list N -> Prop) (good : list N -> Prop) (put_len : N -> bytes) iv m :
  (forall h b, good h -> length b = 64%nat -> step h b (block h b) /\ good (block h b)) -> (forall x, length (put_len x) = 8%nat) -> good iv ->
  exists h, check_sum block put_len (write block (Digest iv [] 0) m) = Ok h /\ steps block good iv (m ++ padding put_len m) h /\
    good h /\ Nat.modulo (length (m ++ padding put_len m)) 64 = O.
Proof.
  intros B L G. assert (taken block good iv (write block (Digest iv [] 0) m) m) as T.
  { apply (write_taken block step good B iv (Digest iv [] 0) [] m G). split; [reflexivity|]. split; [cbn; lia|]. exists []. split; [reflexivity|constructor]. }
  destruct (check_sum_taken block step good B put_len L iv _ m G T) as (h & E & S & M). exists h. repeat split; try assumption.
  eapply (steps_good block step good B); [exact S|exact G].
Qed.
Lemma small_length (m : bytes) : 8 * N.of_nat (length m) < 2 ^ 64 -> N.of_nat (length m) mod 2 ^ 64 * 8 mod 2 ^ 64 = 8 * N.of_nat (length m).
Proof.
  generalize (N.of_nat (length m)). change (2 ^ 64) with 18446744073709551616. intros n H.
  rewrite (N.mod_small n) by lia. rewrite N.mod_small by lia. lia.
Qed.
Lemma zeros_small n : (zeros (n mod 64) < 64)%nat.
Proof. unfold zeros. pose proof (N.mod_lt n 64 ltac:(discriminate)). destruct (N.ltb_spec (n mod 64) 56); lia. Qed.
Lemma padding_ok (put_len lf : N -> bytes) m : (forall x, lf x = put_len x) -> 8 * N.of_nat (length m) < 2 ^ 64 -> Nat.modulo (length (m ++ padding put_len m)) 64 = O ->
  is_padded lf m (m ++ padding put_len m).
Proof.
  intros E L M. exists (zeros (N.of_nat (length m) mod 64)). split; [apply zeros_small|]. split; [|assumption].
  unfold padding. rewrite small_length, E by assumption. reflexivity.
Qed.
Lemma padded_unique lf m p p' : is_padded lf m p -> is_padded lf m p' -> p = p'.
Proof.
  intros (k & K & -> & M) (k' & K' & -> & M'). assert (k = k') as ->; [|reflexivity].
  rewrite !app_length in *. cbn [length] in *. rewrite !app_length, !repeat_length in *.
  set (e := length (lf _)) in *. set (n := length m) in *. clearbody e n.
  pose proof (Nat.div_mod (n + S (k + e)) 64 ltac:(discriminate)). pose proof (Nat.div_mod (n + S (k' + e)) 64 ltac:(discriminate)). lia.
Qed.

(** ** The specification determines the sums *)
Lemma chain_unique (step : list N -> bytes -> list N -> Prop) : (forall h b o, step h b o -> length b = 64%nat) -> (forall h b o o', step h b o -> step h b o' -> o = o') ->
  forall h l o, chain step h l o -> forall o', chain step h l o' -> o = o'.
Proof.
  intros L U h l o. induction 1 as [h|h b h1 l o S _ IH]; intros o' C.
  - remember [] as l eqn:E. destruct C as [h|h b h1 r o' S C]; [reflexivity|]. exfalso. apply L in S. destruct b; discriminate.
  - remember (b ++ l) as m eqn:E. destruct C as [h|h b' h1' r o' S' C].
    + exfalso. apply L in S. destruct b; discriminate.
    + assert (b' = b /\ r = l) as (-> & ->).
      { pose proof (L _ _ _ S). pose proof (L _ _ _ S'). split.
        - apply (f_equal (firstn 64)) in E. now rewrite !firstn_app_exact in E by congruence.
        - apply (f_equal (skipn 64)) in E. now rewrite !skipn_app_exact in E by congruence. }
      rewrite (U _ _ _ _ S' S) in C. now apply IH.
Qed.
Lemma sha_step_unique k h b o o' : is_sha_step k h b o -> is_sha_step k h b o' -> o = o'.
Proof.
  intros (_ & _ & _ & W & s & W1 & W2 & S0 & S1 & Lo & O) (_ & _ & _ & W' & s' & W1' & W2' & S0' & S1' & Lo' & O').
  assert (forall t, (t < 64)%nat -> W t = W' t) as EW.
  { intros t. induction t as [t IH] using (well_founded_induction lt_wf). intros T. destruct (Nat.lt_ge_cases t 16) as [C|C].
    - now rewrite W1, W1'.
    - rewrite W2, W2' by lia. now rewrite !IH by lia. }
  assert (forall t, (t <= 64)%nat -> s t = s' t) as ES.
  { induction t as [|t IH]; intros T; [congruence|]. destruct (S1 t ltac:(lia)) as (a & b1 & c & d & e & f & g & h1 & E & R).
    destruct (S1' t ltac:(lia)) as (a' & b1' & c' & d' & e' & f' & g' & h1' & E' & R').
    rewrite <- IH in E' by lia. rewrite E in E'. injection E' as <- <- <- <- <- <- <- <-. rewrite R, R', EW by lia. reflexivity. }
  apply (nth_ext _ _ 0 0); [congruence|]. rewrite Lo. intros i L. now rewrite O, O', ES by (assumption || lia).
Qed.
Lemma md5_step_unique T h b o o' : is_md5_step T h b o -> is_md5_step T h b o' -> o = o'.
Proof.
  intros (_ & _ & _ & r & R0 & R1 & Lo & O) (_ & _ & _ & r' & R0' & R1' & Lo' & O').
  assert (forall t, (t <= 64)%nat -> r t = r' t) as ER.
  { induction t as [|t IH]; intros L; [congruence|]. destruct (nth_error md5_operations t) as [[f [k s]]|] eqn:E.
    - destruct (R1 _ _ _ _ E) as (a & b1 & c & d & E1 & R). destruct (R1' _ _ _ _ E) as (a' & b1' & c' & d' & E1' & R').
      rewrite <- IH in E1' by lia. rewrite E1 in E1'. injection E1' as <- <- <- <-. congruence.
    - exfalso. apply nth_error_None in E. change (length md5_operations) with 64%nat in E. lia. }
  apply (nth_ext _ _ 0 0); [congruence|]. rewrite Lo. intros i L. now rewrite O, O', ER by (assumption || lia).
Qed.
Lemma root_unique e p k k' : e <> 0 -> is_root_fraction e p k -> is_root_fraction e p k' -> k = k'.
Proof.
  intros E (W & i & A & B) (W' & i' & A' & B'). unfold is_word in *.
  assert (forall x y, x ^ e <= Z.to_N p * 2 ^ (32 * e) -> Z.to_N p * 2 ^ (32 * e) < (y + 1) ^ e -> x <= y) as M.
  { intros x y X Y. assert (x ^ e < (y + 1) ^ e) as C by lia. apply N.pow_lt_mono_l_iff in C; [lia|assumption]. }
  pose proof (M _ _ A B'). pose proof (M _ _ A' B). lia.
Qed.
Lemma sorted_same (a : list Z) : forall b, StronglySorted Z.lt a -> StronglySorted Z.lt b -> (forall x, In x a <-> In x b) -> a = b.
Proof.
  induction a as [|x a IH]; intros [|y b] A B H.
  - reflexivity.
  - exfalso. apply (proj2 (H y)). now left.
  - exfalso. apply (proj1 (H x)). now left.
  - inv A. inv B. rewrite Forall_forall in *.
    assert (x = y) as ->.
    { destruct (proj1 (H x) (or_introl eq_refl)) as [->|I]; [reflexivity|]. destruct (proj2 (H y) (or_introl eq_refl)) as [->|J]; [reflexivity|].
      match goal with P : forall z, In z a -> (x < z)%Z, Q : forall z, In z b -> (y < z)%Z |- _ => specialize (P _ J); specialize (Q _ I); lia end. }
    f_equal. apply IH; [assumption|assumption|]. intros z. split; intros Hz.
    + destruct (proj1 (H z) (or_intror Hz)) as [<-|I]; [|assumption]. exfalso. match goal with P : forall z, In z a -> (y < z)%Z |- _ => specialize (P _ Hz); lia end.
    + destruct (proj2 (H z) (or_intror Hz)) as [<-|I]; [|assumption]. exfalso. match goal with P : forall z, In z b -> (y < z)%Z |- _ => specialize (P _ Hz); lia end.
Qed.
Lemma last_max ps x : StronglySorted Z.lt ps -> In x ps -> (x <= last ps 0)%Z.
Proof.
  induction 1 as [|y ps S IH F]; intros I; [destruct I|]. destruct ps as [|z ps]; [destruct I as [->|[]]; cbn; lia|].
  change (last (y :: z :: ps) 0%Z) with (last (z :: ps) 0%Z). destruct I as [->|I]; [|now apply IH].
  rewrite Forall_forall in F.
  assert (In (last (z :: ps) 0%Z) (z :: ps)) as J.
  { clear. revert z. induction ps as [|w ps IH]; intros z; [now left|]. right. apply IH. }
  specialize (F _ J). lia.
Qed.
Lemma sorted_nodup (ps : list Z) : StronglySorted Z.lt ps -> NoDup ps.
Proof. induction 1 as [|y ps S IH F]; constructor; [|assumption]. intros I. rewrite Forall_forall in F. specialize (F _ I). lia. Qed.
Lemma primes_unique n ps ps' : first_primes n ps -> first_primes n ps' -> ps = ps'.
Proof.
  assert (forall a b, first_primes n a -> first_primes n b -> (last a 0 <= last b 0)%Z -> a = b) as K.
  { intros a b (La & Sa & Pa) (Lb & Sb & Pb) M. apply sorted_same; [assumption|assumption|].
    assert (incl a b) as I.
    { intros x X. apply Pb; [pose proof (last_max a x Sa X); lia|]. apply Pa; [now apply last_max|assumption]. }
    intros x. split; [apply I|]. apply (NoDup_length_incl (l := a) (l' := b)); [now apply sorted_nodup|lia|assumption]. }
  intros P P'. destruct (Z.le_ge_cases (last ps 0%Z) (last ps' 0%Z)); [now apply K|symmetry; now apply K].
Qed.
Lemma roots_unique e ps : e <> 0 -> forall k k', Forall2 (is_root_fraction e) ps k -> Forall2 (is_root_fraction e) ps k' -> k = k'.
Proof.
  intros E. induction ps as [|p ps IH]; intros k k' F F'; inv F; inv F'; [reflexivity|]. f_equal; [eapply root_unique; eassumption|now apply IH].
Qed.
Lemma constants_unique iv k iv' k' : is_sha_constants iv k -> is_sha_constants iv' k' -> iv = iv' /\ k = k'.
Proof.
  intros (ps & P & I & K) (ps' & P' & I' & K'). rewrite (primes_unique _ _ _ P' P) in *.
  split; [exact (roots_unique 2 _ ltac:(discriminate) _ _ I I')|exact (roots_unique 3 _ ltac:(discriminate) _ _ K K')].
Qed.
Lemma sha256_unique m d d' : is_sha256 m d -> is_sha256 m d' -> d = d'.
Proof.
  intros (iv & k & p & H & C & P & R & ->) (iv' & k' & p' & H' & C' & P' & R' & ->).
  destruct (constants_unique _ _ _ _ C C') as (<- & <-). rewrite (padded_unique _ _ _ _ P' P) in R'.
  enough (H = H') as -> by reflexivity. eapply (chain_unique (is_sha_step k)); [now intros ? ? ? (L & _)| |exact R|exact R'].
  intros. eapply sha_step_unique; eassumption.
Qed.
Lemma md5_unique T m d d' : is_md5 T m d -> is_md5 T m d' -> d = d'.
Proof.
  intros (p & H & P & R & ->) (p' & H' & P' & R' & ->). rewrite (padded_unique _ _ _ _ P' P) in R'.
  enough (H = H') as -> by reflexivity. eapply (chain_unique (is_md5_step T)); [now intros ? ? ? (L & _)| |exact R|exact R'].
  intros. eapply md5_step_unique; eassumption.
Qed.
(** What follows complete blocks is chained from where they lead. *)
Lemma chain_drop (step : list N -> bytes -> list N -> Prop) k : (forall h b o, step h b o -> length b = 64%nat) ->
  (forall h b o o', step h b o -> step h b o' -> o = o') ->
  forall h w h1, length w = (64 * k)%nat -> chain step h w h1 -> forall t o, chain step h (w ++ t) o -> chain step h1 t o.
Proof.
  intros L U. induction k as [|k IH]; intros h w h1 Lw C t o D.
  - destruct w; [|discriminate Lw]. remember [] as l eqn:E. destruct C as [h|h b h2 r h1 S C]; [exact D|]. apply L in S. destruct b; discriminate.
  - destruct C as [h|h b h2 r h1 S C]; [cbn in Lw; lia|]. rewrite <- app_assoc in D. pose proof (L _ _ _ S) as Lb. rewrite app_length in Lw.
    remember (b ++ r ++ t) as l eqn:E. destruct D as [h|h b' h2' r' o S' D].
    + destruct b; discriminate.
    + pose proof (L _ _ _ S') as Lb'. assert (b' = b /\ r' = r ++ t) as (-> & ->).
      { split.
        - apply (f_equal (firstn 64)) in E. now rewrite !firstn_app_exact in E by congruence.
        - apply (f_equal (skipn 64)) in E. now rewrite !skipn_app_exact in E by congruence. }
      rewrite (U _ _ _ _ S' S) in D. exact (IH h2 r h1 ltac:(lia) C t o D).
Qed.
