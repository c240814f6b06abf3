(** * Proofs about big-endian conversions. *)
From Coq Require Import List NArith ZArith Bool Lia.
From Coq Require Import Strings.Byte.
From Verif Require Import Base BaseProofs CmpSpec EndianModel.
Import ListNotations.
Local Open Scope N_scope.

Lemma be_put_length k x : length (be_put k x) = k.
Proof. induction k; simpl; auto. Qed.

Lemma be_get_acc l a :
  fold_left (fun acc b => acc * 256 + b2n b) l a = a * 256 ^ N.of_nat (length l) + be_get l.
Proof.
  unfold be_get. revert a. induction l as [|b l IH]; intros a.
  - simpl. lia.
  - cbn [fold_left length]. rewrite IH, (IH (0 * 256 + b2n b)).
    rewrite Nat2N.inj_succ, N.pow_succ_r'. lia.
Qed.

Lemma be_get_cons b l : be_get (b :: l) = b2n b * 256 ^ N.of_nat (length l) + be_get l.
Proof. unfold be_get at 1. cbn [fold_left]. rewrite be_get_acc. lia. Qed.

Lemma be_get_nil : be_get [] = 0.
Proof. reflexivity. Qed.

Lemma be_get_app l m : be_get (l ++ m) = be_get l * 256 ^ N.of_nat (length m) + be_get m.
Proof. unfold be_get at 1. rewrite fold_left_app, be_get_acc. reflexivity. Qed.

Lemma be_get_bound l : be_get l < 256 ^ N.of_nat (length l).
Proof.
  induction l as [|b l IH].
  - reflexivity.
  - rewrite be_get_cons. cbn [length]. rewrite Nat2N.inj_succ, N.pow_succ_r'.
    pose proof (b2n_bound b). nia.
Qed.

Lemma pow256 k : 256 ^ k = 2 ^ (8 * k).
Proof. rewrite N.pow_mul_r. reflexivity. Qed.

Lemma be_get_put k x : be_get (be_put k x) = x mod 256 ^ N.of_nat k.
Proof.
  induction k as [|k IH].
  - simpl. now rewrite N.mod_1_r.
  - cbn [be_put]. rewrite be_get_cons, be_put_length, IH, b2n_n2b.
    rewrite N.shiftr_div_pow2, <- pow256.
    rewrite Nat2N.inj_succ, N.pow_succ_r'.
    rewrite (N.mul_comm 256), N.mod_mul_r.
    + lia.
    + apply N.pow_nonzero. lia.
    + lia.
Qed.

Lemma be_put_mod k x y : x mod 256 ^ N.of_nat k = y mod 256 ^ N.of_nat k -> be_put k x = be_put k y.
Proof.
  revert x y. induction k as [|k IH]; intros x y H; [reflexivity|].
  cbn [be_put].
  rewrite Nat2N.inj_succ, N.pow_succ_r', (N.mul_comm 256) in H.
  rewrite !N.mod_mul_r in H by (try apply N.pow_nonzero; lia).
  set (m := 256 ^ N.of_nat k) in *.
  assert (0 < m) by (unfold m; pose proof (N.pow_nonzero 256 (N.of_nat k)); lia).
  assert (x mod m < m) by (apply N.mod_upper_bound; lia).
  assert (y mod m < m) by (apply N.mod_upper_bound; lia).
  assert ((x / m) mod 256 = (y / m) mod 256 /\ x mod m = y mod m) as [E2 E1].
  { apply (N.div_mod_unique m); [assumption|assumption|]. rewrite !(N.add_comm (m * _)). exact H. }
  f_equal.
  - apply b2n_inj. rewrite !b2n_n2b, !N.shiftr_div_pow2, <- pow256. exact E2.
  - apply IH. exact E1.
Qed.

Lemma be_get_inj l m : length l = length m -> be_get l = be_get m -> l = m.
Proof.
  revert m. induction l as [|a l IH]; intros [|b m] Hl H; simpl in Hl; try lia; [reflexivity|].
  rewrite !be_get_cons in H.
  assert (length l = length m) as Hl' by lia. rewrite Hl' in H.
  pose proof (be_get_bound l) as B1. rewrite Hl' in B1.
  pose proof (be_get_bound m).
  assert (b2n a = b2n b /\ be_get l = be_get m) as [E1 E2].
  { apply (N.div_mod_unique (256 ^ N.of_nat (length m))); [assumption|assumption|].
    rewrite !(N.mul_comm (256 ^ _)). exact H. }
  f_equal; [now apply b2n_inj|now apply IH].
Qed.

Lemma be_put_get l : be_put (length l) (be_get l) = l.
Proof.
  apply be_get_inj; [apply be_put_length|].
  rewrite be_get_put. apply N.mod_small. apply be_get_bound.
Qed.

Lemma be_put_inj k x y : x < 256 ^ N.of_nat k -> y < 256 ^ N.of_nat k -> be_put k x = be_put k y -> x = y.
Proof.
  intros Hx Hy H. apply (f_equal be_get) in H. rewrite !be_get_put in H.
  now rewrite !N.mod_small in H.
Qed.

Lemma be_get_lex l m : length l = length m -> (be_get l < be_get m <-> lex_lt byte_lt l m).
Proof.
  revert m. induction l as [|a l IH]; intros [|b m] Hl; simpl in Hl; try lia.
  - split; [simpl; lia|inversion 1].
  - rewrite !be_get_cons. assert (length l = length m) as Hl' by lia. rewrite Hl'.
    pose proof (be_get_bound l) as B1. rewrite Hl' in B1.
    pose proof (be_get_bound m) as B2.
    specialize (IH m Hl').
    split.
    + intros H. destruct (N.lt_trichotomy (b2n a) (b2n b)) as [C|[C|C]].
      * constructor 2. exact C.
      * apply b2n_inj in C. subst. constructor 3. apply IH. lia.
      * nia.
    + intros H. inversion H; subst.
      * unfold byte_lt in *. fold (b2n a) in *. fold (b2n b) in *. nia.
      * apply IH in H1. lia.
Qed.

Lemma be_read_put_app k x suf : be_read k (be_put k x ++ suf) = Ok (x mod 256 ^ N.of_nat k).
Proof.
  unfold be_read. rewrite app_length, be_put_length.
  destruct (Nat.ltb_spec (k + length suf) k); [lia|].
  rewrite firstn_app_exact by now rewrite be_put_length. now rewrite be_get_put.
Qed.

Lemma uint64_of_int64_bound z : uint64_of_int64 z < 2 ^ 64.
Proof. unfold uint64_of_int64. pose proof (Z.mod_pos_bound z (2^64)). lia. Qed.

Lemma int64_of_uint64_of_int64 z : (- 2 ^ 63 <= z < 2 ^ 63)%Z -> int64_of_uint64 (uint64_of_int64 z) = z.
Proof.
  intros H. unfold int64_of_uint64, uint64_of_int64.
  pose proof (Z.mod_pos_bound z (2^64)).
  rewrite Z2N.id by lia. unfold wrap_int64.
  rewrite Zplus_mod_idemp_l. rewrite Z.mod_small; lia.
Qed.

Lemma int64_uint64_small n : n < 2 ^ 63 -> int64_of_uint64 n = Z.of_N n.
Proof. intros H. apply wrap_int64_id. lia. Qed.

Lemma int32_of_uint32_of_int32 z : (- 2 ^ 31 <= z < 2 ^ 31)%Z -> int32_of_uint32 (uint32_of_int32 z) = z.
Proof.
  intros H. unfold int32_of_uint32, uint32_of_int32.
  pose proof (Z.mod_pos_bound z (2^32)).
  rewrite Z2N.id by lia. rewrite Zplus_mod_idemp_l. rewrite Z.mod_small; lia.
Qed.

Lemma pow256_8 : 256 ^ N.of_nat 8 = 2 ^ 64. Proof. reflexivity. Qed.
Lemma pow256_4 : 256 ^ N.of_nat 4 = 2 ^ 32. Proof. reflexivity. Qed.

Lemma int64_roundtrip i suf : (- 2 ^ 63 <= i < 2 ^ 63)%Z -> bytes_to_int64 (int64_to_bytes i ++ suf) = i.
Proof.
  intros H. unfold bytes_to_int64, int64_to_bytes.
  rewrite app_length, be_put_length.
  destruct (Nat.ltb_spec (8 + length suf) 8); [lia|].
  rewrite firstn_app_exact by now rewrite be_put_length.
  rewrite be_get_put, pow256_8, N.mod_small by apply uint64_of_int64_bound.
  now apply int64_of_uint64_of_int64.
Qed.

Lemma int32_roundtrip i suf : (- 2 ^ 31 <= i < 2 ^ 31)%Z -> bytes_to_int32 (int32_to_bytes i ++ suf) = i.
Proof.
  intros H. unfold bytes_to_int32, int32_to_bytes.
  rewrite app_length, be_put_length.
  destruct (Nat.ltb_spec (4 + length suf) 4); [lia|].
  rewrite firstn_app_exact by now rewrite be_put_length.
  assert (uint32_of_int32 i < 2 ^ 32).
  { unfold uint32_of_int32. pose proof (Z.mod_pos_bound i (2^32)). lia. }
  rewrite be_get_put, pow256_4, N.mod_small by assumption.
  now apply int32_of_uint32_of_int32.
Qed.

Lemma uint32_roundtrip x suf : x < 2 ^ 32 -> bytes_to_uint32 (uint32_to_bytes x ++ suf) = x.
Proof.
  intros H. unfold bytes_to_uint32, uint32_to_bytes.
  rewrite app_length, be_put_length.
  destruct (Nat.ltb_spec (4 + length suf) 4); [lia|].
  rewrite firstn_app_exact by now rewrite be_put_length.
  rewrite be_get_put, pow256_4. rewrite !N.mod_small; auto. now rewrite N.mod_small.
Qed.

Lemma int64_bytes_inv buf : length buf = 8%nat -> int64_to_bytes (bytes_to_int64 buf) = buf.
Proof.
  intros H. unfold bytes_to_int64, int64_to_bytes. rewrite H. change (Nat.ltb 8 8) with false. cbv iota.
  rewrite firstn_all2 by lia.
  rewrite <- (be_put_get buf) at 2. rewrite H.
  apply be_put_mod. rewrite pow256_8.
  unfold uint64_of_int64, int64_of_uint64, wrap_int64.
  pose proof (be_get_bound buf) as B. rewrite H, pow256_8 in B.
  rewrite Zminus_mod_idemp_l.
  replace (Z.of_N (be_get buf) + 2 ^ 63 - 2 ^ 63)%Z with (Z.of_N (be_get buf)) by lia.
  rewrite Z.mod_small by lia. now rewrite N2Z.id.
Qed.

Lemma int64_order i j : (0 <= i < 2 ^ 63)%Z -> (0 <= j < 2 ^ 63)%Z ->
  (lex_lt byte_lt (int64_to_bytes i) (int64_to_bytes j) <-> (i < j)%Z).
Proof.
  intros Hi Hj. unfold int64_to_bytes.
  rewrite <- be_get_lex by now rewrite !be_put_length.
  rewrite !be_get_put, pow256_8.
  rewrite !N.mod_small by apply uint64_of_int64_bound.
  unfold uint64_of_int64. rewrite !Z.mod_small by lia. lia.
Qed.

Lemma uint32_order i j : i < 2 ^ 32 -> j < 2 ^ 32 ->
  (lex_lt byte_lt (uint32_to_bytes i) (uint32_to_bytes j) <-> i < j).
Proof.
  intros Hi Hj. unfold uint32_to_bytes.
  rewrite <- be_get_lex by now rewrite !be_put_length.
  rewrite !be_get_put, pow256_4.
  rewrite !N.mod_small by (try assumption; rewrite N.mod_small by assumption; assumption). reflexivity.
Qed.

Lemma time_roundtrip t suf : (- 2 ^ 63 <= t < 2 ^ 63)%Z -> bytes_to_time (time_to_bytes t ++ suf) = Ok t.
Proof.
  intros H. unfold bytes_to_time, time_to_bytes.
  rewrite app_length, be_put_length.
  destruct (Nat.ltb_spec (8 + length suf) 8); [lia|].
  unfold go_upto. rewrite zlen_app. pose proof (zlen_nonneg suf).
  assert (zlen (be_put 8 (uint64_of_int64 (unix_nano t))) = 8%Z) as E by (unfold zlen; now rewrite be_put_length).
  rewrite E. destruct ((0 <=? 8) && (8 <=? 8 + zlen suf))%Z eqn:E2; [|lia].
  cbn [rbind]. rewrite firstn_app_exact by now rewrite be_put_length.
  rewrite <- (app_nil_r (be_put 8 _)), be_read_put_app. cbn [rbind].
  unfold int64_to_time, unix_nano. rewrite wrap_int64_id by lia.
  rewrite pow256_8, N.mod_small by apply uint64_of_int64_bound.
  now rewrite int64_of_uint64_of_int64.
Qed.

Lemma bytes_to_time_spec buf :
  (length buf < 8)%nat /\ bytes_to_time buf = Err \/
  (8 <= length buf)%nat /\ exists t, bytes_to_time buf = Ok t /\ (- 2 ^ 63 <= t < 2 ^ 63)%Z /\ time_to_bytes t = firstn 8 buf.
Proof.
  unfold bytes_to_time. destruct (Nat.ltb_spec (length buf) 8) as [H|H]; [now left|right].
  split; [assumption|].
  unfold go_upto. destruct ((0 <=? 8) && (8 <=? zlen buf))%Z eqn:E; [|unfold zlen in *; lia].
  cbn [rbind]. change (Z.to_nat 8) with 8%nat.
  unfold be_read. assert (length (firstn 8 buf) = 8%nat) as L by (rewrite firstn_length; lia).
  rewrite L. destruct (Nat.ltb_spec 8 8); [lia|]. cbn [rbind].
  rewrite firstn_firstn. change (Nat.min 8 8) with 8%nat.
  eexists. split; [reflexivity|]. unfold int64_to_time. split.
  - apply wrap_int64_range.
  - unfold time_to_bytes, unix_nano.
    rewrite wrap_int64_id by apply wrap_int64_range.
    pose proof (int64_bytes_inv (firstn 8 buf) L) as I.
    unfold int64_to_bytes, bytes_to_int64 in I. rewrite L in I. change (Nat.ltb 8 8) with false in I. cbv iota in I.
    rewrite firstn_firstn in I. exact I.
Qed.

(** Big integers. *)
Lemma size_bound n : n < 256 ^ ((N.size n + 7) / 8).
Proof.
  rewrite pow256. eapply N.lt_le_trans; [apply N.size_gt|].
  apply N.pow_le_mono_r; [lia|].
  pose proof (N.div_mod (N.size n + 7) 8). pose proof (N.mod_upper_bound (N.size n + 7) 8). lia.
Qed.

Lemma big_bytes_value d : be_get (big_bytes d) = Z.abs_N d.
Proof.
  unfold big_bytes. rewrite be_get_put, N2Nat.id. apply N.mod_small. apply size_bound.
Qed.

Lemma repeat_zero_value k l : be_get (repeat x00 k ++ l) = be_get l.
Proof.
  rewrite be_get_app. assert (be_get (repeat x00 k) = 0) as ->.
  { induction k; [reflexivity|]. cbn [repeat]. rewrite be_get_cons, IHk. reflexivity. }
  lia.
Qed.

Lemma big_to_bytes_length d : length (big_to_bytes d) = 32%nat.
Proof.
  unfold big_to_bytes. destruct (Nat.eqb_spec (length (big_bytes d)) 32) as [E|E]; [assumption|].
  destruct (Nat.ltb_spec 32 (length (big_bytes d))) as [F|F].
  - rewrite skipn_length. lia.
  - rewrite app_length, repeat_length. lia.
Qed.

Lemma skipn_value j l : (j <= length l)%nat -> be_get (skipn j l) = be_get l mod 256 ^ N.of_nat (length l - j).
Proof.
  intros H. rewrite <- (firstn_skipn j l) at 2. rewrite be_get_app, skipn_length.
  rewrite N.add_comm, N.mod_add by (apply N.pow_nonzero; lia).
  rewrite N.mod_small; [reflexivity|].
  pose proof (be_get_bound (skipn j l)) as B. rewrite skipn_length in B. exact B.
Qed.

Lemma big_to_bytes_value d : be_get (big_to_bytes d) = Z.abs_N d mod 2 ^ 256.
Proof.
  assert (2 ^ 256 = 256 ^ N.of_nat 32) as P by reflexivity.
  unfold big_to_bytes. destruct (Nat.eqb_spec (length (big_bytes d)) 32) as [E|E].
  - rewrite <- big_bytes_value, P, N.mod_small; [reflexivity|].
    pose proof (be_get_bound (big_bytes d)) as B. now rewrite E in B.
  - destruct (Nat.ltb_spec 32 (length (big_bytes d))) as [F|F].
    + rewrite skipn_value by lia.
      replace (length (big_bytes d) - (length (big_bytes d) - 32))%nat with 32%nat by lia.
      now rewrite big_bytes_value, P.
    + rewrite repeat_zero_value, <- big_bytes_value, N.mod_small; [reflexivity|].
      eapply N.lt_le_trans; [apply be_get_bound|]. rewrite P. apply N.pow_le_mono_r; lia.
Qed.

Lemma big_roundtrip_gen d : bytes_to_big (big_to_bytes d) = (Z.abs d mod 2 ^ 256)%Z.
Proof.
  unfold bytes_to_big. rewrite big_to_bytes_value, N2Z.inj_mod, N2Z.inj_abs_N. reflexivity.
Qed.

Lemma big_roundtrip d : (0 <= d < 2 ^ 256)%Z -> bytes_to_big (big_to_bytes d) = d.
Proof. intros H. rewrite big_roundtrip_gen. rewrite Z.abs_eq, Z.mod_small; lia. Qed.

Lemma big_bytes_roundtrip l : length l = 32%nat -> big_to_bytes (bytes_to_big l) = l.
Proof.
  intros H. apply be_get_inj; [now rewrite big_to_bytes_length|].
  rewrite big_to_bytes_value. unfold bytes_to_big. rewrite Zabs2N.id.
  apply N.mod_small. pose proof (be_get_bound l) as B. rewrite H in B. exact B.
Qed.
