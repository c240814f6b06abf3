(** * Proofs about base58. *)
From Coq Require Import List NArith ZArith Bool Lia.
From Coq Require Import Strings.Byte.
From Verif Require Import Base BaseProofs EndianModel EndianProofs Base58Model Base58Spec.
Import ListNotations.
Local Open Scope N_scope.

(** ** Characters *)
Lemma alphabet_eq : b58_alphabet = base58_chars.
Proof. reflexivity. Qed.

Lemma lookup_char c : b58_lookup c = 255 \/ (b58_lookup c < 58 /\ is_digit c (b58_lookup c)).
Proof. destruct c; vm_compute; auto. Qed.

Lemma digit_lt c d : is_digit c d -> d < 58.
Proof.
  unfold is_digit. intros H. assert (N.to_nat d < length base58_chars)%nat as L by (apply nth_error_Some; congruence).
  change (length base58_chars) with 58%nat in L. lia.
Qed.

Lemma nth_lookup : forallb (fun i => match nth_error base58_chars i with
                                     | Some c => b58_lookup c =? N.of_nat i | None => false end) (seq 0 58) = true.
Proof. vm_compute. reflexivity. Qed.

Lemma digit_lookup c d : is_digit c d <-> b58_lookup c = d /\ d <> 255.
Proof.
  split.
  - intros H. pose proof (digit_lt _ _ H) as L.
    pose proof (proj1 (forallb_forall _ _) nth_lookup (N.to_nat d)) as F.
    cbv beta in F. unfold is_digit in H. rewrite H in F. specialize (F ltac:(apply in_seq; lia)). apply N.eqb_eq in F. lia.
  - intros [<- H]. destruct (lookup_char c) as [?|[_ ?]]; [contradiction|assumption].
Qed.

Lemma digit_exists d : d < 58 -> exists c, is_digit c d.
Proof.
  intros H. unfold is_digit. destruct (nth_error base58_chars (N.to_nat d)) as [c|] eqn:E; [eauto|].
  apply nth_error_None in E. change (length base58_chars) with 58%nat in E. lia.
Qed.

Lemma digit_fun c d d' : is_digit c d -> is_digit c d' -> d = d'.
Proof. intros H H'. apply digit_lookup in H, H'. destruct H, H'. congruence. Qed.

Lemma digit_inj c c' d : is_digit c d -> is_digit c' d -> c = c'.
Proof. unfold is_digit. congruence. Qed.

Lemma digit_zero c : is_digit c 0 <-> c = b58_idx0.
Proof. split; [intros H; injection H as <-; reflexivity|intros ->; reflexivity]. Qed.

Lemma in_alphabet c : In c base58_chars <-> b58_lookup c <> 255.
Proof.
  split.
  - intros H. apply In_nth_error in H. destruct H as [n H].
    assert (is_digit c (N.of_nat n)) as D by (unfold is_digit; now rewrite Nat2N.id).
    apply digit_lookup in D. destruct D as [-> ?]. assumption.
  - intros H. destruct (lookup_char c) as [?|[_ D]]; [contradiction|]. eapply nth_error_In, D.
Qed.

(** ** Numerals, least significant digit first *)
Inductive le58 : bytes -> N -> Prop :=
| le58_nil : le58 [] 0
| le58_cons c d l v : is_digit c d -> le58 l v -> le58 (c :: l) (58 * v + d).

Lemma numeral58_le s v : numeral58 s v <-> le58 (rev s) v.
Proof.
  split.
  - induction 1 as [|s v c d Hs IH Hd]; [constructor|]. rewrite rev_app_distr. simpl. now constructor.
  - intros H. rewrite <- (rev_involutive s). induction H; [constructor|]. simpl. now constructor.
Qed.

Lemma le58_fun l v v' : le58 l v -> le58 l v' -> v = v'.
Proof.
  intros H. revert v'. induction H as [|c d l v Hd Hl IH]; intros v' H'.
  - now inv H'.
  - inversion H' as [|c' d' l' w Hd' Hl' E1 E2]; subst.
    rewrite (IH _ Hl'), (digit_fun _ _ _ Hd Hd'). reflexivity.
Qed.

Lemma le58_zeros l v k : le58 l v -> le58 (l ++ repeat b58_idx0 k) v.
Proof.
  induction 1 as [|c d l v Hd Hl IH]; simpl.
  - induction k; simpl; [constructor|]. change 0 with (58 * 0 + 0). constructor; [now apply digit_zero|assumption].
  - now constructor.
Qed.

(** The last digit is not the zero digit. *)
Definition canon (l : bytes) : Prop := forall l', l <> l' ++ [b58_idx0].

Lemma canon_tail c l : l <> [] -> canon (c :: l) -> canon l.
Proof. intros _ H l' ->. apply (H (c :: l')). reflexivity. Qed.

Lemma le58_canon_zero l : canon l -> le58 l 0 -> l = [].
Proof.
  intros H L. remember 0 as z. revert H Heqz. induction L as [|c d l v Hd Hl IH]; intros H E; [reflexivity|].
  assert (v = 0 /\ d = 0) as [-> ->] by lia. apply digit_zero in Hd. subst c.
  destruct l as [|c' l].
  - exfalso. apply (H []). reflexivity.
  - assert (c' :: l = []) by (apply IH; [eapply canon_tail; [discriminate|exact H]|reflexivity]). discriminate.
Qed.

Lemma le58_unique l v : le58 l v -> canon l -> forall l', le58 l' v -> canon l' -> l = l'.
Proof.
  induction 1 as [|c d l v Hd Hl IH]; intros C l' L' C'.
  - symmetry. now apply le58_canon_zero.
  - remember (58 * v + d) as w eqn:Ew. inversion L' as [E1 E2|c' d' l2 v2 Hd' Hl' E1 E2].
    + subst l'. assert (v = 0 /\ d = 0) as [-> ->] by lia.
      assert (c :: l = []); [|congruence]. apply le58_canon_zero; [assumption|].
      replace 0 with (58 * 0 + 0) by lia. now constructor.
    + subst l'. pose proof (digit_lt _ _ Hd). pose proof (digit_lt _ _ Hd').
      assert (v2 = v /\ d' = d) as [-> ->] by lia.
      rewrite (digit_inj _ _ _ Hd Hd'). f_equal. apply IH; try assumption.
      * destruct l; [intros l' E; destruct l'; discriminate|]. eapply canon_tail; [discriminate|exact C].
      * destruct l2; [intros l' E; destruct l'; discriminate|]. eapply canon_tail; [discriminate|exact C'].
Qed.

Lemma b58_digits_spec fuel x : x < 2 ^ N.of_nat fuel ->
  exists l, b58_digits fuel x = Ok l /\ le58 l x /\ canon l.
Proof.
  revert x. induction fuel as [|fuel IH]; intros x H.
  - change (2 ^ N.of_nat 0) with 1 in H. assert (x = 0) as -> by lia. exists []. split; [reflexivity|].
    split; [constructor|]. intros l' E. destruct l'; discriminate.
  - cbn [b58_digits]. destruct (N.ltb_spec 0 x) as [C|C].
    2:{ assert (x = 0) as -> by lia. exists []. split; [reflexivity|].
        split; [constructor|]. intros l' E. destruct l'; discriminate. }
    pose proof (N.mod_upper_bound x 58 ltac:(lia)) as Hm.
    destruct (digit_exists _ Hm) as [c Hc].
    assert (go_index b58_alphabet (Z.of_N (x mod 58)) = Ok c) as G.
    { unfold go_index. destruct (Z.ltb_spec (Z.of_N (x mod 58)) 0); [lia|].
      rewrite alphabet_eq. replace (Z.to_nat (Z.of_N (x mod 58))) with (N.to_nat (x mod 58)) by lia.
      unfold is_digit in Hc. now rewrite Hc. }
    rewrite G. cbn [rbind].
    destruct (IH (x / 58)) as (l & E & L & Cn).
    { apply N.div_lt_upper_bound; [lia|]. rewrite Nat2N.inj_succ, N.pow_succ_r' in H. lia. }
    rewrite E. cbn [rbind]. exists (c :: l). split; [reflexivity|].
    assert (le58 (c :: l) x) as L2.
    { rewrite (N.div_mod x 58) at 1 by lia. now constructor. }
    split; [assumption|].
    intros l' E'. destruct l' as [|a l']; injection E' as -> ->; [|now apply (Cn l')].
    assert (x mod 58 = 0) as Z by (eapply digit_fun; [exact Hc|now apply digit_zero]).
    inv L. pose proof (N.div_mod x 58 ltac:(lia)). lia.
Qed.

Lemma b58_sum_some l v : le58 l v -> forall a j, b58_sum l a j = Some (a + j * v).
Proof.
  induction 1 as [|c d l v Hd Hl IH]; intros a j; cbn [b58_sum].
  - f_equal. lia.
  - apply digit_lookup in Hd. destruct Hd as [-> Hd]. destruct (N.eqb_spec d 255); [contradiction|].
    rewrite IH. f_equal. lia.
Qed.

Lemma b58_sum_none l a j : (exists c, In c l /\ ~ In c base58_chars) -> b58_sum l a j = None.
Proof.
  revert a j. induction l as [|c l IH]; intros a j (x & Hx & Nx); [destruct Hx|].
  cbn [b58_sum]. destruct (N.eqb_spec (b58_lookup c) 255) as [E|E]; [reflexivity|].
  apply IH. destruct Hx as [->|Hx]; [|eauto]. exfalso. apply Nx, in_alphabet, E.
Qed.

Lemma alphabet_le58 l : Forall (fun c => In c base58_chars) l -> exists v, le58 l v.
Proof.
  induction 1 as [|c l Hc Hl [v IH]]; [exists 0; constructor|].
  apply In_nth_error in Hc. destruct Hc as [n Hn]. exists (58 * v + N.of_nat n). constructor; [|assumption].
  unfold is_digit. now rewrite Nat2N.id.
Qed.

Lemma le58_alphabet l v : le58 l v -> Forall (fun c => In c base58_chars) l.
Proof. induction 1 as [|c d l v Hd Hl IH]; constructor; auto. eapply nth_error_In, Hd. Qed.

(** ** Leading zeros *)
Lemma leading_split z l : exists r, l = repeat z (leading z l) ++ r /\ no_lead z r.
Proof.
  induction l as [|b l (r & E & N)]; [exists []; split; [reflexivity|discriminate]|].
  simpl. destruct (byte_eqb b z) eqn:B.
  - apply byte_eqb_eq in B. subst b. exists r. split; [simpl; congruence|assumption].
  - exists (b :: l). split; [reflexivity|]. intros l' H. injection H as -> _. rewrite byte_eqb_refl in B. discriminate.
Qed.

Lemma leading_repeat z k r : no_lead z r -> leading z (repeat z k ++ r) = k.
Proof.
  intros N. induction k as [|k IH]; simpl.
  - destruct r as [|b r]; [reflexivity|]. simpl. destruct (byte_eqb b z) eqn:B; [|reflexivity].
    apply byte_eqb_eq in B. subst. exfalso. now apply (N r).
  - rewrite byte_eqb_refl. now rewrite IH.
Qed.

Lemma numeral256_get b v : numeral256 b v <-> be_get b = v.
Proof.
  split.
  - induction 1 as [|s v c Hs IH]; [reflexivity|]. rewrite be_get_app. simpl length.
    change (256 ^ N.of_nat 1) with 256. rewrite IH. unfold be_get at 1. simpl fold_left. unfold b2n. lia.
  - intros <-. induction b as [|c b IH] using rev_ind; [constructor|].
    rewrite be_get_app. change (256 ^ N.of_nat (length [c])) with 256.
    rewrite (N.mul_comm _ 256). change (be_get [c]) with (Byte.to_N c). now constructor.
Qed.

Lemma no_lead_size r : no_lead x00 r -> N.to_nat ((N.size (be_get r) + 7) / 8) = length r.
Proof.
  intros N. destruct r as [|b r]; [reflexivity|].
  assert (b2n b <> 0) as Hb.
  { intros E. apply (N r). f_equal. apply b2n_inj. exact E. }
  pose proof (be_get_bound (b :: r)) as U. rewrite be_get_cons in *. rewrite pow256 in *.
  pose proof (be_get_bound r) as Ur. rewrite pow256 in Ur.
  set (x := b2n b * 2 ^ (8 * N.of_nat (length r)) + be_get r) in *.
  assert (2 ^ (8 * N.of_nat (length r)) <= x) as Lx.
  { unfold x. set (p := 2 ^ (8 * N.of_nat (length r))) in *. clearbody p. nia. }
  assert (x <> 0) as Hx by (pose proof (N.pow_nonzero 2 (8 * N.of_nat (length r)) ltac:(discriminate)); lia).
  rewrite N.size_log2 by assumption.
  assert (8 * N.of_nat (length r) <= N.log2 x) by (apply N.log2_le_pow2; lia).
  assert (N.log2 x < 8 * N.of_nat (length (b :: r))) as L2 by (apply N.log2_lt_pow2; [lia|rewrite <- pow256; exact U]).
  simpl length in *. 
  assert ((N.succ (N.log2 x) + 7) / 8 = N.of_nat (length r) + 1); [|lia].
  symmetry. apply N.div_unique with (r := N.log2 x - 8 * N.of_nat (length r)); lia.
Qed.

Lemma big_bytes_strip r : no_lead x00 r -> big_bytes (Z.of_N (be_get r)) = r.
Proof.
  intros N. unfold big_bytes. replace (Z.abs_N (Z.of_N (be_get r))) with (be_get r) by lia.
  rewrite no_lead_size by assumption. apply be_put_get.
Qed.

Lemma be_put_lead k x : 256 ^ N.of_nat k <= x < 256 ^ N.of_nat (S k) -> no_lead x00 (be_put (S k) x).
Proof.
  intros H l E.
  assert (be_get (be_put (S k) x) = x) as V by (rewrite be_get_put; apply N.mod_small; lia).
  rewrite E in V. pose proof (f_equal (@length _) E) as L. rewrite be_put_length in L. simpl in L.
  rewrite be_get_cons in V. change (b2n x00) with 0 in V. pose proof (be_get_bound l) as B.
  replace (length l) with k in B by lia. lia.
Qed.

Lemma big_bytes_no_lead n : no_lead x00 (big_bytes (Z.of_N n)).
Proof.
  unfold big_bytes. replace (Z.abs_N (Z.of_N n)) with n by lia.
  destruct (N.eq_dec n 0) as [->|Hn]; [intros l; discriminate|].
  rewrite N.size_log2 by assumption.
  set (q := (N.succ (N.log2 n) + 7) / 8).
  assert (8 * q <= N.succ (N.log2 n) + 7 < 8 * q + 8) as Q.
  { unfold q. pose proof (N.div_mod (N.succ (N.log2 n) + 7) 8 ltac:(lia)).
    pose proof (N.mod_upper_bound (N.succ (N.log2 n) + 7) 8 ltac:(lia)). lia. }
  assert (q <> 0) by lia.
  replace (N.to_nat q) with (S (N.to_nat (q - 1))) by lia.
  apply be_put_lead. rewrite !pow256.
  pose proof (N.log2_spec n ltac:(lia)) as [L1 L2].
  split.
  - eapply N.le_trans; [|exact L1]. apply N.pow_le_mono_r; lia.
  - eapply N.lt_le_trans; [exact L2|]. apply N.pow_le_mono_r; lia.
Qed.

(** ** Encode and decode *)
Lemma canon_rev_no_lead l : canon l <-> no_lead b58_idx0 (rev l).
Proof.
  split.
  - intros C l' E. apply (C (rev l')). rewrite <- (rev_involutive l), E. reflexivity.
  - intros N l' ->. apply (N (rev l')). now rewrite rev_app_distr.
Qed.

Lemma repeat_rev {A} (a : A) k : rev (repeat a k) = repeat a k.
Proof.
  induction k as [|k IH]; [reflexivity|]. simpl. rewrite IH. clear IH. induction k; simpl; [reflexivity|]. congruence.
Qed.

Lemma size_pow x : x < 2 ^ N.of_nat (N.to_nat (N.size x)).
Proof. rewrite N2Nat.id. apply N.size_gt. Qed.

Lemma base58_encode_spec b : exists s, base58_encode b = Ok s /\ base58_of b s.
Proof.
  unfold base58_encode. destruct (b58_digits_spec _ _ (size_pow (be_get b))) as (l & E & L & C).
  rewrite E. cbn [rbind]. eexists. split; [reflexivity|].
  destruct (leading_split x00 b) as (r & Eb & N).
  exists (leading x00 b), r, (rev l), (be_get b). split; [assumption|]. split; [assumption|].
  rewrite rev_app_distr, repeat_rev. split; [reflexivity|]. split; [now apply canon_rev_no_lead|]. split.
  - apply numeral256_get. rewrite Eb at 1. now rewrite repeat_zero_value.
  - apply numeral58_le. now rewrite rev_involutive.
Qed.

Lemma base58_of_decode b s : base58_of b s -> base58_decode s = Some b.
Proof.
  intros (k & r & ds & v & -> & N & -> & N2 & V & D). unfold base58_decode.
  rewrite rev_app_distr, repeat_rev. apply numeral58_le in D.
  rewrite (b58_sum_some _ _ (le58_zeros _ _ k D)). rewrite N.add_0_l, N.mul_1_l.
  apply numeral256_get in V. subst v.
  fold b58_idx0. rewrite (leading_repeat b58_idx0 k ds N2). rewrite big_bytes_strip by assumption. reflexivity.
Qed.

Lemma base58_of_fun b s s' : base58_of b s -> base58_of b s' -> s = s'.
Proof.
  intros (k & r & ds & v & E & N & -> & N2 & V & D) (k' & r' & ds' & v' & E' & N' & -> & N2' & V' & D').
  assert (k = k').
  { rewrite <- (leading_repeat x00 k r N), <- E, E'. now apply leading_repeat. }
  subst k'. rewrite E in E'. apply app_inv_head in E'. subst r'.
  f_equal. apply numeral256_get in V, V'. rewrite V in V'. subst v'.
  apply numeral58_le in D, D'. rewrite <- (rev_involutive ds), <- (rev_involutive ds'). f_equal.
  eapply le58_unique; [exact D| |exact D'|]; apply canon_rev_no_lead; now rewrite rev_involutive.
Qed.

Lemma base58_valid_of s : Forall (fun c => In c base58_chars) s -> exists b, base58_of b s.
Proof.
  intros F. destruct (leading_split b58_idx0 s) as (ds & E & N).
  assert (Forall (fun c => In c base58_chars) (rev ds)) as F2.
  { apply Forall_rev. rewrite E in F. apply Forall_app in F. apply F. }
  destruct (alphabet_le58 _ F2) as [v L].
  exists (repeat x00 (leading b58_idx0 s) ++ big_bytes (Z.of_N v)).
  exists (leading b58_idx0 s), (big_bytes (Z.of_N v)), ds, v.
  split; [reflexivity|]. split; [apply big_bytes_no_lead|]. split; [exact E|]. split; [assumption|]. split.
  - apply numeral256_get. rewrite big_bytes_value. lia.
  - now apply numeral58_le.
Qed.

Lemma base58_of_alphabet b s : base58_of b s -> Forall (fun c => In c base58_chars) s.
Proof.
  intros (k & r & ds & v & _ & _ & -> & _ & _ & D). apply Forall_app. split.
  - apply Forall_forall. intros c Hc. apply repeat_spec in Hc. subst. now left.
  - apply numeral58_le in D. apply le58_alphabet in D. rewrite <- (rev_involutive ds). now apply Forall_rev.
Qed.

Lemma base58_encode_of b s : base58_encode b = Ok s <-> base58_of b s.
Proof.
  destruct (base58_encode_spec b) as (s' & E & O). split; intros H.
  - rewrite E in H. injection H as <-. assumption.
  - rewrite E. f_equal. eapply base58_of_fun; eauto.
Qed.

Lemma base58_decode_of b s : base58_decode s = Some b <-> base58_of b s.
Proof.
  split; [|apply base58_of_decode]. intros H.
  destruct (Forall_Exists_dec (fun c => In c base58_chars) (fun c => in_dec Byte.byte_eq_dec c base58_chars) s) as [F|X].
  - destruct (base58_valid_of s F) as (b' & O). rewrite (base58_of_decode _ _ O) in H. injection H as <-. assumption.
  - apply Exists_exists in X. destruct X as (c & Hc & Nc). unfold base58_decode in H.
    rewrite b58_sum_none in H; [discriminate|]. exists c. rewrite <- in_rev. auto.
Qed.

Lemma base58_decode_invalid s : (exists c, In c s /\ ~ In c base58_chars) -> base58_decode s = None.
Proof.
  intros (c & Hc & Nc). unfold base58_decode. rewrite b58_sum_none; [reflexivity|]. exists c. rewrite <- in_rev. auto.
Qed.
