(** * Rounding: nearest, monotone, exact on representable numbers; and its relative error. *)
From Coq Require Import ZArith QArith Qround Qabs Bool Lia Lqa.
From Verif Require Import Base F32Model.
Local Open Scope Q_scope.

(** ** Powers of two *)
Lemma pow2_pos e : 0 < pow2 e.
Proof.
  destruct e as [|p|p]; cbn [pow2]; try reflexivity.
  unfold Qlt. cbn. assert (0 < 2 ^ Zpos p)%Z by (apply Z.pow_pos_nonneg; lia).
  change (Z.pow_pos 2 p) with (2 ^ Zpos p)%Z. lia.
Qed.

Lemma pow2_nonneg e : (0 <= e)%Z -> pow2 e = inject_Z (2 ^ e).
Proof. destruct e; intros; [reflexivity|reflexivity|lia]. Qed.

Lemma pow2_neg e : (0 <= e)%Z -> pow2 (- e) * pow2 e == 1.
Proof.
  destruct e as [|p|p]; intros H; [reflexivity| |lia].
  cbn [Z.opp pow2]. unfold Qeq, Qmult, inject_Z. cbn [Qnum Qden].
  rewrite Pos2Z.inj_mul. rewrite Pos2Z.inj_pow. lia.
Qed.

Lemma pow2_succ e : pow2 (e + 1) == 2 * pow2 e.
Proof.
  destruct (Z.le_gt_cases 0 e) as [H|H].
  - rewrite !pow2_nonneg by lia. rewrite Z.pow_add_r by lia. rewrite inject_Z_mult. cbn. ring.
  - remember (- e - 1)%Z as d. assert (e = - (d + 1))%Z by lia. assert (0 <= d)%Z by lia. subst e. clear Heqd H.
    replace (- (d + 1) + 1)%Z with (- d)%Z by lia.
    assert (A := pow2_neg d H1). assert (B := pow2_neg (d + 1) ltac:(lia)).
    assert (P := pow2_pos d). assert (P' := pow2_pos (d + 1)).
    assert (C : pow2 (d + 1) == 2 * pow2 d).
    { rewrite !pow2_nonneg by lia. rewrite Z.pow_add_r by lia. rewrite inject_Z_mult. cbn. ring. }
    rewrite C in B. apply (Qmult_inj_r _ _ (pow2 d)); [lra|]. rewrite A. rewrite <- B. ring.
Qed.

Lemma pow2_add_nat (n : nat) : forall e, pow2 (e + Z.of_nat n) == pow2 e * pow2 (Z.of_nat n).
Proof.
  induction n as [|n IH]; intros e.
  - cbn [Z.of_nat]. rewrite Z.add_0_r. cbn. ring.
  - rewrite Nat2Z.inj_succ. replace (e + Z.succ (Z.of_nat n))%Z with (e + Z.of_nat n + 1)%Z by lia.
    rewrite pow2_succ, IH. unfold Z.succ. rewrite pow2_succ. ring.
Qed.

Lemma pow2_add e f : pow2 (e + f) == pow2 e * pow2 f.
Proof.
  destruct (Z.le_gt_cases 0 f) as [H|H].
  - rewrite <- (Z2Nat.id f H). apply pow2_add_nat.
  - assert (A := pow2_add_nat (Z.to_nat (- f)) (e + f)). rewrite Z2Nat.id in A by lia.
    replace (e + f + - f)%Z with e in A by lia.
    assert (B := pow2_neg (- f) ltac:(lia)). rewrite Z.opp_involutive in B.
    rewrite A. rewrite <- (Qmult_1_r (pow2 (e + f))) at 1. rewrite <- B. ring.
Qed.

Lemma pow2_le e f : (e <= f)%Z -> pow2 e <= pow2 f.
Proof.
  intros H. replace f with (e + Z.of_nat (Z.to_nat (f - e)))%Z by lia. rewrite pow2_add_nat.
  rewrite (pow2_nonneg (Z.of_nat _)) by lia. assert (P := pow2_pos e).
  assert (1 <= inject_Z (2 ^ Z.of_nat (Z.to_nat (f - e)))).
  { change 1 with (inject_Z 1). rewrite <- Zle_Qle. assert (0 < 2 ^ Z.of_nat (Z.to_nat (f - e)))%Z by (apply Z.pow_pos_nonneg; lia). lia. }
  nra.
Qed.

Lemma pow2_lt_inv e f : pow2 e < pow2 f -> (e < f)%Z.
Proof. intros H. destruct (Z.lt_ge_cases e f) as [|L]; [assumption|]. apply pow2_le in L. lra. Qed.

(** ** The exponent *)
Lemma qlog2_spec q : 0 < q -> pow2 (qlog2 q) <= q /\ q < pow2 (qlog2 q + 1).
Proof.
  intros H. unfold qlog2.
  destruct q as [n d]. cbn [Qnum Qden].
  assert (Hn : (0 < n)%Z) by (unfold Qlt in H; cbn in H; lia). clear H.
  destruct (Z.log2_spec n Hn) as [N1 N2]. destruct (Z.log2_spec (Zpos d) ltac:(lia)) as [D1 D2].
  assert (N0 := Z.log2_nonneg n). assert (D0 := Z.log2_nonneg (Zpos d)).
  set (a := Z.log2 n) in *. set (b := Z.log2 (Zpos d)) in *. clearbody a b.
  assert (Q1 : (n # d) * inject_Z (Zpos d) == inject_Z n) by (unfold Qeq; cbn; lia).
  assert (Hd : 0 < inject_Z (Zpos d)) by reflexivity.
  assert (N1' : pow2 a <= inject_Z n) by (rewrite pow2_nonneg by lia; now rewrite <- Zle_Qle).
  assert (N2' : inject_Z n < pow2 (a + 1)) by (rewrite pow2_nonneg by lia; now rewrite <- Zlt_Qlt).
  assert (D1' : pow2 b <= inject_Z (Zpos d)) by (rewrite pow2_nonneg by lia; now rewrite <- Zle_Qle).
  assert (D2' : inject_Z (Zpos d) < pow2 (b + 1)) by (rewrite pow2_nonneg by lia; now rewrite <- Zlt_Qlt).
  set (q := n # d) in *. set (Dq := inject_Z (Zpos d)) in *. set (Nq := inject_Z n) in *.
  clearbody q Dq Nq. clear n d Hn N1 N2 D1 D2.
  assert (E1 : pow2 a == pow2 (a - b) * pow2 b) by (rewrite <- pow2_add; replace (a - b + b)%Z with a by lia; reflexivity).
  assert (Pc := pow2_pos (a - b)). assert (Pb := pow2_pos b).
  rewrite pow2_succ in N2', D2'.
  assert (U : q < pow2 (a - b + 1)).
  { rewrite pow2_succ. destruct (Qlt_le_dec q (2 * pow2 (a - b))) as [|C]; [assumption|exfalso].
    assert (2 * pow2 (a - b) * Dq <= q * Dq) by nra. nra. }
  destruct (Qle_bool (pow2 (a - b)) q) eqn:E.
  - apply Qle_bool_iff in E. split; assumption.
  - assert (E' : q < pow2 (a - b)).
    { destruct (Qlt_le_dec q (pow2 (a - b))) as [|C]; [assumption|]. apply Qle_bool_iff in C. congruence. }
    replace (a - b - 1 + 1)%Z with (a - b)%Z by lia. split; [|assumption].
    assert (E2 : pow2 (a - b) == 2 * pow2 (a - b - 1)).
    { rewrite <- pow2_succ. replace (a - b - 1 + 1)%Z with (a - b)%Z by lia. reflexivity. }
    assert (Pc1 := pow2_pos (a - b - 1)).
    destruct (Qlt_le_dec q (pow2 (a - b - 1))) as [C|]; [exfalso|assumption].
    assert (q * Dq < pow2 (a - b - 1) * (2 * pow2 b)) by nra. nra.
Qed.

Lemma qlog2_unique q e : pow2 e <= q -> q < pow2 (e + 1) -> qlog2 q = e.
Proof.
  intros H1 H2. assert (P := pow2_pos e). destruct (qlog2_spec q ltac:(lra)) as [L1 L2].
  assert (pow2 e < pow2 (qlog2 q + 1)) by lra. assert (pow2 (qlog2 q) < pow2 (e + 1)) by lra.
  apply pow2_lt_inv in H, H0. lia.
Qed.

Lemma qlog2_comp q r : 0 < q -> q == r -> qlog2 q = qlog2 r.
Proof.
  intros H E. destruct (qlog2_spec r ltac:(lra)). apply qlog2_unique; lra.
Qed.

(** ** Rounding to an integer *)
Lemma half_even_spec q : inject_Z (half_even q) - q <= 1 # 2 /\ q - inject_Z (half_even q) <= 1 # 2.
Proof.
  unfold half_even. assert (F1 := Qfloor_le q). assert (F2 := Qlt_floor q).
  rewrite inject_Z_plus in F2. change (inject_Z 1) with 1 in F2.
  destruct (Qcompare (q - inject_Z (Qfloor q)) (1 # 2)) eqn:E.
  - apply Qeq_alt in E. destruct (Z.even _); rewrite ?inject_Z_plus; change (inject_Z 1) with 1; split; lra.
  - apply Qlt_alt in E. split; lra.
  - apply Qgt_alt in E. rewrite inject_Z_plus. change (inject_Z 1) with 1. split; lra.
Qed.

Lemma Qfloor_comp' q r : q == r -> Qfloor q = Qfloor r.
Proof. apply Qfloor_comp. Qed.

Lemma half_even_comp q r : q == r -> half_even q = half_even r.
Proof.
  intros E. unfold half_even. rewrite (Qfloor_comp' q r E).
  replace (Qcompare (q - inject_Z (Qfloor r)) (1 # 2)) with (Qcompare (r - inject_Z (Qfloor r)) (1 # 2)); [reflexivity|].
  apply Qcompare_comp; [|reflexivity]. rewrite E. reflexivity.
Qed.

Lemma half_even_mono q r : q <= r -> (half_even q <= half_even r)%Z.
Proof.
  intros H. assert (Fm : (Qfloor q <= Qfloor r)%Z) by now apply Qfloor_resp_le.
  assert (F1 := Qfloor_le q). assert (F2 := Qlt_floor q). assert (G1 := Qfloor_le r). assert (G2 := Qlt_floor r).
  rewrite inject_Z_plus in F2, G2. change (inject_Z 1) with 1 in *.
  destruct (Z.eq_dec (Qfloor q) (Qfloor r)) as [E|E].
  - unfold half_even. rewrite E in *. destruct (Qcompare (q - _) _) eqn:C1, (Qcompare (r - _) _) eqn:C2;
      try (destruct (Z.even (Qfloor r))); try lia;
      repeat match goal with
      | K : Qcompare _ _ = Eq |- _ => apply Qeq_alt in K
      | K : Qcompare _ _ = Lt |- _ => apply Qlt_alt in K
      | K : Qcompare _ _ = Gt |- _ => apply Qgt_alt in K
      end; exfalso; lra.
  - unfold half_even. assert (Qfloor q + 1 <= Qfloor r)%Z by lia.
    destruct (Qcompare (q - _) _), (Qcompare (r - _) _); try (destruct (Z.even (Qfloor q))); try (destruct (Z.even (Qfloor r))); lia.
Qed.

Lemma half_even_int z : half_even (inject_Z z) = z.
Proof.
  unfold half_even. rewrite Qfloor_Z. replace (Qcompare (inject_Z z - inject_Z z) (1 # 2)) with Lt; [reflexivity|].
  symmetry. apply Qlt_alt. generalize (inject_Z z). intros x. setoid_replace (x - x) with 0 by ring. reflexivity.
Qed.

(** ** Rounding to p bits *)
Section Round.
  Context (p : Z) (Hp : (1 < p)%Z).

  Definition scale (q : Q) : Z := (qlog2 q - (p - 1))%Z.

  Lemma round_unfold q : 0 < q -> round p q = inject_Z (half_even (q / pow2 (scale q))) * pow2 (scale q).
  Proof using Type.
    intros H. unfold round. destruct (Qle_bool q 0) eqn:E; [|reflexivity]. apply Qle_bool_iff in E. lra.
  Qed.

  Lemma scaled_bounds q : 0 < q -> pow2 (p - 1) <= q / pow2 (scale q) /\ q / pow2 (scale q) < pow2 p.
  Proof using Type.
    intros H. destruct (qlog2_spec q H) as [L1 L2]. assert (P := pow2_pos (scale q)).
    assert (E1 : pow2 (qlog2 q) == pow2 (p - 1) * pow2 (scale q)).
    { rewrite <- pow2_add. unfold scale. replace (p - 1 + (qlog2 q - (p - 1)))%Z with (qlog2 q) by lia. reflexivity. }
    assert (E2 : pow2 (qlog2 q + 1) == pow2 p * pow2 (scale q)).
    { rewrite <- pow2_add. unfold scale. replace (p + (qlog2 q - (p - 1)))%Z with (qlog2 q + 1)%Z by lia. reflexivity. }
    split.
    - apply Qle_shift_div_l; [assumption|]. rewrite <- E1. assumption.
    - apply Qlt_shift_div_r; [assumption|]. rewrite <- E2. assumption.
  Qed.

  Lemma mantissa_bounds q : 0 < q ->
    (2 ^ (p - 1) <= half_even (q / pow2 (scale q)) <= 2 ^ p)%Z.
  Proof.
    intros H. destruct (scaled_bounds q H) as [L1 L2].
    rewrite (pow2_nonneg (p - 1)) in L1 by lia. rewrite (pow2_nonneg p) in L2 by lia. split.
    - rewrite <- (half_even_int (2 ^ (p - 1))). now apply half_even_mono.
    - rewrite <- (half_even_int (2 ^ p)) at 1. apply half_even_mono. lra.
  Qed.

  Lemma round_comp q r : q == r -> round p q == round p r.
  Proof using Type.
    intros E. destruct (Qlt_le_dec 0 q) as [H|H].
    - assert (H' : 0 < r) by lra. rewrite !round_unfold by assumption. unfold scale.
      rewrite (qlog2_comp q r H E). rewrite (half_even_comp (q / _) (r / pow2 (qlog2 r - (p - 1)))); [reflexivity|].
      rewrite E. reflexivity.
    - unfold round. assert (H' : r <= 0) by lra. apply Qle_bool_iff in H, H'. rewrite H, H'. reflexivity.
  Qed.

  (** Half a unit in the last place. *)
  Lemma round_half q : 0 < q -> Qabs (round p q - q) <= (1 # 2) * pow2 (scale q).
  Proof using Type.
    intros H. rewrite round_unfold by assumption. assert (P := pow2_pos (scale q)).
    destruct (half_even_spec (q / pow2 (scale q))) as [A B].
    assert (E : q == q / pow2 (scale q) * pow2 (scale q)) by (field; lra).
    set (s := q / pow2 (scale q)) in *. set (z := inject_Z (half_even s)) in *. set (u := pow2 (scale q)) in *.
    clearbody u z s. apply Qabs_case; intros _; rewrite E; nra.
  Qed.

  (** Relative error at most 2^-p. *)
  Lemma round_error q : 0 < q -> Qabs (round p q - q) <= q * pow2 (- p).
  Proof using Type.
    intros H. eapply Qle_trans; [apply round_half; assumption|].
    destruct (qlog2_spec q H) as [L1 L2]. unfold scale.
    assert (E : (1 # 2) * pow2 (qlog2 q - (p - 1)) == pow2 (qlog2 q) * pow2 (- p)).
    { rewrite <- pow2_add. replace (qlog2 q - (p - 1))%Z with (qlog2 q + - p + 1)%Z by lia. rewrite pow2_succ. ring. }
    rewrite E. assert (P := pow2_pos (- p)). nra.
  Qed.

  Lemma round_pos q : 0 < q -> 0 < round p q.
  Proof.
    intros H. rewrite round_unfold by assumption. assert (P := pow2_pos (scale q)).
    destruct (mantissa_bounds q H) as [M _]. assert (0 < 2 ^ (p - 1))%Z by (apply Z.pow_pos_nonneg; lia).
    assert (1 <= inject_Z (half_even (q / pow2 (scale q)))) by (change 1 with (inject_Z 1); rewrite <- Zle_Qle; lia).
    nra.
  Qed.

  Lemma round_binade q : 0 < q -> pow2 (qlog2 q) <= round p q /\ round p q <= pow2 (qlog2 q + 1).
  Proof.
    intros H. rewrite round_unfold by assumption. assert (P := pow2_pos (scale q)).
    destruct (mantissa_bounds q H) as [M1 M2].
    rewrite Zle_Qle in M1, M2. rewrite <- pow2_nonneg in M1, M2 by lia.
    assert (E1 : pow2 (qlog2 q) == pow2 (p - 1) * pow2 (scale q)).
    { rewrite <- pow2_add. unfold scale. replace (p - 1 + (qlog2 q - (p - 1)))%Z with (qlog2 q) by lia. reflexivity. }
    assert (E2 : pow2 (qlog2 q + 1) == pow2 p * pow2 (scale q)).
    { rewrite <- pow2_add. unfold scale. replace (p + (qlog2 q - (p - 1)))%Z with (qlog2 q + 1)%Z by lia. reflexivity. }
    rewrite E1, E2. split; nra.
  Qed.

  Lemma round_mono q r : q <= r -> round p q <= round p r.
  Proof.
    intros H. destruct (Qlt_le_dec 0 q) as [Q0|Q0].
    - assert (R0 : 0 < r) by lra.
      destruct (Z.lt_trichotomy (qlog2 q) (qlog2 r)) as [L|[E|L]].
      + destruct (round_binade q Q0) as [_ A]. destruct (round_binade r R0) as [B _].
        assert (pow2 (qlog2 q + 1) <= pow2 (qlog2 r)) by (apply pow2_le; lia). lra.
      + rewrite !round_unfold by assumption. unfold scale. rewrite E. assert (P := pow2_pos (qlog2 r - (p - 1))).
        assert (M : (half_even (q / pow2 (qlog2 r - (p - 1))) <= half_even (r / pow2 (qlog2 r - (p - 1))))%Z).
        { apply half_even_mono. apply Qle_shift_div_l; [assumption|]. field_simplify; [assumption|lra]. }
        rewrite Zle_Qle in M. nra.
      + exfalso. destruct (qlog2_spec q Q0) as [A _]. destruct (qlog2_spec r R0) as [_ B].
        assert (pow2 (qlog2 r + 1) <= pow2 (qlog2 q)) by (apply pow2_le; lia). lra.
    - assert (A : round p q == 0) by (unfold round; apply Qle_bool_iff in Q0; rewrite Q0; reflexivity).
      rewrite A. destruct (Qlt_le_dec 0 r) as [R0|R0].
      + apply Qlt_le_weak, round_pos, R0.
      + unfold round. apply Qle_bool_iff in R0. rewrite R0. lra.
  Qed.

  (** Numbers of at most p bits are unchanged. *)
  Lemma round_exact z e : (0 <= z <= 2 ^ p)%Z -> round p (inject_Z z * pow2 e) == inject_Z z * pow2 e.
  Proof.
    intros [Z1 Z2]. destruct (Z.eq_dec z 0) as [->|N].
    { assert (E : inject_Z 0 * pow2 e == 0) by (change (inject_Z 0) with 0; ring).
      rewrite (round_comp _ _ E), E. reflexivity. }
    assert (P := pow2_pos e).
    assert (Zq : 1 <= inject_Z z) by (change 1 with (inject_Z 1); rewrite <- Zle_Qle; lia).
    assert (Q0 : 0 < inject_Z z * pow2 e) by nra.
    destruct (Z.eq_dec z (2 ^ p)) as [->|N'].
    - (* a power of two *)
      assert (E : inject_Z (2 ^ p) * pow2 e == pow2 (p + e)) by (rewrite <- pow2_nonneg by lia; now rewrite pow2_add).
      rewrite (round_comp _ _ E). rewrite E.
      assert (L : qlog2 (pow2 (p + e)) = (p + e)%Z).
      { apply qlog2_unique; [lra|]. rewrite pow2_succ. assert (P' := pow2_pos (p + e)). lra. }
      rewrite round_unfold by apply pow2_pos. unfold scale. rewrite L.
      rewrite (half_even_comp _ (inject_Z (2 ^ (p - 1)))).
      + rewrite half_even_int. rewrite <- pow2_nonneg by lia. rewrite <- pow2_add.
        replace (p - 1 + (p + e - (p - 1)))%Z with (p + e)%Z by lia. reflexivity.
      + rewrite <- pow2_nonneg by lia. assert (P' := pow2_pos (p + e - (p - 1))).
        assert (E' : pow2 (p + e) == pow2 (p - 1) * pow2 (p + e - (p - 1))).
        { rewrite <- pow2_add. replace (p - 1 + (p + e - (p - 1)))%Z with (p + e)%Z by lia. reflexivity. }
        rewrite E'. field. lra.
    - assert (B : (z < 2 ^ p)%Z) by lia.
      rewrite round_unfold by assumption. set (q := inject_Z z * pow2 e) in *.
      assert (S : (scale q <= e)%Z).
      { destruct (qlog2_spec q Q0) as [A _]. unfold scale.
        assert (q < pow2 (p + e)).
        { unfold q. rewrite pow2_add. rewrite (pow2_nonneg p) by lia. rewrite Zlt_Qlt in B. nra. }
        assert (pow2 (qlog2 q) < pow2 (p + e)) by lra. apply pow2_lt_inv in H0. lia. }
      set (d := (e - scale q)%Z) in *.
      assert (E : q == inject_Z (z * 2 ^ d) * pow2 (scale q)).
      { rewrite inject_Z_mult. rewrite <- (pow2_nonneg d) by lia. unfold q. rewrite <- Qmult_assoc, <- pow2_add.
        replace (d + scale (inject_Z z * pow2 e))%Z with e by (unfold d, q; lia). reflexivity. }
      assert (P' := pow2_pos (scale q)).
      rewrite (half_even_comp _ (inject_Z (z * 2 ^ d))).
      + rewrite half_even_int. symmetry. exact E.
      + rewrite E at 1. field. lra.
  Qed.

  Lemma round_int z : (0 <= z <= 2 ^ p)%Z -> round p (inject_Z z) == inject_Z z.
  Proof.
    intros H. assert (A := round_exact z 0 H). assert (E : inject_Z z * pow2 0 == inject_Z z) by (cbn; ring).
    rewrite (round_comp _ _ E) in A. rewrite A. assumption.
  Qed.
End Round.

(** ** Nearest *)
Lemma half_even_nearest q k : Qabs (inject_Z (half_even q) - q) <= Qabs (inject_Z k - q).
Proof.
  destruct (Z.eq_dec k (half_even q)) as [->|N]; [apply Qle_refl|].
  destruct (half_even_spec q) as [A B].
  assert (D : (k + 1 <= half_even q \/ half_even q + 1 <= k)%Z) by lia.
  assert (D' : inject_Z k + 1 <= inject_Z (half_even q) \/ inject_Z (half_even q) + 1 <= inject_Z k).
  { change 1 with (inject_Z 1). rewrite <- !inject_Z_plus, <- !Zle_Qle. exact D. }
  clear N D. revert A B D'. generalize (inject_Z (half_even q)) (inject_Z k). intros h j A B D'.
  assert (C : Qabs (h - q) <= 1 # 2) by (apply Qabs_Qle_condition; split; lra).
  eapply Qle_trans; [exact C|]. destruct D' as [D'|D'].
  - rewrite Qabs_neg by lra. lra.
  - rewrite Qabs_pos by lra. lra.
Qed.

Lemma round_nearest p q z e : (1 < p)%Z -> 0 < q -> (0 <= z <= 2 ^ p)%Z ->
  Qabs (round p q - q) <= Qabs (inject_Z z * pow2 e - q).
Proof.
  intros Hp Q0 Hz. set (y := inject_Z z * pow2 e).
  assert (U := pow2_pos (scale p q)). destruct (qlog2_spec q Q0) as [L1 L2].
  assert (G : forall k, Qabs (round p q - q) <= Qabs (inject_Z k * pow2 (scale p q) - q)).
  { intros k. rewrite round_unfold by assumption.
    assert (N := half_even_nearest (q / pow2 (scale p q)) k).
    assert (E : q == q / pow2 (scale p q) * pow2 (scale p q)) by (field; lra).
    assert (A : forall j, Qabs (inject_Z j * pow2 (scale p q) - q) ==
                          Qabs (inject_Z j - q / pow2 (scale p q)) * pow2 (scale p q)).
    { intros j. assert (Hu : Qabs (pow2 (scale p q)) == pow2 (scale p q)) by (apply Qabs_pos; lra).
      transitivity (Qabs (inject_Z j - q / pow2 (scale p q)) * Qabs (pow2 (scale p q))); [|now rewrite Hu].
      rewrite <- Qabs_Qmult. apply Qabs_wd. clear - E U. field. lra. }
    rewrite !A. apply Qmult_le_compat_r; [exact N|lra]. }
  destruct (Qlt_le_dec y (pow2 (qlog2 q))) as [B|B].
  - assert (E : pow2 (qlog2 q) == inject_Z (2 ^ (p - 1)) * pow2 (scale p q)).
    { rewrite <- pow2_nonneg by lia. rewrite <- pow2_add. unfold scale.
      replace (p - 1 + (qlog2 q - (p - 1)))%Z with (qlog2 q) by lia. reflexivity. }
    specialize (G (2 ^ (p - 1))%Z). rewrite <- E in G. eapply Qle_trans; [exact G|].
    rewrite (Qabs_neg (pow2 (qlog2 q) - q)) by lra. rewrite (Qabs_neg (y - q)) by lra. lra.
  - assert (K : exists k, y == inject_Z k * pow2 (scale p q)).
    { destruct (Z.le_gt_cases (scale p q) e) as [S|S].
      - exists (z * 2 ^ (e - scale p q))%Z. unfold y. rewrite inject_Z_mult, <- (pow2_nonneg (e - scale p q)) by lia.
        rewrite <- Qmult_assoc, <- pow2_add. replace (e - scale p q + scale p q)%Z with e by lia. reflexivity.
      - exists (2 ^ (p - 1))%Z.
        assert (Yu : y <= pow2 (p + e)).
        { unfold y. rewrite pow2_add, (pow2_nonneg p) by lia. assert (Pe := pow2_pos e).
          destruct Hz as [_ Hz]. rewrite Zle_Qle in Hz. nra. }
        assert (pow2 (p + e) <= pow2 (qlog2 q)) by (apply pow2_le; unfold scale in S; lia).
        assert (Ey : y == pow2 (qlog2 q)) by lra. rewrite Ey, <- pow2_nonneg by lia. rewrite <- pow2_add. unfold scale.
        replace (p - 1 + (qlog2 q - (p - 1)))%Z with (qlog2 q) by lia. reflexivity. }
    destruct K as [k K]. rewrite (Qabs_wd (y - q) (inject_Z k * pow2 (scale p q) - q)); [apply G|]. rewrite K. reflexivity.
Qed.

(** The result has at most [p] bits. *)
Lemma round_has_bits p q : (1 < p)%Z -> 0 < q -> exists z e, (0 < z <= 2 ^ p)%Z /\ round p q == inject_Z z * pow2 e.
Proof.
  intros Hp Q0. exists (half_even (q / pow2 (scale p q))), (scale p q). split.
  - destruct (mantissa_bounds p Hp q Q0). assert (0 < 2 ^ (p - 1))%Z by (apply Z.pow_pos_nonneg; lia). lia.
  - rewrite round_unfold by assumption. reflexivity.
Qed.

(** ** Bounds in the form used below *)
Lemma round_bounds p q : (1 < p)%Z -> 0 <= q ->
  q * (1 - pow2 (- p)) <= round p q /\ round p q <= q * (1 + pow2 (- p)).
Proof.
  intros Hp H. destruct (Qlt_le_dec 0 q) as [Q0|Q0].
  - assert (E := round_error p q Q0). apply Qabs_Qle_condition in E. split; lra.
  - assert (E : q == 0) by lra. rewrite (round_comp p q 0 E), E. assert (R : round p 0 = 0) by reflexivity. rewrite R. split; lra.
Qed.
