(** * The resize decisions in float32 keep the load in bounds. *)
From Coq Require Import ZArith QArith Qround Qabs Bool Lia Lqa List.
From Verif Require Import Base BaseProofs AVLModel MapSpec MapProofs HashModel HashSpec HashProofs F32Model F32Proofs.
Import ListNotations.
Local Open Scope Q_scope.

(** 2^-24 and 2^-53. *)
Definition eps : Q := 1 # 16777216.

Lemma round24 q : 0 <= q -> q * (1 - eps) <= round 24 q /\ round 24 q <= q * (1 + eps).
Proof. exact (round_bounds 24 q eq_refl). Qed.

Lemma round53 q : 0 <= q -> q * (1 - eps) <= round 53 q /\ round 53 q <= q * (1 + eps).
Proof.
  intros H. destruct (round_bounds 53 q eq_refl H) as [A B].
  assert (P : pow2 (- (53)) <= eps) by (vm_compute; discriminate).
  split; nra.
Qed.

Lemma inject_nonneg n : (0 <= n)%Z -> 0 <= inject_Z n.
Proof. intros H. change 0 with (inject_Z 0). rewrite <- Zle_Qle. assumption. Qed.

Lemma inject_le a b : (a <= b)%Z -> inject_Z a <= inject_Z b.
Proof. intros H. now rewrite <- Zle_Qle. Qed.

Lemma of_int_bounds n : (0 <= n)%Z -> inject_Z n * (1 - eps) <= of_int n /\ of_int n <= inject_Z n * (1 + eps).
Proof. intros H. apply round24. now apply inject_nonneg. Qed.

Lemma of_int_exact n : (0 <= n <= 2 ^ 24)%Z -> of_int n == inject_Z n.
Proof. intros H. apply round_int; [reflexivity|assumption]. Qed.

Lemma of_int_pos n : (0 < n)%Z -> 0 < of_int n.
Proof.
  intros H. apply round_pos; [reflexivity|]. change 0 with (inject_Z 0). rewrite <- Zlt_Qlt. assumption.
Qed.

Lemma of_int_nonpos n : (n <= 0)%Z -> of_int n == 0.
Proof.
  intros H. unfold of_int, round. assert (inject_Z n <= 0) by (change 0 with (inject_Z 0); now rewrite <- Zle_Qle).
  apply Qle_bool_iff in H0. rewrite H0. reflexivity.
Qed.

Lemma of_int_nonneg n : 0 <= of_int n.
Proof.
  destruct (Z.le_gt_cases n 0) as [H|H].
  - rewrite of_int_nonpos by assumption. apply Qle_refl.
  - apply Qlt_le_weak, of_int_pos. assumption.
Qed.

Lemma Qle_bool_false x y : Qle_bool x y = false -> y < x.
Proof.
  intros H. destruct (Qlt_le_dec y x) as [|L]; [assumption|]. apply Qle_bool_iff in L. congruence.
Qed.

Lemma div_le a b c : 0 < b -> c <= a / b -> c * b <= a.
Proof.
  intros Hb H. assert (E : a == a / b * b) by (field; lra). set (d := a / b) in *. clearbody d. rewrite E. nra.
Qed.
Lemma div_lt a b c : 0 < b -> a / b < c -> a < c * b.
Proof.
  intros Hb H. assert (E : a == a / b * b) by (field; lra). set (d := a / b) in *. clearbody d. rewrite E. nra.
Qed.
Lemma div_nonneg a b : 0 <= a -> 0 < b -> 0 <= a / b.
Proof. intros Ha Hb. apply Qle_shift_div_l; [assumption|]. lra. Qed.

(** The cross-multiplied form of the tests. *)
Section Tests.
  Context (l : Q) (Hl : (1 # 2) <= l /\ l <= 1) (Hr : round 24 l == l).

  Lemma grow_false size cap : (0 < cap)%Z ->
    Qle_bool l (round 24 (of_int size / of_int cap)) = false -> of_int size < l * of_int cap.
  Proof.
    intros Hc H. apply Qle_bool_false in H. assert (P := of_int_pos cap Hc).
    apply div_lt; [assumption|].
    destruct (Qlt_le_dec (of_int size / of_int cap) l) as [|L]; [assumption|exfalso].
    apply (round_mono 24 eq_refl) in L. rewrite Hr in L. lra.
  Qed.

  Lemma grow_true size cap : (0 < cap)%Z ->
    Qle_bool l (round 24 (of_int size / of_int cap)) = true -> l * of_int cap <= of_int size * (1 + eps).
  Proof using Type.
    intros Hc H. apply Qle_bool_iff in H. assert (P := of_int_pos cap Hc). assert (S := of_int_nonneg size).
    assert (D := div_nonneg _ _ S P). destruct (round24 _ D) as [_ U].
    assert (E : of_int size == of_int size / of_int cap * of_int cap) by (field; lra).
    set (d := of_int size / of_int cap) in *. clearbody d. rewrite E. unfold eps in *. nra.
  Qed.

  Lemma shrink_true size cap t : (0 < cap)%Z ->
    Qle_bool (round 24 t) (round 24 (of_int size / of_int cap)) = false -> of_int size < t * of_int cap.
  Proof using Type.
    intros Hc H. apply Qle_bool_false in H. assert (P := of_int_pos cap Hc).
    apply div_lt; [assumption|].
    destruct (Qlt_le_dec (of_int size / of_int cap) t) as [|L]; [assumption|exfalso].
    apply (round_mono 24 eq_refl) in L. lra.
  Qed.
End Tests.

(** The load: exact below 2^24 slots, with a relative error of 2^-22 above. *)
Definition load_in (l : Q) (size cap : Z) : Prop :=
  inject_Z size * (1 - (1 # 4194304)) < l * inject_Z cap /\
  ((cap < 2 ^ 24)%Z -> inject_Z size < l * inject_Z cap).

Lemma load_in_strong l size cap : 0 <= inject_Z size -> inject_Z size < l * inject_Z cap -> load_in l size cap.
Proof. intros H0 H. split; [|auto]. nra. Qed.

Lemma floor_ge q z : inject_Z z <= q -> (z <= Qfloor q)%Z.
Proof. intros H. rewrite <- (Qfloor_Z z). now apply Qfloor_resp_le. Qed.

Lemma floor_le q : inject_Z (Qfloor q) <= q.
Proof. apply Qfloor_le. Qed.

Lemma floor_gt q : q - 1 < inject_Z (Qfloor q).
Proof. assert (H := Qlt_floor q). rewrite inject_Z_plus in H. change (inject_Z 1) with 1 in H. lra. Qed.

Section Grow.
  Context (l mu : Q) (Hl : (1 # 2) <= l /\ l <= 1) (Hr : round 24 l == l) (Hm : (6 # 5) <= mu /\ mu <= 5).

  (** The new capacity of Put. *)
  Definition grown (cap : Z) : Z := Qfloor (round 24 (of_int cap * mu)).

  Lemma grown_upper cap : (10 <= cap)%Z -> inject_Z (grown cap) <= (5001 # 1000) * inject_Z cap.
  Proof.
    intros Hc. destruct (of_int_bounds cap ltac:(lia)) as [_ B].
    assert (C := inject_le 10 cap Hc). change (inject_Z 10) with 10 in C.
    assert (N := of_int_nonneg cap).
    destruct (round24 (of_int cap * mu) ltac:(nra)) as [_ U].
    eapply Qle_trans; [apply floor_le|]. eapply Qle_trans; [exact U|].
    set (f := of_int cap) in *. set (c := inject_Z cap) in *. clearbody f c. unfold eps in *.
    assert (f * mu <= c * (1 + (1 # 16777216)) * 5) by nra. lra.
  Qed.

  Lemma grown_lower cap : (10 <= cap)%Z -> (cap + 2 <= grown cap)%Z.
  Proof.
    intros Hc. assert (C := inject_le 10 cap Hc). change (inject_Z 10) with 10 in C.
    destruct (Z.le_gt_cases cap (2 ^ 20)) as [S|S].
    - apply floor_ge. assert (E := of_int_exact cap ltac:(lia)).
      assert (R : round 24 (inject_Z (cap + 2)) == inject_Z (cap + 2)) by (apply round_int; [reflexivity|lia]).
      rewrite <- R. apply round_mono; [reflexivity|]. rewrite E, inject_Z_plus. change (inject_Z 2) with 2.
      set (c := inject_Z cap) in *. clearbody c. nra.
    - assert (C' := inject_le (2 ^ 20) cap ltac:(lia)). change (inject_Z (2 ^ 20)) with 1048576 in C'.
      destruct (of_int_bounds cap ltac:(lia)) as [B _].
      assert (N := of_int_nonneg cap).
      destruct (round24 (of_int cap * mu) ltac:(nra)) as [U _].
      unfold grown. assert (F := floor_gt (round 24 (of_int cap * mu))).
      assert (inject_Z (cap + 2) <= inject_Z (Qfloor (round 24 (of_int cap * mu)))); [|now rewrite Zle_Qle].
      rewrite inject_Z_plus. change (inject_Z 2) with 2.
      set (f := of_int cap) in *. set (c := inject_Z cap) in *. set (r := round 24 (f * mu)) in *.
      set (g := inject_Z (Qfloor r)) in *. clearbody g r f c. unfold eps in *.
      assert (c * (1 - (1 # 16777216)) * (6 # 5) <= f * mu) by nra. lra.
  Qed.

  Lemma grown_margin cap : (2 ^ 20 <= cap)%Z -> (119 # 100) * inject_Z cap <= inject_Z (grown cap).
  Proof.
    intros Hc. assert (C' := inject_le (2 ^ 20) cap ltac:(lia)). change (inject_Z (2 ^ 20)) with 1048576 in C'.
    destruct (of_int_bounds cap ltac:(lia)) as [B _].
    assert (N := of_int_nonneg cap).
    destruct (round24 (of_int cap * mu) ltac:(nra)) as [U _].
    unfold grown. assert (F := floor_gt (round 24 (of_int cap * mu))).
    set (f := of_int cap) in *. set (c := inject_Z cap) in *. set (r := round 24 (f * mu)) in *.
    set (g := inject_Z (Qfloor r)) in *. clearbody g r f c. unfold eps in *.
    assert (c * (1 - (1 # 16777216)) * (6 # 5) <= f * mu) by nra. lra.
  Qed.

  Lemma put_load size cap : (10 <= cap)%Z -> (0 <= size)%Z -> load_in l size cap ->
    load_in l (size + 1) (next_cap (float_put 0 (FVal l) (FVal mu) (size + 1) cap) cap).
  Proof.
    intros Hc Hs [L1 L2]. unfold float_put. fold (grown cap).
    assert (S0 := inject_nonneg size Hs). assert (C := inject_le 10 cap Hc). change (inject_Z 10) with 10 in C.
    assert (E1 : inject_Z (size + 1) == inject_Z size + 1) by (rewrite inject_Z_plus; reflexivity).
    destruct (Qle_bool l _) eqn:T.
    - cbn [next_cap]. assert (G := grown_lower cap Hc). unfold clamp, min_capacity.
      destruct (Z.ltb_spec (grown cap) 10); [lia|].
      apply load_in_strong; [rewrite E1; lra|]. rewrite E1.
      destruct (Z.le_gt_cases cap (2 ^ 20)) as [S|S].
      + specialize (L2 ltac:(lia)). apply inject_le in G. rewrite inject_Z_plus in G. change (inject_Z 2) with 2 in G.
        set (g := inject_Z (grown cap)) in *. set (c := inject_Z cap) in *. set (s := inject_Z size) in *.
        clearbody g c s. nra.
      + assert (M := grown_margin cap ltac:(lia)).
        assert (C' := inject_le (2 ^ 20) cap ltac:(lia)). change (inject_Z (2 ^ 20)) with 1048576 in C'.
        set (g := inject_Z (grown cap)) in *. set (c := inject_Z cap) in *. set (s := inject_Z size) in *.
        clearbody g c s. clear - L1 M C' Hl S0. assert (l * ((119 # 100) * c) <= l * g) by nra. nra.
    - cbn [next_cap]. apply (grow_false l Hr (size + 1) cap ltac:(lia)) in T. split.
      + destruct (of_int_bounds (size + 1) ltac:(lia)) as [B _]. destruct (of_int_bounds cap ltac:(lia)) as [_ B'].
        rewrite E1 in *.
        set (f := of_int (size + 1)) in *. set (fc := of_int cap) in *. set (c := inject_Z cap) in *.
        set (s := inject_Z size) in *. clearbody f fc c s. unfold eps in *. 
        assert (l * fc <= l * (c * (1 + (1 # 16777216)))) by nra.
        assert ((s + 1) * (1 - (1 # 16777216)) < l * c * (1 + (1 # 16777216))) by lra.
        assert (0 <= l * c) by nra. nra.
      + intros Hc'. specialize (L2 Hc'). assert (inject_Z size < inject_Z cap).
        { set (c := inject_Z cap) in *. clearbody c. nra. }
        rewrite <- Zlt_Qlt in H.
        rewrite (of_int_exact (size + 1)), (of_int_exact cap) in T by lia. exact T.
  Qed.

  (** Growth happens only when the table is at least half full, roughly. *)
  Lemma put_cap size cap n : (10 <= cap)%Z -> (0 <= size)%Z ->
    float_put 0 (FVal l) (FVal mu) (size + 1) cap = Some n -> (clamp n <= 11 * (size + 1))%Z /\ (10 <= clamp n)%Z.
  Proof.
    intros Hc Hs H. unfold float_put in H. fold (grown cap) in H.
    destruct (Qle_bool l _) eqn:T; [|discriminate]. injection H as <-.
    assert (G := grown_lower cap Hc). unfold clamp, min_capacity. destruct (Z.ltb_spec (grown cap) 10); [lia|].
    split; [|assumption].
    apply (grow_true l (size + 1) cap ltac:(lia)) in T.
    assert (U := grown_upper cap Hc). destruct (of_int_bounds (size + 1) ltac:(lia)) as [_ B].
    destruct (of_int_bounds cap ltac:(lia)) as [B' _].
    assert (C := inject_le 10 cap Hc). change (inject_Z 10) with 10 in C.
    rewrite Zle_Qle, inject_Z_mult. change (inject_Z 11) with 11.
    set (f := of_int (size + 1)) in *. set (fc := of_int cap) in *. set (c := inject_Z cap) in *.
    set (s := inject_Z (size + 1)) in *. set (g := inject_Z (grown cap)) in *. clearbody f fc c s g. unfold eps in *.
    assert ((1 # 2) * (c * (1 - (1 # 16777216))) <= l * fc) by nra. lra.
  Qed.
End Grow.

Section Shrink.
  Context (l mu : Q) (Hl : (1 # 2) <= l /\ l <= 1) (Hm : (6 # 5) <= mu /\ mu <= 5).

  Lemma square_bounds : (36 # 25) <= mu * mu /\ mu * mu <= 25.
  Proof. split; nra. Qed.

  Lemma pow_2_bounds : mu * mu * (999999 # 1000000) <= pow_2 mu /\ pow_2 mu <= mu * mu * (1000001 # 1000000).
  Proof.
    destruct square_bounds as [A B]. unfold pow_2. set (M := mu * mu) in *. clearbody M.
    destruct (round53 M ltac:(lra)) as [C D]. set (r := round 53 M) in *. clearbody r. unfold eps in *.
    destruct (round24 r ltac:(lra)) as [E F]. unfold eps in *. split; lra.
  Qed.

  Lemma pow_4_lower : mu * mu * (mu * mu) * (999999 # 1000000) <= pow_4 mu.
  Proof.
    destruct square_bounds as [A B]. unfold pow_4. set (M := mu * mu) in *. clearbody M.
    destruct (round53 M ltac:(lra)) as [C D]. set (r := round 53 M) in *. clearbody r. unfold eps in *.
    destruct (round53 (r * r) ltac:(nra)) as [E F]. set (r2 := round 53 (r * r)) in *. clearbody r2. unfold eps in *.
    assert (K : M * M * (9999998 # 10000000) <= r * r).
    { assert (M * (99999992 # 100000000) <= r) by lra.
      assert (M * (99999992 # 100000000) * (M * (99999992 # 100000000)) <= r * r) by nra. nra. }
    assert (0 <= r2) by (assert (0 <= r * r) by nra; lra).
    destruct (round24 r2 ltac:(assumption)) as [G _]. unfold eps in *.
    assert (M * M * (9999997 # 10000000) <= r2) by nra. nra.
  Qed.

  Definition shrunk (cap : Z) : Z := Qfloor (round 24 (of_int cap / pow_2 mu)).

  Lemma shrunk_bounds cap : (10 <= cap)%Z ->
    (shrunk cap <= cap)%Z /\ inject_Z cap / (mu * mu) * (99999 # 100000) - 1 < inject_Z (shrunk cap).
  Proof.
    intros Hc. assert (C := inject_le 10 cap Hc). change (inject_Z 10) with 10 in C.
    destruct (of_int_bounds cap ltac:(lia)) as [B1 B2]. destruct pow_2_bounds as [P1 P2].
    destruct square_bounds as [M1 M2].
    assert (X : inject_Z cap == inject_Z cap / (mu * mu) * (mu * mu)) by (field; nra).
    assert (Y : of_int cap == of_int cap / pow_2 mu * pow_2 mu) by (field; lra).
    assert (Q0 : 0 <= of_int cap / pow_2 mu) by (apply div_nonneg; [apply of_int_nonneg|lra]).
    assert (X0 : 0 <= inject_Z cap / (mu * mu)) by (apply div_nonneg; lra).
    destruct (round24 _ Q0) as [R1 R2]. unfold shrunk.
    assert (F1 := floor_le (round 24 (of_int cap / pow_2 mu))).
    assert (F2 := floor_gt (round 24 (of_int cap / pow_2 mu))).
    rewrite Zle_Qle.
    set (r := round 24 (of_int cap / pow_2 mu)) in *. set (g := inject_Z (Qfloor r)) in *. clearbody g r.
    set (q := of_int cap / pow_2 mu) in *. set (x := inject_Z cap / (mu * mu)) in *. clearbody q x.
    set (f := of_int cap) in *. set (c := inject_Z cap) in *. clearbody f c.
    set (p := pow_2 mu) in *. clearbody p. set (M := mu * mu) in *. clearbody M. unfold eps in *.
    split.
    - assert (q * (14399 # 10000) <= q * p) by nra. lra.
    - assert (q * p <= q * (M * (1000001 # 1000000))) by nra.
      assert (x * M * (1 - (1 # 16777216)) <= q * M * (1000001 # 1000000)) by lra.
      assert (x * (1 - (1 # 16777216)) <= q * (1000001 # 1000000)).
      { destruct (Qlt_le_dec (q * (1000001 # 1000000)) (x * (1 - (1 # 16777216)))) as [K|K]; [exfalso|assumption]. nra. }
      lra.
  Qed.

  Lemma remove_load size cap : (10 <= cap)%Z -> (1 <= size)%Z -> load_in l size cap ->
    load_in l (size - 1) (next_cap (float_remove (FVal l) (FVal mu) (size - 1) cap) cap).
  Proof.
    intros Hc Hs [L1 L2]. unfold float_remove. fold (shrunk cap).
    assert (S0 := inject_nonneg (size - 1) ltac:(lia)).
    destruct (Qle_bool (round 24 _) _) eqn:T; cbn [negb next_cap].
    - assert (inject_Z (size - 1) <= inject_Z size) by (rewrite <- Zle_Qle; lia).
      split.
      + set (s := inject_Z size) in *. set (s' := inject_Z (size - 1)) in *. clearbody s s'. lra.
      + intros K. specialize (L2 K). lra.
    - clear L1 L2. apply (shrink_true (size - 1) cap (l / pow_4 mu) ltac:(lia)) in T.
      apply load_in_strong; [assumption|].
      destruct (shrunk_bounds cap Hc) as [_ N]. assert (P4 := pow_4_lower). destruct square_bounds as [M1 M2].
      assert (Pp : 0 < pow_4 mu) by nra.
      assert (Dl : l == l / pow_4 mu * pow_4 mu) by (field; lra).
      assert (D0 : 0 <= l / pow_4 mu) by (apply div_nonneg; lra).
      assert (X : inject_Z cap == inject_Z cap / (mu * mu) * (mu * mu)) by (field; nra).
      assert (C := inject_le 10 cap Hc). change (inject_Z 10) with 10 in C.
      assert (X0 : 0 <= inject_Z cap / (mu * mu)) by (apply div_nonneg; lra).
      destruct (of_int_bounds (size - 1) ltac:(lia)) as [B1 _]. destruct (of_int_bounds cap ltac:(lia)) as [_ B2].
      assert (G1 : 10 <= inject_Z (clamp (shrunk cap)) /\ inject_Z (shrunk cap) <= inject_Z (clamp (shrunk cap))).
      { change 10 with (inject_Z 10). rewrite <- !Zle_Qle. unfold clamp, min_capacity.
        destruct (Z.ltb_spec (shrunk cap) 10); lia. }
      destruct G1 as [G1 G2].
      set (g := inject_Z (clamp (shrunk cap))) in *. set (n := inject_Z (shrunk cap)) in *. clearbody g n.
      set (d := l / pow_4 mu) in *. set (x := inject_Z cap / (mu * mu)) in *. clearbody d x.
      set (f := of_int (size - 1)) in *. set (fc := of_int cap) in *. set (c := inject_Z cap) in *.
      set (s := inject_Z (size - 1)) in *. clearbody f fc c s.
      set (p := pow_4 mu) in *. clearbody p. set (M := mu * mu) in *. clearbody M. unfold eps in *.
      assert (K1 : d * M * (1439 # 1000) <= l).
      { rewrite Dl. assert (M * (1439 # 1000) <= p) by nra. nra. }
      assert (K2 : d * fc <= d * (c * (1 + (1 # 16777216)))) by nra.
      assert (K3 : d * c == d * M * x) by (rewrite X; ring).
      assert (K4 : d * M * x * (1439 # 1000) <= l * x) by nra.
      assert (K6 : s * (1438 # 1000) * (1 - (1 # 16777216)) < l * x * (1 + (1 # 16777216))) by nra.
      clear - K6 G1 G2 N Hl X0 S0.
      destruct (Qlt_le_dec x 14) as [Hx|Hx].
      + assert (l * x <= l * 14) by nra. assert (s < l * 10) by lra. nra.
      + assert (l * (x * (99999 # 100000) - 1) <= l * g) by nra.
        assert (l * x * (3 # 10) >= (1 # 2) * 14 * (3 # 10)) by nra.
        assert (l <= 1) by lra. lra.
  Qed.

  Lemma remove_cap size cap n : (10 <= cap)%Z ->
    float_remove (FVal l) (FVal mu) size cap = Some n -> (10 <= clamp n <= cap)%Z.
  Proof.
    intros Hc H. unfold float_remove in H. fold (shrunk cap) in H.
    destruct (negb _); [|discriminate]. injection H as <-.
    destruct (shrunk_bounds cap Hc) as [N _]. unfold clamp, min_capacity. destruct (Z.ltb_spec (shrunk cap) 10); lia.
  Qed.
End Shrink.

(** ** Histories under a policy with an invariant *)
Section Run.
  Context {K V : Type} (equalb : K -> K -> res bool) (hashf : K -> res N).
  Context (D : K -> Prop) (eqv : K -> K -> Prop) (HK : hash_keys D eqv equalb hashf).
  Local Open Scope Z_scope.

  (** [J b s c]: after [b] calls the size is [s] and the capacity [c]. *)
  Lemma policy_run (pol : policy) (J : Z -> Z -> Z -> Prop) (B : Z) :
    (forall b s c, J b s c -> 0 <= b < B -> 0 < c < 2 ^ 32) ->
    (forall b s c n, J b s c -> 0 <= b < B -> after_put pol (s + 1) c = Some n \/ after_remove pol (s - 1) c = Some n ->
       0 < clamp n < 2 ^ 32) ->
    (forall b s c, J b s c -> 0 <= b < B -> 0 <= s -> J (b + 1) (s + 1) (next_cap (after_put pol (s + 1) c) c)) ->
    (forall b s c, J b s c -> 0 <= b < B -> 1 <= s -> J (b + 1) (s - 1) (next_cap (after_remove pol (s - 1) c) c)) ->
    (forall b s c, J b s c -> 0 <= b < B -> J (b + 1) s c) ->
    forall (ops : list (mop K V)) h (t : hash K V) b, Forall (fun op => D (op_key op)) ops ->
      hash_inv hashf D eqv h t -> J b (h_size t) (zlen (h_array t)) -> 0 <= b -> b + zlen ops <= B ->
    exists t' os, hash_run equalb hashf pol t ops = Ok (t', os) /\ hash_inv hashf D eqv (h ++ ops) t' /\
      answers eqv h ops os /\ J (b + zlen ops) (h_size t') (zlen (h_array t')).
  Proof.
    intros J1 J2 J3 J4 J5. induction ops as [|op ops IH]; intros h t b F Hi Hj H0 HB.
    - exists t, []. rewrite app_nil_r. replace (b + zlen (@nil (mop K V))) with b by (unfold zlen; cbn; lia).
      split; [reflexivity|]. split; [exact Hi|]. split; [constructor|exact Hj].
    - assert (Ez : zlen (op :: ops) = 1 + zlen ops) by (unfold zlen; cbn [length]; lia).
      assert (Zp : 0 <= zlen ops) by (unfold zlen; lia).
      assert (Hb : 0 <= b < B) by lia.
      inversion F as [|x l Dk F' E]; subst.
      assert (Hsz : h_size t = zlen (concat (h_array t))) by apply Hi.
      destruct (hash_step_ok equalb hashf pol D eqv HK h t op Dk Hi) as (t1 & o & H1 & Hi1 & He & Hcap).
      { replace (length (h_array t)) with (Z.to_nat (zlen (h_array t))) by (unfold zlen; lia).
        apply cap_ok_small. eauto. }
      { intros n Hn. apply cap_ok_small. eauto. }
      assert (S1 : J (b + 1) (h_size t1) (zlen (h_array t1))).
      { destruct op as [k v|k|k], o as [e|]; apply pair_equal_spec in Hcap; destruct Hcap as [Hsz1 Hcap]; rewrite Hsz1, Hcap;
          try (apply J5; assumption).
        - apply J3; try assumption. rewrite Hsz. unfold zlen. lia.
        - apply J4; try assumption.
          destruct e as [k0 v0]. cbn [entry_at op_key] in He. destruct He as [_ He].
          destruct Hi as (_ & _ & _ & Hs & Hh). apply Hh in He.
          rewrite Hs. destruct (concat (h_array t)); [destruct He|unfold zlen; cbn [length]; lia]. }
      destruct (IH (h ++ [op]) t1 (b + 1) F' Hi1 S1 ltac:(lia) ltac:(lia)) as (t2 & os & H2 & Hi2 & Hos & Hl2).
      exists t2, (o :: os). cbn [hash_run]. rewrite H1. cbn [rbind]. rewrite H2. cbn [rbind].
      rewrite <- app_assoc in Hi2. split; [reflexivity|]. split; [exact Hi2|]. split; [now constructor|].
      rewrite Ez. replace (b + (1 + zlen ops)) with (b + 1 + zlen ops) by lia. exact Hl2.
  Qed.
End Run.

(** ** The parameters after the checks of NewCustomHash *)
Lemma clamp_load_cases lf : is_f32 lf ->
  clamp_load lf = FNaN \/ exists l, clamp_load lf = FVal l /\ (1 # 2) <= l /\ l <= 1 /\ round 24 l == l.
Proof.
  intros H. unfold clamp_load.
  assert (half : round 24 (1 # 2) == 1 # 2) by (vm_compute; reflexivity).
  assert (one : round 24 1 == 1) by (vm_compute; reflexivity).
  destruct lf as [|neg|q]; cbn [flt].
  - left. reflexivity.
  - destruct neg; right; [exists (1 # 2)|exists 1]; (split; [reflexivity|]); (split; [vm_compute; discriminate|]);
      (split; [vm_compute; discriminate|]); assumption.
  - right. destruct (Qle_bool q 1) eqn:E1; cbn [negb].
    + apply Qle_bool_iff in E1. destruct (Qle_bool (1 # 2) q) eqn:E2; cbn [negb].
      * apply Qle_bool_iff in E2. exists q. repeat split; auto.
        destruct H as (z & e & Hz & _ & Hq).
        assert (Z0 : (0 <= z)%Z).
        { destruct (Z.lt_ge_cases z 0) as [L|L]; [exfalso|assumption]. assert (P := pow2_pos e).
          assert (inject_Z z <= 0) by (change 0 with (inject_Z 0); rewrite <- Zle_Qle; lia). nra. }
        rewrite (round_comp 24 _ _ Hq). rewrite Hq. apply round_exact; [reflexivity|lia].
      * exists (1 # 2). split; [reflexivity|]. split; [vm_compute; discriminate|]. split; [vm_compute; discriminate|exact half].
    + exists 1. split; [reflexivity|]. split; [vm_compute; discriminate|]. split; [vm_compute; discriminate|exact one].
Qed.

Lemma clamp_load_nan lf : clamp_load lf = FNaN <-> lf = FNaN.
Proof.
  unfold clamp_load. split; [|intros ->; reflexivity].
  destruct lf as [|neg|q]; [reflexivity| |].
  - destruct neg; discriminate.
  - cbn [flt]. destruct (negb _); [discriminate|]. destruct (negb _); discriminate.
Qed.

Lemma clamp_multiplier_cases m :
  clamp_multiplier m = FNaN \/ exists mu, clamp_multiplier m = FVal mu /\ (6 # 5) <= mu /\ mu <= 5.
Proof.
  unfold clamp_multiplier. destruct m as [|neg|q]; cbn [flt].
  - left. reflexivity.
  - right. destruct neg; [exists (10066330 # 8388608)|exists 5]; (split; [reflexivity|]); split; vm_compute; discriminate.
  - right. destruct (Qle_bool q 5) eqn:E1; cbn [negb flt f_1_2].
    + apply Qle_bool_iff in E1. destruct (Qle_bool (10066330 # 8388608) q) eqn:E2; cbn [negb].
      * apply Qle_bool_iff in E2. exists q. split; [reflexivity|]. split; [|assumption].
        assert ((6 # 5) <= (10066330 # 8388608)) by (vm_compute; discriminate). lra.
      * exists (10066330 # 8388608). split; [reflexivity|]. split; vm_compute; discriminate.
    + exists 5. split; [reflexivity|]. split; vm_compute; discriminate.
Qed.

Lemma clamp_multiplier_nan m : clamp_multiplier m = FNaN <-> m = FNaN.
Proof.
  unfold clamp_multiplier. split; [|intros ->; reflexivity].
  destruct m as [|neg|q]; [reflexivity| |].
  - destruct neg; discriminate.
  - cbn [flt f_1_2]. destruct (negb _); [discriminate|]. destruct (negb _); discriminate.
Qed.

Lemma float_put_nan_int nan l mu s c : float_put nan (FVal l) (FVal mu) s c = float_put 0 (FVal l) (FVal mu) s c.
Proof. reflexivity. Qed.
