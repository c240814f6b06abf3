(** * Theorems about random numbers: C59, C60. *)
From Coq Require Import List NArith ZArith Bool Lia.
From Coq Require Import Strings.Byte.
From Verif Require Import Base BaseProofs EndianModel EndianProofs RandModel.
Import ListNotations.
Local Open Scope Z_scope.

Lemma two_halves w : 1 <= w -> 2 ^ w = 2 * 2 ^ (w - 1) /\ 0 < 2 ^ (w - 1).
Proof.
  intros H. split; [|apply Z.pow_pos_nonneg; lia].
  replace w with (Z.succ (w - 1)) at 1 by lia. apply Z.pow_succ_r. lia.
Qed.

Lemma wrap_s_id w z : 1 <= w -> - 2 ^ (w - 1) <= z < 2 ^ (w - 1) -> wrap_s w z = z.
Proof. intros Hw H. destruct (two_halves w Hw). unfold wrap_s. rewrite Z.mod_small; lia. Qed.
Lemma wrap_s_over w z : 1 <= w -> 2 ^ (w - 1) <= z < 2 ^ w + 2 ^ (w - 1) -> wrap_s w z = z - 2 ^ w.
Proof.
  intros Hw H. destruct (two_halves w Hw). unfold wrap_s. rewrite <- (Z.mod_add _ (-1)) by lia. rewrite Z.mod_small; lia.
Qed.
Lemma wrap_s_under w z : 1 <= w -> - 2 ^ (w - 1) - 2 ^ w <= z < - 2 ^ (w - 1) -> wrap_s w z = z + 2 ^ w.
Proof.
  intros Hw H. destruct (two_halves w Hw). unfold wrap_s. rewrite <- (Z.mod_add _ 1) by lia. rewrite Z.mod_small; lia.
Qed.
Lemma wrap_s_range w z : 1 <= w -> - 2 ^ (w - 1) <= wrap_s w z < 2 ^ (w - 1).
Proof. intros Hw. destruct (two_halves w Hw). unfold wrap_s. pose proof (Z.mod_pos_bound (z + 2 ^ (w - 1)) (2 ^ w)). lia. Qed.

(** An integer that a Go variable of that type can hold. *)
Definition is_int (w z : Z) : Prop := - 2 ^ (w - 1) <= z < 2 ^ (w - 1).
Definition is_uint (w z : Z) : Prop := 0 <= z < 2 ^ w.

(** The plain draws produce every number of their type and nothing else. *)
Theorem C59_plain_draws : forall buf, buf <> [] ->
  is_uint (8 * zlen buf) (rand_unsigned buf) /\ is_int (8 * zlen buf) (rand_signed buf).
Proof.
  intros buf H. pose proof (be_get_bound buf) as B.
  assert (Z.of_N (be_get buf) < 2 ^ (8 * zlen buf)) as B'.
  { rewrite pow256 in B. unfold zlen. apply N2Z.inj_lt in B. rewrite N2Z.inj_pow in B.
    replace (8 * Z.of_nat (length buf)) with (Z.of_N (8 * N.of_nat (length buf))) by lia. exact B. }
  split; [unfold is_uint, rand_unsigned; lia|].
  unfold is_int, rand_signed. apply wrap_s_range. unfold zlen. destruct buf; [congruence|]. simpl length. lia.
Qed.
Print Assumptions C59_plain_draws.
Example C59_plain_draws_applies : rand_unsigned [xff; x02] = 65282 /\ rand_signed [xff; x02] = -254.
Proof. split; reflexivity. Qed.

(** The unsigned functions: in range, and every number of the range can be drawn. *)
Theorem C59_unsigned_in_range : forall w data min max, 0 <= w -> is_uint w data -> is_uint w min -> is_uint w max -> min < max ->
  exists r, rand_unsigned_range w data min max = Ok r /\ min <= r < max.
Proof.
  unfold is_uint. intros w data min max Hw Hd Hmin Hmax H. unfold rand_unsigned_range, wrap_u.
  rewrite (Z.mod_small (max - min)) by lia. destruct (Z.eqb_spec (max - min) 0); [lia|].
  pose proof (Z.mod_pos_bound data (max - min) ltac:(lia)). rewrite Z.mod_small by lia. eexists. split; [reflexivity|lia].
Qed.
Print Assumptions C59_unsigned_in_range.
Example C59_unsigned_in_range_applies : is_uint 8 200 /\ is_uint 8 250 /\ rand_unsigned_range 8 77 200 250 = Ok 227.
Proof. unfold is_uint. split; [lia|]. split; [lia|reflexivity]. Qed.

Theorem C59_unsigned_onto : forall w r min max, 0 <= w -> is_uint w min -> is_uint w max -> min <= r < max ->
  exists data, is_uint w data /\ rand_unsigned_range w data min max = Ok r.
Proof.
  unfold is_uint. intros w r min max Hw Hmin Hmax H. exists (r - min). split; [lia|]. unfold rand_unsigned_range, wrap_u.
  rewrite (Z.mod_small (max - min)) by lia. destruct (Z.eqb_spec (max - min) 0); [lia|].
  rewrite (Z.mod_small (r - min)) by lia. rewrite Z.mod_small by lia. f_equal. lia.
Qed.
Print Assumptions C59_unsigned_onto.
Example C59_unsigned_onto_applies : exists data, is_uint 16 data /\ rand_unsigned_range 16 data 10 1000 = Ok 999.
Proof. exact (C59_unsigned_onto 16 999 10 1000 ltac:(lia) ltac:(unfold is_uint; lia) ltac:(unfold is_uint; lia) ltac:(lia)). Qed.

(** Full statement of C59 fails for every signed width of at least three bits: the draw -1 from [0, 3) gives -1. *)
Theorem C59_signed_in_range_refuted : forall w, 3 <= w ->
  ~ (forall data min max, is_int w data -> is_int w min -> is_int w max -> min < max ->
       exists r, rand_signed_range w data min max = Ok r /\ min <= r < max).
Proof.
  intros w Hw H. destruct (two_halves w ltac:(lia)) as [_ P].
  assert (4 <= 2 ^ (w - 1)) as P4.
  { replace 4 with (2 ^ 2) by reflexivity. apply Z.pow_le_mono_r; lia. }
  destruct (H (-1) 0 3) as (r & E & R); try (unfold is_int; lia).
  unfold rand_signed_range in E. rewrite (wrap_s_id w (3 - 0)) in E by lia.
  change (3 - 0 =? 0) with false in E. cbv iota in E. change (Z.rem (-1) (3 - 0) + 0) with (-1) in E.
  rewrite wrap_s_id in E by lia. assert (r = -1) by congruence. lia.
Qed.
Print Assumptions C59_signed_in_range_refuted.

(** The step by which the signed functions reduce the draw: the width of the range, or what it overflows to. *)
Definition reduction (w min max : Z) : Z := if max - min <? 2 ^ (w - 1) then max - min else 2 ^ w - (max - min).

(** Exactly when a signed draw is in range: the drawn number is not negative, or is a multiple of the step. No draw panics. *)
Theorem C59_signed_exact : forall w data min max, 1 <= w -> is_int w data -> is_int w min -> is_int w max -> min < max ->
  exists r, rand_signed_range w data min max = Ok r /\ is_int w r /\
            (min <= r < max <-> 0 <= data \/ (reduction w min max | data)).
Proof.
  unfold is_int. intros w data min max Hw Hd Hmin Hmax H. destruct (two_halves w Hw) as [P2 P].
  set (h := 2 ^ (w - 1)) in *. unfold rand_signed_range, reduction. fold h.
  assert (exists d, wrap_s w (max - min) = d /\ d <> 0 /\ Z.abs d = (if max - min <? h then max - min else 2 ^ w - (max - min)) /\
                    Z.abs d <= max - min /\ Z.abs d <= h /\ Z.abs d <= 2 ^ w - (max - min)) as (d & Ed & Nd & Ad & A1 & A2 & A3).
  { destruct (Z.ltb_spec (max - min) h) as [C|C].
    - exists (max - min). split; [apply wrap_s_id; fold h; lia|]. lia.
    - exists (max - min - 2 ^ w). split; [apply wrap_s_over; fold h; lia|]. lia. }
  rewrite Ed. destruct (Z.eqb_spec d 0); [lia|]. rewrite <- Ad. clear Ad.
  pose proof (Z.rem_bound_abs data d Nd) as B. set (q := Z.rem data d) in *.
  assert (0 <= data -> 0 <= q) as S1 by (intros; apply Z.rem_nonneg; lia).
  assert (data <= 0 -> q <= 0) as S2 by (intros; apply Z.rem_nonpos; lia).
  assert ((Z.abs d | data) <-> q = 0) as Dv.
  { rewrite Z.divide_abs_l. split; [apply Z.rem_divide; lia|intros E; apply Z.rem_divide; lia]. }
  exists (wrap_s w (q + min)). split; [reflexivity|]. split; [now apply wrap_s_range|]. rewrite Dv.
  destruct (Z_lt_le_dec q 0) as [C|C].
  - split; [|lia]. intros R. exfalso.
    destruct (Z_lt_le_dec (q + min) (- h)) as [U|U].
    + rewrite wrap_s_under in R by (fold h; lia). lia.
    + rewrite wrap_s_id in R by (fold h; lia). lia.
  - rewrite wrap_s_id by (fold h; lia). split; [intros _; lia|]. intros _. lia.
Qed.
Print Assumptions C59_signed_exact.
Example C59_signed_exact_applies : is_int 8 (-100) /\ is_int 8 (-7) /\ is_int 8 100 /\
  rand_signed_range 8 (-7) (-100) 100 = Ok (-107) /\ reduction 8 (-100) 100 = 56 /\ rand_signed_range 8 (-56) (-100) 100 = Ok (-100).
Proof. unfold is_int. repeat split; try lia; reflexivity. Qed.

(** What holds of the signed functions: draws that are not negative are in range.
    Missing from the full statement: about half of the draws. *)
Theorem C59_signed_nonnegative_partial : forall w data min max, 1 <= w -> is_int w data -> is_int w min -> is_int w max -> min < max ->
  0 <= data -> exists r, rand_signed_range w data min max = Ok r /\ min <= r < max.
Proof.
  intros w data min max Hw Hd Hmin Hmax H N. destruct (C59_signed_exact w data min max Hw Hd Hmin Hmax H) as (r & E & _ & R).
  exists r. split; [assumption|]. apply R. auto.
Qed.
Print Assumptions C59_signed_nonnegative_partial.
Example C59_signed_nonnegative_applies : rand_signed_range 8 127 (-100) 100 = Ok (-85).
Proof. reflexivity. Qed.

(** An empty range panics, for both kinds. *)
Theorem C59_empty_range_panics : forall w data min, 1 <= w ->
  rand_signed_range w data min min = Panic /\ rand_unsigned_range w data min min = Panic.
Proof.
  intros w data min Hw. destruct (two_halves w Hw). unfold rand_signed_range, rand_unsigned_range, wrap_u.
  rewrite Z.sub_diag, wrap_s_id by lia. rewrite Z.mod_0_l by lia. split; reflexivity.
Qed.
Print Assumptions C59_empty_range_panics.

(** ** C60 *)
(** The seed lies between 18 and 32, whatever is drawn, and each of these fifteen numbers occurs. *)
Theorem C60_verify_seed_exact : forall s, (exists data, is_uint 64 data /\ verify_seed data = Ok s) <-> 18 <= s < 33.
Proof.
  intros s. unfold verify_seed. change verify_seed_low with 18. change verify_seed_high with 33. split.
  - intros (data & Hd & E).
    destruct (C59_unsigned_in_range 64 data 18 33 ltac:(lia) Hd ltac:(unfold is_uint; lia) ltac:(unfold is_uint; lia) ltac:(lia)) as (r & Er & R).
    rewrite Er in E. cbn [rbind] in E. unfold wrap_u in E. rewrite Z.mod_small in E by lia. assert (s = r) by congruence. lia.
  - intros H. destruct (C59_unsigned_onto 64 s 18 33 ltac:(lia) ltac:(unfold is_uint; lia) ltac:(unfold is_uint; lia) H) as (data & Hd & E).
    exists data. split; [assumption|]. rewrite E. cbn [rbind]. unfold wrap_u. rewrite Z.mod_small by lia. reflexivity.
Qed.
Print Assumptions C60_verify_seed_exact.
Example C60_verify_seed_applies : verify_seed 1000000007 = Ok 20.
Proof. reflexivity. Qed.

(** Full statement of C60 fails for every draw. *)
Theorem C60_verify_seed_refuted : forall data, is_uint 64 data ->
  ~ (exists s, verify_seed data = Ok s /\ 2 ^ 16 <= s < 2 ^ 32 - 1).
Proof.
  intros data Hd (s & E & R). assert (18 <= s < 33) by (apply C60_verify_seed_exact; eauto). lia.
Qed.
Print Assumptions C60_verify_seed_refuted.
