(** * Number theory for the curve: Fermat's little theorem, Pocklington's criterion and square roots modulo primes of the form 4k+3. *)
From Coq Require Import List ZArith Znumtheory Zpow_facts Lia Bool Permutation.
From Verif Require Import Base.
Import ListNotations.
Local Open Scope Z_scope.

(** ** Fermat *)
Definition prodz (l : list Z) : Z := fold_right Z.mul 1 l.
Lemma prodz_perm l m : Permutation l m -> prodz l = prodz m.
Proof. induction 1; cbn [prodz fold_right] in *; unfold prodz in *; lia. Qed.
Lemma prodz_scaled p a l : 0 < p -> prodz (map (fun k => (a * k) mod p) l) mod p = (a ^ Z.of_nat (length l) * prodz l) mod p.
Proof.
  intros P. induction l as [|k l IH]; [reflexivity|]. cbn [map prodz fold_right]. fold (prodz l). fold (prodz (map (fun k => (a * k) mod p) l)).
  rewrite Z.mul_mod_idemp_l by lia. rewrite Z.mul_mod, IH, <- Z.mul_mod by lia.
  cbn [length]. rewrite Nat2Z.inj_succ, Z.pow_succ_r by lia. f_equal. lia.
Qed.
Lemma prime_prodz p l : prime p -> Forall (fun k => 0 < k < p) l -> ~ (p | prodz l).
Proof.
  intros P. induction 1 as [|k l H F IH]; cbn [prodz fold_right].
  - intros D. apply Z.divide_1_r_nonneg in D; [|destruct P; lia]. destruct P. lia.
  - intros D. apply prime_mult in D; [|assumption]. destruct D as [D|D]; [|exact (IH D)].
    apply Z.divide_pos_le in D; lia.
Qed.
Lemma cong_divide p a b : 0 < p -> (a mod p = b mod p <-> (p | a - b)).
Proof.
  intros P. split; intros H.
  - apply Z.mod_divide; [lia|]. rewrite Zminus_mod, H, Z.sub_diag. apply Z.mod_0_l. lia.
  - destruct H as (k & H). replace a with (b + k * p) by lia. apply Z.mod_add. lia.
Qed.
Lemma NoDup_map_in {A B} (f : A -> B) l : (forall x y, In x l -> In y l -> f x = f y -> x = y) -> NoDup l -> NoDup (map f l).
Proof.
  intros I. induction 1 as [|x l N D IH]; cbn [map]; [constructor|]. constructor.
  - intros C. apply in_map_iff in C. destruct C as (y & E & Iy). apply N. rewrite <- (I y x); [assumption|simpl; auto..|assumption].
  - apply IH. intros u v Iu Iv. apply I; simpl; auto.
Qed.
Theorem fermat p a : prime p -> ~ (p | a) -> (a ^ (p - 1)) mod p = 1.
Proof.
  intros P N. assert (1 < p) as P1 by (destruct P; assumption). assert (0 < p) as P0 by lia.
  set (l := map Z.of_nat (seq 1 (Z.to_nat (p - 1)))).
  assert (length l = Z.to_nat (p - 1)) as L by (unfold l; rewrite map_length; apply seq_length).
  assert (forall k, In k l <-> 0 < k < p) as I.
  { intros k. unfold l. rewrite in_map_iff. split.
    - intros (j & <- & J). apply in_seq in J. lia.
    - intros H. exists (Z.to_nat k). split; [lia|]. apply in_seq. lia. }
  assert (NoDup l) as D by (apply NoDup_map_in; [intros; lia|apply seq_NoDup]).
  assert (NoDup (map (fun k => (a * k) mod p) l)) as D'.
  { apply NoDup_map_in; [|assumption]. intros x y Ix Iy E. apply I in Ix, Iy. apply (proj1 (cong_divide p _ _ P0)) in E.
    rewrite <- Z.mul_sub_distr_l in E. apply prime_mult in E; [|assumption]. destruct E as [E|E]; [tauto|].
    apply (proj2 (cong_divide p _ _ P0)) in E. rewrite !Z.mod_small in E; lia. }
  assert (Permutation (map (fun k => (a * k) mod p) l) l) as Pm.
  { apply NoDup_Permutation_bis; [assumption|rewrite map_length; lia|]. intros x Ix. apply in_map_iff in Ix. destruct Ix as (k & <- & Ik). apply I in Ik. apply I.
    assert ((a * k) mod p <> 0) as Z0.
    { intros E. apply Z.mod_divide in E; [|lia]. apply prime_mult in E; [|assumption]. destruct E as [E|E]; [tauto|]. apply Z.divide_pos_le in E; lia. }
    pose proof (Z.mod_pos_bound (a * k) p). lia. }
  pose proof (prodz_scaled p a l ltac:(lia)) as S. rewrite (prodz_perm _ _ Pm), L, Z2Nat.id in S by lia.
  replace (prodz l) with (1 * prodz l) in S at 1 by lia. symmetry in S. apply (proj1 (cong_divide p _ _ P0)) in S. rewrite <- Z.mul_sub_distr_r in S.
  apply prime_mult in S; [|assumption]. destruct S as [S|S].
  - apply (proj2 (cong_divide p _ _ P0)) in S. rewrite S. apply Z.mod_small. lia.
  - exfalso. revert S. apply prime_prodz; [assumption|]. apply Forall_forall. intros k Ik. now apply I.
Qed.

(** ** Pocklington *)
Lemma pow_mod_1 r s m : 1 < r -> 0 <= m -> s mod r = 1 -> (s ^ m) mod r = 1.
Proof. intros R M E. rewrite Zpower_mod, E by lia. rewrite Z.pow_1_l by assumption. apply Z.mod_small. lia. Qed.
Lemma bezout_nonneg u v q n : 1 <= q -> 1 <= n -> u * q + v * n = 1 -> exists k m, 0 <= k /\ 0 <= m /\ k * q = 1 + m * n.
Proof.
  intros Q N B. assert (exists t, 0 <= t /\ - u <= t /\ v <= t) as (t & T0 & Tu & Tv) by (exists (Z.abs u + Z.abs v); clear; lia).
  assert (t * 1 <= t * n) as T1 by (apply Z.mul_le_mono_nonneg_l; assumption).
  assert (t * 1 <= t * q) as T2 by (apply Z.mul_le_mono_nonneg_l; assumption).
  exists (u + t * n), (t * q - v). split; [|split].
  - revert Tu T1. generalize (t * n). clear. intros. lia.
  - revert Tv T2. generalize (t * q). clear. intros. lia.
  - rewrite <- B. ring.
Qed.
Lemma order_divides r q s : 1 < r -> prime q -> (s ^ q) mod r = 1 -> s mod r <> 1 -> (s ^ (r - 1)) mod r = 1 -> (q | r - 1).
Proof.
  intros R Q E1 N E2. destruct (Zdivide_dec q (r - 1)) as [D|D]; [assumption|]. exfalso. apply N.
  assert (1 < q) as Q1 by (destruct Q; assumption).
  pose proof (rel_prime_bezout _ _ (prime_rel_prime _ Q _ D)) as [u v B].
  destruct (bezout_nonneg u v q (r - 1) ltac:(clear - Q1; lia) ltac:(clear - R; lia) B) as (k & m & K0 & M0 & K). clear u v B D Q.
  assert (0 <= r - 1) as R0 by (clear - R; lia).
  pose proof (Z.mul_nonneg_nonneg m (r - 1) M0 R0) as T3.
  assert (s ^ (k * q) mod r = 1) as S1 by (rewrite Z.mul_comm, Z.pow_mul_r by lia; apply pow_mod_1; assumption).
  rewrite K, Z.pow_add_r, Z.pow_1_r in S1 by (assumption || (clear; lia)). rewrite Z.mul_mod in S1 by (clear - R; lia).
  rewrite (Z.mul_comm m), Z.pow_mul_r, pow_mod_1, Z.mul_1_r, Z.mod_mod in S1 by (assumption || (clear - R; lia)). exact S1.
Qed.
Lemma prime_factor n : 1 < n -> exists r, prime r /\ (r | n).
Proof.
  intros H. assert (0 <= n) as H0 by lia. revert H. pattern n. apply Zlt_0_ind; [|exact H0]. clear n H0. intros n IH _ H.
  destruct (prime_dec n) as [P|P]; [exists n; split; [assumption|apply Z.divide_refl]|].
  destruct (not_prime_divide n H P) as (d & D1 & D2). destruct (IH d ltac:(lia) ltac:(lia)) as (r & R1 & R2).
  exists r. split; [assumption|]. exact (Z.divide_trans _ _ _ R2 D2).
Qed.
Lemma small_factor n : 1 < n -> ~ prime n -> exists r, prime r /\ (r | n) /\ r * r <= n.
Proof.
  intros H P. destruct (not_prime_divide n H P) as (d & D1 & e & D2).
  assert (1 < e < n) as E by nia.
  assert (forall x y r, 1 < x -> x <= y -> n = x * y -> prime r -> (r | x) -> (r | n) /\ r * r <= n) as G.
  { clear. intros x y r X XY -> R D. split; [now apply Z.divide_mul_l|]. assert (r <= x) by (apply Z.divide_pos_le; [lia|exact D]).
    destruct R. apply Z.mul_le_mono_nonneg; lia. }
  destruct (Z.le_gt_cases d e) as [C|C].
  - destruct (prime_factor d ltac:(lia)) as (r & R1 & R2). exists r. split; [assumption|]. apply (G d e); [lia..|assumption|assumption].
  - destruct (prime_factor e ltac:(lia)) as (r & R1 & R2). exists r. split; [assumption|]. apply (G e d); [lia..|assumption|assumption].
Qed.
Lemma prodz_divides qs n : NoDup qs -> Forall prime qs -> Forall (fun q => (q | n)) qs -> (prodz qs | n).
Proof.
  induction 1 as [|q qs N D IH]; intros P F; cbn [prodz fold_right]; [apply Z.divide_1_l|]. inversion P. inversion F. subst.
  destruct (IH H2 H6) as (k & Hk). assert (rel_prime q (prodz qs)) as R.
  { apply prime_rel_prime; [assumption|]. clear - H1 H2 N. intros C. induction qs as [|x qs IHq]; cbn [prodz fold_right] in C.
    - apply Z.divide_1_r_nonneg in C; destruct H1; lia.
    - inversion H2. subst. apply prime_mult in C; [|assumption]. destruct C as [C|C].
      + apply prime_div_prime in C; [|assumption..]. apply N. simpl. auto.
      + apply IHq; [intros I; apply N; simpl; auto|assumption|exact C]. }
  fold (prodz qs). assert (q | k) as (j & Hj).
  { apply (Gauss q (prodz qs)); [|assumption]. rewrite Z.mul_comm, <- Hk. assumption. }
  exists j. subst k. rewrite Hk. lia.
Qed.
Theorem pocklington n (ws : list (Z * Z)) : 1 < n ->
  NoDup (map fst ws) -> Forall (fun w => prime (fst w)) ws -> n < prodz (map fst ws) * prodz (map fst ws) ->
  Forall (fun w => (fst w | n - 1) /\ (snd w ^ (n - 1)) mod n = 1 /\ Z.gcd ((snd w ^ ((n - 1) / fst w)) mod n - 1) n = 1) ws ->
  prime n.
Proof.
  intros H N P B W. destruct (prime_dec n) as [|C]; [assumption|]. exfalso.
  destruct (small_factor n H C) as (r & R & Rd & Rs). assert (1 < r) as R1 by (destruct R; assumption).
  assert (prodz (map fst ws) | r - 1) as D.
  { apply prodz_divides; [assumption| |].
    - rewrite Forall_map. exact P.
    - rewrite Forall_map. rewrite Forall_forall in *. intros [q a] I. specialize (P _ I). destruct (W _ I) as (Wd & W1 & W2). cbn [fst snd] in *.
      assert (1 < q) as Q1 by (destruct P; assumption).
      set (s := a ^ ((n - 1) / q)) in *.
      assert (s ^ q = a ^ (n - 1)) as Es.
      { unfold s. rewrite <- Z.pow_mul_r by (try apply Z.div_pos; lia). f_equal. destruct Wd as (k & ->). rewrite Z.div_mul by lia. reflexivity. }
      assert (forall x y, x mod n = y mod n -> x mod r = y mod r) as Down.
      { intros x y E. apply (cong_divide r); [lia|]. apply (cong_divide n) in E; [|lia]. exact (Z.divide_trans _ _ _ Rd E). }
      assert ((s ^ q) mod r = 1) as S1.
      { rewrite Es. rewrite (Down _ 1); [apply Z.mod_small; lia|]. rewrite W1. symmetry. apply Z.mod_small. lia. }
      apply (order_divides r q s R1 P S1).
      + intros E. assert (r | (s mod n) - 1) as Dr.
        { apply (cong_divide r); [lia|]. rewrite (Down (s mod n) s) by (apply Z.mod_mod; lia). rewrite E. symmetry. apply Z.mod_small. lia. }
        pose proof (Z.gcd_greatest _ _ _ Dr Rd) as G. rewrite W2 in G. apply Z.divide_1_r_nonneg in G; lia.
      + apply fermat; [assumption|]. intros Ds.
        assert (r | s ^ q) as C1. { replace q with (1 + (q - 1)) by lia. rewrite Z.pow_add_r by lia. apply Z.divide_mul_l. now rewrite Z.pow_1_r. }
        apply Z.mod_divide in C1; [|clear - R1; lia]. rewrite S1 in C1. discriminate. }
  assert (prodz (map fst ws) <= r - 1) as L by (apply Z.divide_pos_le; [lia|exact D]).
  assert (0 < prodz (map fst ws)) as F0.
  { clear - P. induction P as [|w ws Pw P IH]; cbn [map prodz fold_right]; [lia|]. fold (prodz (map fst ws)). destruct Pw. nia. }
  nia.
Qed.
(** The conditions in a computable form. *)
Definition pock_check (n : Z) (ws : list (Z * Z)) : bool :=
  (1 <? n) && (n <? prodz (map fst ws) * prodz (map fst ws)) &&
  forallb (fun w => ((n - 1) mod (fst w) =? 0) && (0 <=? (n - 1) / fst w) &&
                    let s := Zpow_mod (snd w) ((n - 1) / fst w) n in (Zpow_mod s (fst w) n =? 1) && (Z.gcd (s - 1) n =? 1)) ws.
Lemma pock_check_ok n ws : pock_check n ws = true -> NoDup (map fst ws) -> Forall (fun w => prime (fst w)) ws -> prime n.
Proof.
  unfold pock_check. rewrite !andb_true_iff. intros ((H1 & H2) & H3) N P. apply Z.ltb_lt in H1, H2.
  apply (pocklington n ws H1 N P H2). rewrite Forall_forall in *. rewrite forallb_forall in H3. intros w I. specialize (H3 w I). specialize (P w I).
  cbv zeta in H3. rewrite !andb_true_iff in H3. destruct H3 as ((A & A') & B & C). apply Z.eqb_eq in A, B, C. apply Z.leb_le in A'. destruct P as (P1 & _).
  assert (n <> 0) as N0 by (clear - H1; lia). rewrite !Zpow_mod_correct in B by assumption. rewrite Zpow_mod_correct in C by assumption.
  rewrite <- Zpower_mod, <- Z.pow_mul_r in B by (clear - A' P1 H1; lia).
  assert ((n - 1) / fst w * fst w = n - 1) as D by (rewrite Z.mul_comm; symmetry; apply Z.div_exact; [clear - P1; lia|exact A]). rewrite D in B.
  split; [apply Z.mod_divide; [clear - P1; lia|exact A]|]. auto.
Qed.
(** Small primes by trial division. *)
Fixpoint trial (fuel : nat) (n k : Z) : bool :=
  match fuel with O => false | S fuel => if n <? k * k then true else if n mod k =? 0 then false else trial fuel n (k + 1) end.
Lemma trial_ok fuel : forall n k, 1 < k -> trial fuel n k = true -> 1 < n -> (forall d, 1 < d < k -> ~ (d | n)) -> prime n.
Proof.
  induction fuel as [|fuel IH]; intros n k K H N F; cbn [trial] in H; [discriminate|].
  destruct (Z.ltb_spec n (k * k)).
  - destruct (prime_dec n) as [|C]; [assumption|]. exfalso. destruct (small_factor n N C) as (r & R & Rd & Rs). destruct R.
    apply (F r); [nia|assumption].
  - destruct (Z.eqb_spec (n mod k) 0); [discriminate|]. apply (IH n (k + 1)); [lia|assumption..|].
    intros d D. destruct (Z.eq_dec d k) as [->|]; [|apply F; lia]. intros C. apply Z.mod_divide in C; lia.
Qed.
Lemma trial_prime fuel n : trial fuel n 2 = true -> 1 < n -> prime n.
Proof. intros H N. apply (trial_ok fuel n 2); [lia|assumption..|]. intros; lia. Qed.

(** ** Square roots modulo a prime of the form 4k+3 *)
Section Roots.
  Context (p : Z) (Pp : prime p) (P4 : p mod 4 = 3).
  Let p1 : 1 < p. Proof. destruct Pp. assumption. Qed.
  (** If [x] is a square then x^((p+1)/4) is one of its roots. *)
  Lemma root_of_square x y : (y * y) mod p = x mod p -> (x ^ ((p + 1) / 4) * x ^ ((p + 1) / 4)) mod p = x mod p.
  Proof.
    intros E. assert (4 * ((p + 1) / 4) = p + 1) as D by (pose proof (Z.div_mod p 4); pose proof (Z.div_mod (p + 1) 4);
      assert ((p + 1) mod 4 = 0) by (rewrite Z.add_mod, P4 by lia; reflexivity); lia).
    assert (0 <= (p + 1) / 4) by (apply Z.div_pos; lia).
    rewrite <- Z.pow_add_r by lia. rewrite Zpower_mod, <- E, <- Zpower_mod by lia.
    replace (y * y) with (y ^ 2) by lia. rewrite <- Z.pow_mul_r by lia.
    replace (2 * ((p + 1) / 4 + (p + 1) / 4)) with ((p - 1) + 2) by lia. rewrite Z.pow_add_r by lia.
    destruct (Zdivide_dec p y) as [Dv|Dv].
    - assert (forall e, 0 < e -> (y ^ e) mod p = 0) as Z0.
      { intros e He. apply Z.mod_divide; [lia|]. replace e with (1 + (e - 1)) by lia. rewrite Z.pow_add_r, Z.pow_1_r by lia. now apply Z.divide_mul_l. }
      rewrite Z.mul_mod, !Z0 by lia. apply Z.mod_0_l. lia.
    - rewrite Z.mul_mod, (fermat p y Pp Dv), Z.mul_1_l, Z.mod_mod by lia. reflexivity.
  Qed.
  (** Two roots agree up to sign. *)
  Lemma roots_sign y z : (y * y) mod p = (z * z) mod p -> y mod p = z mod p \/ y mod p = (- z) mod p.
  Proof.
    intros E. apply (cong_divide p) in E; [|lia]. replace (y * y - z * z) with ((y - z) * (y + z)) in E by lia.
    apply prime_mult in E; [|assumption]. destruct E as [E|E]; [left|right]; apply (cong_divide p); [lia|assumption|lia|].
    replace (y - - z) with (y + z) by lia. assumption.
  Qed.
  (** Minus one is not a square. *)
  Lemma minus_one_no_square i : (i * i) mod p <> (-1) mod p.
  Proof.
    intros E. destruct (Zdivide_dec p i) as [D|D].
    - assert ((i * i) mod p = 0) as Z0 by (apply Z.mod_divide; [lia|]; now apply Z.divide_mul_l).
      rewrite Z0 in E. symmetry in E. apply Z.mod_divide in E; [|lia]. apply Z.divide_opp_r in E. apply Z.divide_1_r_nonneg in E; lia.
    - pose proof (fermat p i Pp D) as F. set (h := (p - 1) / 2).
      assert (p - 1 = 2 * h) as Hh. { unfold h. pose proof (Z.div_mod p 4). pose proof (Z.div_mod (p - 1) 2).
        assert ((p - 1) mod 2 = 0); [|lia]. replace (p - 1) with ((2 * (p / 4) + 1) * 2) by lia. apply Z.mod_mul. lia. }
      assert (h = 2 * (p / 4) + 1) as Ho by (pose proof (Z.div_mod p 4); lia). assert (0 <= p / 4) by (apply Z.div_pos; lia).
      rewrite Hh, Z.pow_mul_r in F by lia. replace (i ^ 2) with (i * i) in F by lia.
      rewrite Zpower_mod, E, <- Zpower_mod in F by lia. rewrite Ho, Z.pow_add_r, Z.pow_mul_r in F by lia.
      change ((-1) ^ 2) with 1 in F. rewrite Z.pow_1_l in F by lia. change (1 * (-1) ^ 1) with (-1) in F.
      assert (-1 mod p = p - 1) as M. { symmetry. apply (Z.mod_unique _ _ (-1)); lia. }
      assert (2 < p) by (destruct (Z.eq_dec p 2) as [E2|]; [rewrite E2 in P4; discriminate|lia]). lia.
  Qed.
  (** Of [y] and [-y] at most one is a square, unless zero. *)
  Lemma one_square y u v : y mod p <> 0 -> (u * u) mod p = y mod p -> (v * v) mod p <> (- y) mod p.
  Proof.
    intros N U V. assert (~ (p | y)) as Ny by (intros D; apply N; now apply Z.mod_divide; [lia|]).
    assert (~ (p | u)) as Nu. { intros D. apply N. rewrite <- U. apply Z.mod_divide; [lia|]. now apply Z.divide_mul_l. }
    (* i = v / u *)
    apply (minus_one_no_square (v * u ^ (p - 2))).
    assert (2 < p) by (destruct (Z.eq_dec p 2) as [E2|]; [rewrite E2 in P4; discriminate|lia]).
    set (w := u ^ (p - 2)).
    assert ((u * w) mod p = 1) as Uw.
    { unfold w. replace (u * u ^ (p - 2)) with (u ^ (p - 1)); [now apply fermat|]. replace (p - 1) with (1 + (p - 2)) by lia.
      rewrite Z.pow_add_r, Z.pow_1_r by lia. reflexivity. }
    assert ((y * (w * w)) mod p = 1) as Yw.
    { rewrite Z.mul_mod, <- U, <- Z.mul_mod by lia. replace (u * u * (w * w)) with ((u * w) * (u * w)) by ring.
      rewrite Z.mul_mod, Uw by lia. apply Z.mod_small. lia. }
    replace (v * w * (v * w)) with (v * v * (w * w)) by ring. rewrite Z.mul_mod, V, <- Z.mul_mod by lia.
    replace (- y * (w * w)) with ((-1) * (y * (w * w))) by ring. rewrite Z.mul_mod, Yw, Z.mul_1_r, Z.mod_mod by lia. reflexivity.
  Qed.
End Roots.
