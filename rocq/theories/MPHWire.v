(** * Lemmas about termination and the byte format of perfect hash tables. *)
From Coq Require Import List NArith ZArith Bool Lia Permutation Sorted.
From Coq Require Import Strings.Byte.
From Verif Require Import Base BaseProofs EndianModel EndianProofs KeyModel KeySpec KeyProofs MurmurProofs MPHModel MPHSpec MPHProofs.
Import ListNotations.
Local Open Scope N_scope.

(** ** Hashes *)
Lemma fold_xor {A} (f : A -> N) (l : list A) : forall a, fold_left (fun h s => N.lxor h (f s)) l a = N.lxor a (fold_right N.lxor 0 (map f l)).
Proof.
  induction l as [|x l IH]; intros a; cbn [fold_left map fold_right]; [now rewrite N.lxor_0_r|].
  rewrite IH. apply N.lxor_assoc.
Qed.
Lemma ikey_hash_xor f k : ikey_hash f k = xor_hash f (ikey_keys k).
Proof. unfold ikey_hash. rewrite (fold_xor (fun s => f (gcontent s))). apply N.lxor_0_l. Qed.
Lemma xor_hash_perm f l m : Permutation l m -> xor_hash f l = xor_hash f m.
Proof.
  unfold xor_hash. induction 1 as [|x l m _ IH|x y l|l m k _ IH1 _ IH2]; cbn [map fold_right]; try congruence.
  rewrite <- !N.lxor_assoc. f_equal. apply N.lxor_comm.
Qed.
Lemma xor_hash_bound f l n : (forall b, f b < 2 ^ n) -> xor_hash f l < 2 ^ n.
Proof.
  intros B. unfold xor_hash. induction l as [|x l IH]; cbn [map fold_right]; [pose proof (N.pow_nonzero 2 n); lia|].
  apply lxor_bound; [apply B|assumption].
Qed.

Lemma next_pow2_is_pow n : n <= 2 ^ 62 -> exists c, next_pow2 n = 2 ^ c.
Proof. intros L. destruct (next_pow2_loop_spec 62 1 n 62 0 eq_refl eq_refl L) as (_ & c & E & _). exists c. exact E. Qed.

Lemma slot_mod H seed n k : n <= 2 ^ 62 -> slot H seed (next_pow2 n - 1) k = N.to_nat (xor_hash (H seed) (ikey_keys k) mod next_pow2 n).
Proof.
  intros L. destruct (next_pow2_is_pow n L) as (c & E). unfold slot. rewrite E, ikey_hash_xor.
  rewrite N.sub_1_r, <- N.ones_equiv, N.land_ones. reflexivity.
Qed.

Lemma nodup_app_iff {A} (l m : list A) : NoDup (l ++ m) <-> NoDup l /\ NoDup m /\ forall x, In x l -> In x m -> False.
Proof.
  induction l as [|a l IH]; cbn [app].
  - split; [intros N; split; [constructor|split; [assumption|intros x []]]|tauto].
  - split.
    + intros N. inversion N as [|? ? Na N']; subst. apply IH in N'. destruct N' as (N1 & N2 & D). rewrite in_app_iff in Na.
      split; [constructor; tauto|]. split; [assumption|]. intros x [<- | I] I2; [tauto|]. eauto.
    + intros (N1 & N2 & D). inversion N1 as [|? ? Na N']; subst. constructor.
      * rewrite in_app_iff. intros [I|I]; [tauto|]. apply (D a); [now left|assumption].
      * apply IH. split; [assumption|]. split; [assumption|]. intros x I1 I2. apply (D x); [now right|assumption].
Qed.

Section WithHash.
Context (H : N -> bytes -> N).

(** ** When the build stops *)
Lemma seed_loop_none mask1 keys vals occ level1 fuel fuel' :
  mask1 < N.of_nat (length occ) -> length level1 = length occ -> Forall (fun i => (i < length keys)%nat) vals ->
  2 ^ 32 <= N.of_nat fuel -> seed_loop H fuel mask1 keys vals 0 occ level1 = Ok None ->
  seed_loop H fuel' mask1 keys vals 0 occ level1 = Ok None.
Proof.
  intros Lm Ll Fv Lf E.
  pose proof (seed_loop_spec H fuel mask1 keys vals 0 occ level1 Lm Ll ltac:(lia) Fv) as Q. rewrite E in Q.
  pose proof (seed_loop_spec H fuel' mask1 keys vals 0 occ level1 Lm Ll ltac:(lia) Fv) as Q'.
  destruct (seed_loop H fuel' mask1 keys vals 0 occ level1) as [[[[s o] l]|]| |]; [|reflexivity|contradiction..].
  exfalso. destruct Q' as (Hs & G & _). apply (Q (N.to_nat s)); [lia|]. rewrite N2Nat.id, N.add_0_l, N.mod_small by assumption. assumption.
Qed.

Lemma place_none mask1 keys bs fuel fuel' : 2 ^ 32 <= N.of_nat fuel -> forall level0 occ level1,
  mask1 < N.of_nat (length occ) -> length level1 = length occ ->
  Forall (fun b => Forall (fun i => (i < length keys)%nat) (snd b)) bs ->
  Forall (fun b => (fst b < length level0)%nat) bs ->
  place_buckets H fuel mask1 keys bs level0 occ level1 = Ok None -> place_buckets H fuel' mask1 keys bs level0 occ level1 = Ok None.
Proof.
  intros Lf. induction bs as [|[n vals] bs IH]; intros level0 occ level1 Lm Ll Fv Fn E; [discriminate|].
  inversion Fv as [|? ? Fv1 Fv2]; subst. inversion Fn as [|? ? Fn1 Fn2]; subst. cbn [fst snd] in *.
  cbn [place_buckets] in *.
  pose proof (seed_loop_none mask1 keys vals occ level1 fuel fuel' Lm Ll Fv1 Lf) as Nn.
  pose proof (seed_loop_spec H fuel mask1 keys vals 0 occ level1 Lm Ll ltac:(lia) Fv1) as Q.
  pose proof (seed_loop_spec H fuel' mask1 keys vals 0 occ level1 Lm Ll ltac:(lia) Fv1) as Q'.
  destruct (seed_loop H fuel mask1 keys vals 0 occ level1) as [[r|]| |] eqn:E1; [|rewrite (Nn eq_refl); reflexivity|contradiction..].
  destruct (seed_loop H fuel' mask1 keys vals 0 occ level1) as [[r'|]| |] eqn:E2; [|reflexivity|contradiction..].
  assert (r' = r) as ->.
  { destruct (Nat.le_ge_cases fuel fuel') as [L|L].
    - rewrite (seed_loop_mono H _ _ _ _ _ _ _ _ _ E1 L) in E2. congruence.
    - rewrite (seed_loop_mono H _ _ _ _ _ _ _ _ _ E2 L) in E1. congruence. }
  destruct r as [[s o] l]. cbn [rbind] in *. unfold set_res in *. destruct (Nat.ltb_spec n (length level0)); [|lia].
  cbn [rbind] in *. destruct Q as (_ & _ & Lo & Lv & _). apply IH; try assumption; [now rewrite Lo|lia|now rewrite set_nth_length].
Qed.

Lemma mph_build_none fuel fuel' sort keys by_key vseed : (forall l, Permutation l (sort l)) -> N.of_nat (length keys) <= 2 ^ 62 ->
  2 ^ 32 <= N.of_nat fuel -> mph_build H fuel sort keys by_key vseed = Ok None -> mph_build H fuel' sort keys by_key vseed = Ok None.
Proof.
  intros P L Lf. unfold mph_build. destruct (mph_buckets_spec H keys L) as (bs & Eb & Bs). rewrite Eb. cbn [rbind].
  apply (buckets_of_perm _ _ _ _ _ (P bs)) in Bs. destruct (buckets_of_bounds _ _ _ _ Bs) as [F1 F2].
  destruct (next_pow2_spec (N.of_nat (length keys) / 4)) as (_ & P0 & _).
  { transitivity (N.of_nat (length keys)); [|assumption]. apply N.div_le_upper_bound; lia. }
  destruct (next_pow2_spec (N.of_nat (length keys)) L) as (_ & P1 & _).
  set (len0 := next_pow2 (N.of_nat (length keys) / 4)) in *. set (len1 := next_pow2 (N.of_nat (length keys))) in *.
  replace (len0 - 1 + 1) with len0 in F2 by lia.
  destruct (place_buckets H fuel (len1 - 1) keys (sort bs) _ _ _) as [[[l0 l1]|]| |] eqn:E; cbn [rbind]; try discriminate.
  intros _. rewrite (place_none (len1 - 1) keys (sort bs) fuel fuel' Lf _ _ _); [reflexivity|..|exact E]; rewrite ?repeat_length; auto; lia.
Qed.

Lemma mph_build_mono fuel fuel' sort keys by_key vseed t : (fuel <= fuel')%nat ->
  mph_build H fuel sort keys by_key vseed = Ok (Some t) -> mph_build H fuel' sort keys by_key vseed = Ok (Some t).
Proof.
  intros L E. unfold mph_build in *. destruct (mph_buckets H keys) as [bs| |]; cbn [rbind] in *; try discriminate.
  destruct (place_buckets H fuel _ keys (sort bs) _ _ _) as [[[l0 l1]|]| |] eqn:Ep; cbn [rbind] in *; try discriminate.
  rewrite (place_mono H _ _ _ _ _ L _ _ _ _ Ep). exact E.
Qed.

(** Two keys that no seed tells apart: the build never stops. *)
Lemma twins_never fuel sort keys by_key vseed i j a b : (forall l, Permutation l (sort l)) -> N.of_nat (length keys) < 2 ^ 32 ->
  nth_error keys i = Some a -> nth_error keys j = Some b -> i <> j -> (forall s, ikey_hash (H s) a = ikey_hash (H s) b) ->
  mph_build H fuel sort keys by_key vseed = Ok None.
Proof.
  intros P L Ea Eb Nij Eh.
  pose proof (mph_build_spec H fuel sort keys by_key vseed P ltac:(lia)) as Q.
  destruct (mph_build H fuel sort keys by_key vseed) as [[t|]| |]; [|reflexivity|contradiction..]. exfalso.
  destruct Q as (_ & _ & _ & _ & _ & _ & _ & Q).
  destruct (Q i a Ea) as (s & E1 & E2). destruct (Q j b Eb) as (s' & E3 & E4). unfold slot in *. rewrite <- Eh in E3, E4.
  assert (s' = s) by congruence. subst s'. rewrite E4 in E2. injection E2 as E2.
  assert (i < length keys)%nat by (apply nth_error_Some; congruence). assert (j < length keys)%nat by (apply nth_error_Some; congruence).
  rewrite !N.mod_small in E2 by lia. lia.
Qed.

(** *** Enough free slots *)
Definition positions (v : bool) (occ : list bool) : list nat :=
  filter (fun n => match nth_error occ n with Some o => Bool.eqb o v | None => false end) (seq 0 (length occ)).

Lemma positions_in v occ n : In n (positions v occ) <-> nth_error occ n = Some v.
Proof.
  unfold positions. rewrite filter_In, in_seq. split.
  - intros (_ & E). destruct (nth_error occ n) as [o|]; [|discriminate]. apply eqb_prop in E. now subst.
  - intros E. assert (n < length occ)%nat by (apply nth_error_Some; congruence). split; [lia|]. rewrite E. apply eqb_reflx.
Qed.
Lemma positions_nodup v occ : NoDup (positions v occ).
Proof. apply NoDup_filter, seq_NoDup. Qed.
Lemma positions_total occ : (length (positions true occ) + length (positions false occ) = length occ)%nat.
Proof.
  rewrite <- app_length. transitivity (length (seq 0 (length occ))); [|apply seq_length]. apply Permutation_length. apply NoDup_Permutation.
  - apply nodup_app_iff. split; [apply positions_nodup|]. split; [apply positions_nodup|]. intros n I1 I2. apply positions_in in I1, I2. congruence.
  - apply seq_NoDup.
  - intros n. rewrite in_app_iff, !positions_in, in_seq. split.
    + intros [E|E]; (split; [lia|]; simpl; apply nth_error_Some; congruence).
    + intros (_ & L). simpl in L. destruct (nth_error_some occ n L) as (o & E). rewrite E. destruct o; auto.
Qed.

Lemma existsb_in n l : existsb (Nat.eqb n) l = true <-> In n l.
Proof.
  rewrite existsb_exists. split; [intros (x & I & E); apply Nat.eqb_eq in E; now subst|]. intros I. exists n. split; [assumption|apply Nat.eqb_refl].
Qed.

Lemma positions_grow occ occ' S : NoDup S -> (forall n, In n S -> nth_error occ n = Some false) ->
  (forall n, nth_error occ' n = if existsb (Nat.eqb n) S then Some true else nth_error occ n) ->
  length (positions true occ') = (length (positions true occ) + length S)%nat.
Proof.
  intros ND F E. rewrite <- app_length. apply Permutation_length. apply NoDup_Permutation; [apply positions_nodup|..].
  - apply nodup_app_iff. split; [apply positions_nodup|]. split; [assumption|]. intros n I1 I2. apply positions_in in I1. apply F in I2. congruence.
  - intros n. rewrite in_app_iff, !positions_in, E. destruct (existsb (Nat.eqb n) S) eqn:X.
    + apply existsb_in in X. tauto.
    + split; [auto|]. intros [I|I]; [assumption|]. apply existsb_in in I. congruence.
Qed.

(** Every bucket finds a seed when the seeds are rich enough. *)
Lemma place_rich fuel mask1 keys bs : 2 ^ 32 <= N.of_nat fuel ->
  (forall vals targets, NoDup vals -> Forall (fun i => (i < length keys)%nat) vals -> NoDup targets -> length vals = length targets ->
     Forall (fun n => N.of_nat n <= mask1) targets -> exists s, s < 2 ^ 32 /\ slots_of H s mask1 keys vals = targets) ->
  forall level0 occ level1,
  N.of_nat (length occ) = mask1 + 1 -> length level1 = length occ ->
  Forall (fun b => Forall (fun i => (i < length keys)%nat) (snd b) /\ NoDup (snd b)) bs ->
  Forall (fun b => (fst b < length level0)%nat) bs ->
  (length (positions true occ) + length (concat (map snd bs)) <= length occ)%nat ->
  exists r, place_buckets H fuel mask1 keys bs level0 occ level1 = Ok (Some r).
Proof.
  intros Lf Rich. induction bs as [|[n vals] bs IH]; intros level0 occ level1 Lo Ll Fv Fn Room; [cbn; eauto|].
  inversion Fv as [|? ? (Fv1 & ND) Fv2]; subst. inversion Fn as [|? ? Fn1 Fn2]; subst. cbn [fst snd map concat] in *.
  rewrite app_length in Room. cbn [place_buckets].
  pose proof (positions_total occ) as Tot.
  destruct (Rich vals (firstn (length vals) (positions false occ)) ND Fv1) as (s & Hs & Es).
  { pose proof (positions_nodup false occ) as N. rewrite <- (firstn_skipn (length vals) (positions false occ)) in N. apply nodup_app_iff in N. tauto. }
  { rewrite firstn_length. lia. }
  { apply Forall_forall. intros x I. assert (In x (positions false occ)) as I'.
    { rewrite <- (firstn_skipn (length vals) (positions false occ)). apply in_or_app. auto. }
    apply positions_in in I'. assert (x < length occ)%nat by (apply nth_error_Some; congruence). lia. }
  assert (good_seed H mask1 keys vals occ s) as G.
  { split; rewrite Es.
    - pose proof (positions_nodup false occ) as N. rewrite <- (firstn_skipn (length vals) (positions false occ)) in N. apply nodup_app_iff in N. tauto.
    - intros x I. apply positions_in. rewrite <- (firstn_skipn (length vals) (positions false occ)). apply in_or_app. auto. }
  pose proof (seed_loop_spec H fuel mask1 keys vals 0 occ level1 ltac:(lia) Ll ltac:(lia) Fv1) as Q.
  destruct (seed_loop H fuel mask1 keys vals 0 occ level1) as [[[[s' occ'] l']|]| |]; [|..|contradiction].
  - destruct Q as (_ & (G1 & G2) & Q3 & Q4 & _ & _ & Q6 & _). cbn [rbind]. unfold set_res. destruct (Nat.ltb_spec n (length level0)); [|lia]. cbn [rbind].
    pose proof (positions_grow occ occ' _ G1 G2 Q6) as Gr. unfold slots_of in Gr. rewrite map_length in Gr.
    apply IH; [rewrite Q3; assumption|lia|assumption|now rewrite set_nth_length|lia].
  - exfalso. apply (Q (N.to_nat s)); [lia|]. rewrite N2Nat.id, N.add_0_l, N.mod_small by assumption. assumption.
  - contradiction.
Qed.

Lemma buckets_concat keys mask0 bs : buckets_of H keys mask0 bs -> NoDup (concat (map snd bs)).
Proof.
  intros (A & B & _). revert A B. induction bs as [|[n vals] bs IH]; intros A B; cbn [map concat snd]; [constructor|].
  cbn [map fst] in A. inversion A as [|? ? Nin A']; subst. apply nodup_app_iff. destruct (B n vals (or_introl eq_refl)) as (_ & ND & _ & Bv).
  split; [assumption|]. split; [apply IH; [assumption|]; intros n' v' I; apply B; now right|].
  intros i I1 I2. apply in_concat in I2. destruct I2 as (v & Iv & Ii). apply in_map_iff in Iv. destruct Iv as ([n' v'] & Ev & Ib). cbn [snd] in Ev. subst v'.
  destruct (Bv i I1) as (k & Ek & En). destruct (B n' v (or_intror Ib)) as (_ & _ & _ & Bv'). destruct (Bv' i Ii) as (k' & Ek' & En').
  assert (n' = n) as Enn by congruence. apply Nin. rewrite <- Enn. apply (in_map fst) in Ib. exact Ib.
Qed.

Lemma mph_build_rich fuel sort keys by_key vseed : (forall l, Permutation l (sort l)) -> N.of_nat (length keys) <= 2 ^ 62 ->
  2 ^ 32 <= N.of_nat fuel -> NoDup (map ikey_keys keys) -> rich H (next_pow2 (N.of_nat (length keys))) (map ikey_keys keys) ->
  exists t, mph_build H fuel sort keys by_key vseed = Ok (Some t).
Proof.
  intros P L Lf ND Rich. unfold mph_build. destruct (mph_buckets_spec H keys L) as (bs & Eb & Bs). rewrite Eb. cbn [rbind].
  apply (buckets_of_perm _ _ _ _ _ (P bs)) in Bs. destruct (buckets_of_bounds _ _ _ _ Bs) as [F1 F2].
  destruct (next_pow2_spec (N.of_nat (length keys) / 4)) as (_ & P0 & _).
  { transitivity (N.of_nat (length keys)); [|assumption]. apply N.div_le_upper_bound; lia. }
  destruct (next_pow2_spec (N.of_nat (length keys)) L) as (Pn & P1 & _).
  pose proof (fun s k => slot_mod H s (N.of_nat (length keys)) k L) as Sl.
  set (len0 := next_pow2 (N.of_nat (length keys) / 4)) in *. set (len1 := next_pow2 (N.of_nat (length keys))) in *.
  replace (len0 - 1 + 1) with len0 in F2 by lia.
  destruct (place_rich fuel (len1 - 1) keys (sort bs) Lf) with (level0 := repeat 0 (N.to_nat len0)) (occ := repeat false (N.to_nat len1)) (level1 := repeat 0 (N.to_nat len1))
    as ((l0 & l1) & E).
  - intros vals targets Nv Fv Nt Le Ft.
    assert (forall v t, length v = length t -> Forall (fun i => (i < length keys)%nat) v ->
              exists ms : list (list (option (list byte)) * N), map fst ms = map (fun i => match nth_error keys i with Some k => ikey_keys k | None => [] end) v /\
                         map snd ms = map N.of_nat t) as Zip.
    { induction v as [|x v IHv]; intros [|y t0] Lv Fx; try discriminate; [exists []; auto|]. injection Lv as Lv. inversion Fx; subst.
      destruct (IHv t0 Lv) as (ms & M1 & M2); [assumption|]. exists ((match nth_error keys x with Some k => ikey_keys k | None => [] end, N.of_nat y) :: ms).
      cbn [map fst snd]. now rewrite M1, M2. }
    destruct (Zip vals targets Le Fv) as (ms & M1 & M2).
    destruct (Rich ms) as (s & Hs & Es).
    + rewrite M1. clear - Nv Fv ND. induction vals as [|i vals IHv]; cbn [map]; [constructor|]. inversion Nv; subst. inversion Fv; subst.
      constructor; [|now apply IHv]. rewrite in_map_iff. intros (j & Ej & Ij). rewrite Forall_forall in *.
      destruct (nth_error_some keys i) as (ki & Eki); [assumption|]. destruct (nth_error_some keys j) as (kj & Ekj); [auto|]. rewrite Eki, Ekj in Ej.
      assert (i = j); [|congruence]. eapply (NoDup_nth_error (map ikey_keys keys)); [exact ND|rewrite map_length; assumption|].
      rewrite !nth_error_map, Eki, Ekj. cbn. congruence.
    + rewrite M2. apply FinFun.Injective_map_NoDup; [intros x y Exy; lia|assumption].
    + rewrite M1. intros m I. apply in_map_iff in I. destruct I as (i & Ei & Ii). rewrite Forall_forall in Fv.
      destruct (nth_error_some keys i (Fv i Ii)) as (k & Ek). rewrite Ek in Ei. subst m. apply in_map. eapply nth_error_In; eauto.
    + rewrite M2. intros n I. apply in_map_iff in I. destruct I as (x & <- & Ix). rewrite Forall_forall in Ft. specialize (Ft x Ix). lia.
    + exists s. split; [assumption|]. unfold slots_of. clear - Es M1 M2 Fv Sl. revert vals targets M1 M2 Fv. induction ms as [|[m n] ms IHm]; intros [|i vals] [|t targets] M1 M2 Fv; try discriminate; [reflexivity|].
      cbn [map fst snd] in *. injection M1 as M1 M1'. injection M2 as M2 M2'. inversion Fv; subst. f_equal.
      * destruct (nth_error_some keys i) as (k & Ek); [assumption|]. rewrite Ek in *. rewrite Sl. rewrite (Es _ _ (or_introl eq_refl)). lia.
      * apply IHm; auto. intros m' n' I. apply Es. now right.
  - rewrite repeat_length. lia.
  - now rewrite !repeat_length.
  - apply Forall_forall. intros [n vals] I. split; [rewrite Forall_forall in F1; exact (F1 _ I)|]. destruct Bs as (_ & B & _). apply (B n vals I).
  - rewrite repeat_length. assumption.
  - rewrite repeat_length. assert (positions true (repeat false (N.to_nat len1)) = []) as ->.
    { destruct (positions true (repeat false (N.to_nat len1))) as [|x l] eqn:Ex; [reflexivity|]. assert (In x (positions true (repeat false (N.to_nat len1)))) as I by (rewrite Ex; now left).
      apply positions_in, nth_error_repeat_inv in I. discriminate. }
    simpl length. pose proof (NoDup_incl_length (buckets_concat _ _ _ Bs) (l' := seq 0 (length keys))) as Le. rewrite seq_length in Le.
    assert (length (concat (map snd (sort bs))) <= length keys)%nat; [|lia]. apply Le. intros i I. apply in_concat in I. destruct I as (v & Iv & Ii).
    apply in_map_iff in Iv. destruct Iv as ([n v'] & Ev & Ib). cbn in Ev. subst v'. rewrite Forall_forall in F1. specialize (F1 _ Ib). cbn in F1.
    rewrite Forall_forall in F1. specialize (F1 _ Ii). apply in_seq. lia.
  - rewrite E. cbn [rbind]. destruct by_key; eauto.
Qed.
End WithHash.
