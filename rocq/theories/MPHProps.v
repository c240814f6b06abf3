(** * Properties of perfect hash tables (C53-C58).

    [H seed] is the byte hash (MurmurSeed(seed).Hash in the code, [murmur3_32] by C20); [sort] is any rearrangement of the buckets; [fuel]
    bounds the attempts per bucket, and [Ok (Some t)] says that the build finished with table [t]. *)
From Coq Require Import List NArith ZArith Bool Lia Permutation Sorted.
From Coq Require Import Strings.Byte.
From Verif Require Import Base BaseProofs EndianModel EndianProofs VarintModel VarintSpec VarintProofs KeyModel KeySpec KeyProofs MurmurSpec
  MPHModel MPHSpec MPHProofs MPHWire MPHCodec.
Import ListNotations.
Local Open Scope N_scope.

Definition rearranges (sort : list (nat * list nat) -> list (nat * list nat)) : Prop := forall l, Permutation l (sort l).

(** sort.Sort is one. *)
Lemma by_size_rearranges sort : sorts_by_size sort -> rearranges sort.
Proof. intros S l. apply S. Qed.

(** Keys for the examples. *)
Definition example_keys : list ikey :=
  [new_simple_key (Some [x61]); new_simple_key (Some [x62]); new_simple_key (Some [x63; x64]); KEmpty; KKey false [Some [x61]; Some [x62]] None 4].
Definition example_table (by_key : bool) : mph :=
  match mph_build murmur3_32 50 (fun l => l) example_keys by_key 20 with Ok (Some t) => t | _ => mkMPH [] 0 [] 0 None 0 [] end.

(** The table of a single key, and of none. *)
Lemma slot_zero (H : N -> bytes -> N) s k : slot H s 0 k = 0%nat.
Proof. unfold slot. now rewrite N.land_0_r. Qed.
Lemma build_single (H : N -> bytes -> N) fuel sort k by_key vseed : rearranges sort ->
  mph_build H (S fuel) sort [k] by_key vseed =
  Ok (Some (if by_key then mkMPH [0] 0 [0] 0 (Some [k]) 0 [] else mkMPH [0] 0 [0] 0 None vseed [ikey_hash (H vseed) k])).
Proof.
  intros P. assert (sort [(0%nat, [0%nat])] = [(0%nat, [0%nat])]) as Es by (apply Permutation_length_1_inv, P).
  unfold mph_build, mph_buckets. cbn [length]. change (next_pow2 (N.of_nat 1 / 4)) with 1. change (next_pow2 (N.of_nat 1)) with 1.
  change (1 - 1) with 0. change (N.to_nat 1) with 1%nat. cbn [fill_buckets]. rewrite slot_zero. cbn. rewrite Es. cbn. rewrite slot_zero. cbn. destruct by_key; reflexivity.
Qed.

(** ** C53 *)
(** Every member is found at its index; so is every key with the same sub keys, in whatever representation. *)
Theorem C53_lookup_finds_members : forall (H : N -> bytes -> N) fuel sort keys by_key vseed t i k s,
  rearranges sort -> N.of_nat (length keys) < 2 ^ 32 ->
  mph_build H fuel sort keys by_key vseed = Ok (Some t) -> nth_error keys i = Some k -> ikey_keys s = ikey_keys k ->
  mph_lookup H t s = Ok (N.of_nat i, true).
Proof.
  intros H fuel sort keys by_key vseed t i k s P L E Ek Es.
  pose proof (mph_build_spec H fuel sort keys by_key vseed P ltac:(lia)) as Q. rewrite E in Q. cbv zeta in Q.
  destruct Q as (Q1 & Q2 & Q3 & Q4 & Q5 & Q6 & Q7 & Q8).
  destruct (Q8 i k Ek) as (sd & E1 & E2). assert (i < length keys)%nat as Li by (apply nth_error_Some; congruence).
  rewrite N.mod_small in E2 by lia. rewrite <- (slot_keys H _ _ _ _ Es) in E1. rewrite <- (slot_keys H _ _ _ _ Es) in E2.
  unfold mph_lookup. unfold nth_res. rewrite E1. cbn [rbind]. rewrite E2. cbn [rbind]. rewrite Nat2N.id.
  destruct by_key; destruct Q7 as (K1 & K2 & K3); rewrite K1.
  - rewrite Ek. cbn [rbind]. destruct (ikey_equal_exact s k) as (b & Eb & B). rewrite Eb. cbn [rbind].
    assert (b = true) as -> by (apply B; assumption). reflexivity.
  - rewrite K3, nth_error_map, Ek. cbn [option_map rbind]. rewrite K2, (ikey_hash_keys _ _ _ Es), N.eqb_refl. reflexivity.
Qed.
Print Assumptions C53_lookup_finds_members.
Example C53_applies : mph_build murmur3_32 50 (fun l => l) example_keys true 20 = Ok (Some (example_table true)) /\
  mph_build murmur3_32 50 (fun l => l) example_keys false 20 = Ok (Some (example_table false)) /\
  map (fun k => mph_lookup murmur3_32 (example_table true) k) example_keys = map (fun i => Ok (i, true)) [0; 1; 2; 3; 4] /\
  map (fun k => mph_lookup murmur3_32 (example_table false) k) example_keys = map (fun i => Ok (i, true)) [0; 1; 2; 3; 4].
Proof. repeat split; vm_compute; reflexivity. Qed.

(** A finished build is a proof that the keys were pairwise unequal. *)
Theorem C53_finished_means_distinct : forall (H : N -> bytes -> N) fuel sort keys by_key vseed t,
  rearranges sort -> N.of_nat (length keys) < 2 ^ 32 -> mph_build H fuel sort keys by_key vseed = Ok (Some t) -> NoDup (map ikey_keys keys).
Proof.
  intros H fuel sort keys by_key vseed t P L E. apply NoDup_nth_error. intros i j Li Eij. rewrite map_length in Li.
  rewrite !nth_error_map in Eij. destruct (nth_error_some keys i Li) as (a & Ea). rewrite Ea in Eij.
  destruct (nth_error keys j) as [b|] eqn:Eb; [|discriminate]. cbn in Eij. injection Eij as Eij.
  pose proof (C53_lookup_finds_members H fuel sort keys by_key vseed t i a a P L E Ea eq_refl) as A.
  pose proof (C53_lookup_finds_members H fuel sort keys by_key vseed t j b a P L E Eb Eij) as B. rewrite A in B. injection B as B. lia.
Qed.
Print Assumptions C53_finished_means_distinct.

(** ** C54 *)
(** What Lookup does on any table built from at least one key. *)
Lemma built_lookup (H : N -> bytes -> N) fuel sort keys by_key vseed t s :
  rearranges sort -> N.of_nat (length keys) < 2 ^ 32 -> keys <> [] -> mph_build H fuel sort keys by_key vseed = Ok (Some t) ->
  exists i k b, nth_error keys i = Some k /\ mph_lookup H t s = Ok (N.of_nat i, b) /\
    (if by_key then b = true <-> ikey_keys s = ikey_keys k else b = (ikey_hash (H vseed) s =? ikey_hash (H vseed) k)).
Proof.
  intros P L Ne E. pose proof (mph_build_spec H fuel sort keys by_key vseed P ltac:(lia)) as Q. rewrite E in Q. cbv zeta in Q.
  destruct Q as (Q1 & Q2 & Q3 & Q4 & Q5 & Q6 & Q7 & Q8).
  destruct (next_pow2_spec (N.of_nat (length keys) / 4)) as (_ & P0 & _).
  { transitivity (N.of_nat (length keys)); [|lia]. apply N.div_le_upper_bound; lia. }
  destruct (next_pow2_spec (N.of_nat (length keys)) ltac:(lia)) as (_ & P1 & _).
  unfold mph_lookup. unfold nth_res.
  destruct (nth_error_some (m_level0 t) (slot H 0 (m_mask0 t) s)) as (sd & E0); [apply slot_lt; lia|]. rewrite E0. cbn [rbind].
  destruct (nth_error_some (m_level1 t) (slot H sd (m_mask1 t) s)) as (n & E1); [apply slot_lt; lia|]. rewrite E1. cbn [rbind].
  assert (exists i, (i < length keys)%nat /\ n = N.of_nat i) as (i & Li & ->).
  { destruct (Q6 _ _ E1) as [-> | (i & Li & ->)]; [exists 0%nat; split; [destruct keys; [congruence|simpl; lia]|reflexivity]|].
    exists i. split; [assumption|]. apply N.mod_small. lia. }
  rewrite Nat2N.id. destruct (nth_error_some keys i Li) as (k & Ek). exists i, k.
  destruct by_key; destruct Q7 as (K1 & K2 & K3); rewrite K1.
  - rewrite Ek. cbn [rbind]. destruct (ikey_equal_exact s k) as (b & Eb & B). exists b. rewrite Eb. auto.
  - rewrite K3, nth_error_map, Ek. cbn [option_map rbind]. rewrite K2. eauto.
Qed.

Theorem C54_by_key_exact : forall (H : N -> bytes -> N) fuel sort keys vseed t s,
  rearranges sort -> N.of_nat (length keys) < 2 ^ 32 -> keys <> [] -> mph_build H fuel sort keys true vseed = Ok (Some t) ->
  exists n ok, mph_lookup H t s = Ok (n, ok) /\
    (ok = true <-> exists k, In k keys /\ ikey_equal s (OKey k) = Ok true) /\
    (ok = true -> exists k, nth_error keys (N.to_nat n) = Some k /\ ikey_equal s (OKey k) = Ok true).
Proof.
  intros H fuel sort keys vseed t s P L Ne E.
  destruct (built_lookup H fuel sort keys true vseed t s P L Ne E) as (i & k & b & Ek & El & B). cbv iota in B.
  exists (N.of_nat i), b. split; [assumption|]. rewrite Nat2N.id.
  assert (b = true -> ikey_equal s (OKey k) = Ok true) as Q.
  { intros Hb. destruct (ikey_equal_exact s k) as (b' & Eb & B'). rewrite Eb. f_equal. apply B', B, Hb. }
  split; [|eauto]. split.
  - intros Hb. exists k. split; [eapply nth_error_In; eauto|auto].
  - intros (k' & I & Eq). apply In_nth_error in I. destruct I as (j & Ej). destruct (ikey_equal_exact s k') as (b' & Eb & B'). rewrite Eq in Eb.
    assert (ikey_keys s = ikey_keys k') as Es by (apply B'; congruence).
    rewrite (C53_lookup_finds_members H fuel sort keys true vseed t j k' s P L E Ej Es) in El. congruence.
Qed.
Print Assumptions C54_by_key_exact.
Example C54_applies : mph_lookup murmur3_32 (example_table true) (new_simple_key (Some [x7a])) = Ok (0, false) /\
  mph_lookup murmur3_32 (example_table true) (KMapped [Some [x61]; Some [x62]] []) = Ok (4, true) /\
  mph_lookup murmur3_32 (example_table true) (KKey false [Some [x62]; Some [x61]] None 4) = Ok (4, false).
Proof. repeat split; vm_compute; reflexivity. Qed.

(** By hash, a stranger is accepted exactly when its verification hash collides with the member it lands on. *)
Theorem C54_by_hash_exact : forall (H : N -> bytes -> N) fuel sort keys vseed t s,
  rearranges sort -> N.of_nat (length keys) < 2 ^ 32 -> keys <> [] -> mph_build H fuel sort keys false vseed = Ok (Some t) ->
  exists i k, nth_error keys i = Some k /\
    mph_lookup H t s = Ok (N.of_nat i, xor_hash (H vseed) (ikey_keys s) =? xor_hash (H vseed) (ikey_keys k)).
Proof.
  intros H fuel sort keys vseed t s P L Ne E.
  destruct (built_lookup H fuel sort keys false vseed t s P L Ne E) as (i & k & b & Ek & El & B). cbv iota in B.
  exists i, k. split; [assumption|]. now rewrite El, B, !ikey_hash_xor.
Qed.
Print Assumptions C54_by_hash_exact.
(** For instance swapped sub keys are always accepted. *)
Example C54_by_hash_applies : mph_lookup murmur3_32 (example_table false) (KKey false [Some [x62]; Some [x61]] None 4) = Ok (4, true).
Proof. vm_compute. reflexivity. Qed.

(** ** C55 *)
Lemma built_small (H : N -> bytes -> N) fuel sort keys by_key vseed t :
  rearranges sort -> N.of_nat (length keys) <= 2 ^ 31 -> mph_build H fuel sort keys by_key vseed = Ok (Some t) -> small_table t.
Proof.
  intros P L E. pose proof (mph_build_spec H fuel sort keys by_key vseed P ltac:(lia)) as Q. rewrite E in Q. cbv zeta in Q.
  destruct Q as (Q1 & Q2 & Q3 & Q4 & Q5 & Q6 & _).
  assert (N.of_nat (length keys) / 4 <= 2 ^ 31) by (transitivity (N.of_nat (length keys)); [apply N.div_le_upper_bound; lia|assumption]).
  destruct (next_pow2_spec (N.of_nat (length keys) / 4)) as (_ & P0 & B0); [lia|].
  destruct (next_pow2_spec (N.of_nat (length keys)) ltac:(lia)) as (_ & P1 & B1). specialize (B0 31 ltac:(assumption)). specialize (B1 31 L).
  unfold small_table. repeat (split; [lia || assumption|]). apply Forall_forall. intros x I. apply In_nth_error in I. destruct I as (n & En).
  destruct (Q6 n x En) as [-> | (i & _ & ->)]; [lia|]. apply N.mod_lt. lia.
Qed.

(** By hash: parsing gives the very table back. *)
Theorem C55_by_hash_roundtrip : forall (H : N -> bytes -> N) fuel sort keys vseed t suf,
  (forall s b, H s b < 2 ^ 32) -> rearranges sort -> N.of_nat (length keys) <= 2 ^ 31 -> vseed < 2 ^ 32 ->
  mph_build H fuel sort keys false vseed = Ok (Some t) ->
  exists bytes, mph_encode t = Ok bytes /\ new_mph_table (bytes ++ suf) = Ok (t, zlen bytes).
Proof.
  intros H fuel sort keys vseed t suf HB P L Lv E.
  pose proof (built_small H fuel sort keys false vseed t P L E) as S.
  pose proof (mph_build_spec H fuel sort keys false vseed P ltac:(lia)) as Q. rewrite E in Q. cbv zeta in Q.
  destruct Q as (_ & _ & _ & _ & _ & _ & (K1 & K2 & K3) & _).
  eexists. split; [apply encode_by_hash; assumption|]. rewrite parse_by_hash; [|assumption|..].
  - destruct t; cbn in *. rewrite K1. reflexivity.
  - now rewrite K2.
  - rewrite K3, map_length. lia.
  - rewrite K3. apply Forall_forall. intros x I. apply in_map_iff in I. destruct I as (k & <- & _). rewrite ikey_hash_xor. apply xor_hash_bound. apply HB.
Qed.
Print Assumptions C55_by_hash_roundtrip.
Example C55_by_hash_applies : exists bytes, mph_encode (example_table false) = Ok bytes /\ zlen bytes = 81%Z /\
  new_mph_table (bytes ++ [x01; x02]) = Ok (example_table false, 81%Z).
Proof. eexists. split; [vm_compute; reflexivity|]. split; vm_compute; reflexivity. Qed.

(** By key. Every member must have bytes that describe its sub keys ([wired]): a key that is encoded by Encode does (next lemma); a key
    that was encoded and then extended with Add does not. Parsing succeeds and consumes the bytes exactly; the answers are the same on
    all queries exactly when no sub key is nil. *)
Lemma fresh_key_wired ks buf est w : encode_keys ks = Ok w -> Forall sized (map gcontent ks) -> (zlen ks < 2 ^ 63)%Z ->
  wired (KKey false ks buf est) w /\ wired (KKey true ks (Some w) est) w.
Proof.
  intros E S L. destruct (key_bytes_exists (map gcontent ks) S) as (l & K); [unfold zlen in *; now rewrite map_length|].
  pose proof (encode_keys_spec ks l K S L) as Sp. rewrite E in Sp. destruct (Z.ltb_spec max_key_length (zlen l)) as [|C]; [discriminate|]. injection Sp as ->.
  assert (zlen ks < 2 ^ 43)%Z.
  { destruct K as (n & ls & _ & F & ->). pose proof (concat_length_ge _ _ F) as G. rewrite map_length in G. unfold max_key_length in C. rewrite zlen_app in C.
    unfold zlen in *. lia. }
  split; (split; [|split; [exact K|split; assumption]]).
  - unfold key_wire. cbn [ikey_is_encoded key_encode]. rewrite E. reflexivity.
  - reflexivity.
Qed.
Lemma empty_key_wired : wired KEmpty [x00].
Proof.
  split; [reflexivity|]. split; [|split; [constructor|reflexivity]].
  destruct (key_bytes_exists [] (Forall_nil _)) as (l & K); [reflexivity|]. cbn [ikey_keys map].
  pose proof (encode_keys_spec [] l K (Forall_nil _) ltac:(reflexivity)) as E. destruct (Z.ltb _ _); vm_compute in E; congruence.
Qed.

Lemma some_content l : map Some (map gcontent l) = l <-> ~ In (@None bytes) l.
Proof.
  induction l as [|s l IH]; cbn [map In]; [tauto|]. destruct s as [b|]; cbn [gcontent].
  - split; [intros E; injection E as E; apply IH in E; intros [C|C]; [discriminate|tauto]|]. intros N. f_equal. apply IH. tauto.
  - split; [discriminate|tauto].
Qed.

Theorem C55_by_key_roundtrip : forall (H : N -> bytes -> N) fuel sort keys vseed t ws suf,
  rearranges sort -> N.of_nat (length keys) <= 2 ^ 31 -> Forall2 wired keys ws ->
  mph_build H fuel sort keys true vseed = Ok (Some t) ->
  exists bytes t', mph_encode t = Ok bytes /\ new_mph_table (bytes ++ suf) = Ok (t', zlen bytes) /\
    ((forall s, mph_lookup H t' s = mph_lookup H t s) <-> forall k, In k keys -> ~ In None (ikey_keys k)).
Proof.
  intros H fuel sort keys vseed t ws suf P L W E.
  pose proof (built_small H fuel sort keys true vseed t P L E) as S.
  pose proof (mph_build_spec H fuel sort keys true vseed P ltac:(lia)) as Q. rewrite E in Q. cbv zeta in Q.
  destruct Q as (_ & _ & _ & _ & _ & _ & (K1 & _) & _).
  assert (length keys = length ws) as Lw by (clear - W; induction W; cbn; congruence).
  eexists. eexists. split; [apply (encode_by_key t keys (concat ws)); [assumption|now apply keys_wire_ok]|].
  split; [rewrite (parse_by_key t keys ws suf) by (assumption || lia); reflexivity|].
  split.
  - intros Same k I N. apply In_nth_error in I. destruct I as (i & Ei). specialize (Same k).
    rewrite (C53_lookup_finds_members H fuel sort keys true vseed t i k k P ltac:(lia) E Ei eq_refl) in Same.
    unfold mph_lookup in Same. cbn [m_level0 m_mask0 m_level1 m_mask1 m_keys] in Same.
    destruct (nth_res (m_level0 t) _) as [sd| |]; cbn [rbind] in Same; try discriminate.
    destruct (nth_res (m_level1 t) _) as [n| |]; cbn [rbind] in Same; try discriminate.
    destruct (nth_res (parsed_keys keys ws suf) (N.to_nat n)) as [k'| |] eqn:Ek'; cbn [rbind] in Same; try discriminate.
    destruct (ikey_equal_exact k k') as (b & Eb & B). rewrite Eb in Same. cbn [rbind] in Same. injection Same as -> ->.
    rewrite Nat2N.id in Ek'. destruct (nth_parsed keys ws suf Lw i k Ei) as (rest & Er). unfold nth_res in Ek'. rewrite Er in Ek'. injection Ek' as <-.
    assert (ikey_keys k = map Some (map gcontent (ikey_keys k))) as C by (apply B; reflexivity).
    symmetry in C. apply some_content in C. contradiction.
  - intros NN s. unfold mph_lookup. cbn [m_level0 m_mask0 m_level1 m_mask1 m_keys]. rewrite K1.
    destruct (nth_res (m_level0 t) _) as [sd| |]; cbn [rbind]; try reflexivity.
    destruct (nth_res (m_level1 t) _) as [n| |]; cbn [rbind]; try reflexivity.
    unfold nth_res. destruct (nth_error keys (N.to_nat n)) as [k|] eqn:Ek.
    + destruct (nth_parsed keys ws suf Lw _ k Ek) as (rest & Er). rewrite Er. cbn [rbind].
      assert (ikey_keys (parsed_key k rest) = ikey_keys k) as Eq by (apply some_content, NN; eapply nth_error_In; eauto).
      destruct (ikey_equal_exact s k) as (b & Eb & B). destruct (ikey_equal_exact s (parsed_key k rest)) as (b' & Eb' & B'). rewrite Eb, Eb'. cbn [rbind].
      rewrite Eq in B'. assert (b' = b) as ->; [|reflexivity]. destruct b, b'; try reflexivity; [apply B', B; reflexivity|symmetry; apply B, B'; reflexivity].
    + assert (nth_error (parsed_keys keys ws suf) (N.to_nat n) = None) as ->; [|reflexivity].
      apply nth_error_None. rewrite parsed_keys_length by assumption. now apply nth_error_None.
Qed.
Print Assumptions C55_by_key_roundtrip.
Example C55_by_key_applies : (exists ws, Forall2 wired example_keys ws) /\
  exists bytes t', mph_encode (example_table true) = Ok bytes /\ new_mph_table (bytes ++ [x07]) = Ok (t', zlen bytes) /\
    map (mph_lookup murmur3_32 t') example_keys = map (fun i => Ok (i, true)) [0; 1; 2; 3; 4].
Proof.
  split.
  - eexists. repeat (apply Forall2_cons || apply Forall2_nil);
      try (apply fresh_key_wired; [vm_compute; reflexivity|repeat constructor; vm_compute; reflexivity|vm_compute; reflexivity]).
    apply empty_key_wired.
  - eexists. eexists. split; [vm_compute; reflexivity|]. split; [vm_compute; reflexivity|]. vm_compute; reflexivity.
Qed.

(** The statement fails with a nil sub key: NewSimpleKey(nil) is found before and not after, for every hash function. *)
Theorem C55_nil_sub_key_refuted : forall (H : N -> bytes -> N) sort vseed, rearranges sort ->
  exists t bytes t', mph_build H 1 sort [new_simple_key None] true vseed = Ok (Some t) /\ mph_encode t = Ok bytes /\
    new_mph_table bytes = Ok (t', zlen bytes) /\
    mph_lookup H t (new_simple_key None) = Ok (0, true) /\ mph_lookup H t' (new_simple_key None) = Ok (0, false).
Proof.
  intros H sort vseed P.
  exists (mkMPH [0] 0 [0] 0 (Some [new_simple_key None]) 0 []). eexists. eexists. split; [exact (build_single H 0 sort _ true vseed P)|].
  split; [vm_compute; reflexivity|]. split; [vm_compute; reflexivity|]. unfold mph_lookup. cbn [m_level0 m_mask0 m_level1 m_mask1 m_keys].
  split; rewrite slot_zero; unfold nth_res at 1; cbn [nth_error rbind]; rewrite slot_zero; reflexivity.
Qed.
Print Assumptions C55_nil_sub_key_refuted.

(** It also fails for a key that was encoded and then extended with Add: the stale bytes are written. *)
Definition stale_key : ikey := KKey true [Some [x61]; Some [x62]] (Some [x01; x01; x61]) 5.
Example stale_key_arises : exists k, key_encode (new_simple_key (Some [x61])) = Ok k /\ key_add k (Some [x62]) = Ok stale_key.
Proof. eexists. split; [vm_compute; reflexivity|]. vm_compute. reflexivity. Qed.
Theorem C55_stale_key_refuted : forall (H : N -> bytes -> N) sort vseed, rearranges sort ->
  exists t bytes t', mph_build H 1 sort [stale_key] true vseed = Ok (Some t) /\ mph_encode t = Ok bytes /\
    new_mph_table bytes = Ok (t', zlen bytes) /\
    mph_lookup H t stale_key = Ok (0, true) /\ mph_lookup H t' stale_key = Ok (0, false).
Proof.
  intros H sort vseed P.
  exists (mkMPH [0] 0 [0] 0 (Some [stale_key]) 0 []). eexists. eexists. split; [exact (build_single H 0 sort _ true vseed P)|].
  split; [vm_compute; reflexivity|]. split; [vm_compute; reflexivity|]. unfold mph_lookup. cbn [m_level0 m_mask0 m_level1 m_mask1 m_keys].
  split; rewrite slot_zero; unfold nth_res at 1; cbn [nth_error rbind]; rewrite slot_zero; reflexivity.
Qed.
Print Assumptions C55_stale_key_refuted.

(** ** C56 *)
(** Full statement: false. Two members whose sub keys are a rearrangement of each other have the same hash under every seed, so that
    building never ends, whatever the hash function, the order of buckets and the other keys. *)
Theorem C56_rearranged_sub_keys_diverge : forall (H : N -> bytes -> N) sort keys by_key vseed i j a b,
  rearranges sort -> N.of_nat (length keys) < 2 ^ 32 -> nth_error keys i = Some a -> nth_error keys j = Some b -> i <> j ->
  Permutation (ikey_keys a) (ikey_keys b) ->
  forall fuel, mph_build H fuel sort keys by_key vseed = Ok None.
Proof.
  intros H sort keys by_key vseed i j a b P L Ea Eb Nij Pm fuel. apply (twins_never H fuel sort keys by_key vseed i j a b P L Ea Eb Nij).
  intros s. rewrite !ikey_hash_xor. now apply xor_hash_perm.
Qed.
Print Assumptions C56_rearranged_sub_keys_diverge.

Theorem C56_terminates_refuted : exists keys, NoDup (map ikey_keys keys) /\
  forall (H : N -> bytes -> N) sort by_key vseed fuel, rearranges sort -> mph_build H fuel sort keys by_key vseed = Ok None.
Proof.
  exists [KKey false [Some [x61]; Some [x62]] None 5; KKey false [Some [x62]; Some [x61]] None 5]. split.
  - cbn [map ikey_keys]. constructor; [|constructor; [intros []|constructor]]. intros [C|[]]. discriminate.
  - intros H sort by_key vseed fuel P. eapply C56_rearranged_sub_keys_diverge with (i := 0%nat) (j := 1%nat); try reflexivity; [assumption|lia|]. apply perm_swap.
Qed.
Print Assumptions C56_terminates_refuted.

(** Pairs of equal sub keys cancel as well: (x, x) collides with the empty key and with every (y, y). *)
Theorem C56_cancelling_sub_keys_diverge : forall (H : N -> bytes -> N) sort by_key vseed x, rearranges sort ->
  forall fuel, mph_build H fuel sort [KEmpty; KKey false [Some x; Some x] None 5] by_key vseed = Ok None.
Proof.
  intros H sort by_key vseed x P fuel. eapply twins_never with (i := 0%nat) (j := 1%nat); try reflexivity; [assumption|lia|].
  intros s. rewrite !ikey_hash_xor. unfold xor_hash. cbn [ikey_keys map fold_right]. now rewrite N.lxor_0_r, N.lxor_nilpotent.
Qed.
Print Assumptions C56_cancelling_sub_keys_diverge.

(** Exactly these keys are the ones that no byte hash tells apart: every content is a sub key an odd number of times in both or in neither. *)
Definition contents (k : ikey) : list bytes := map (fun s => match s with Some l => l | None => [] end) (ikey_keys k).
Definition bytes_dec : forall a b : bytes, {a = b} + {a <> b} := list_eq_dec Byte.byte_eq_dec.
Definition odd_in (k : ikey) (b : bytes) : bool := Nat.odd (count_occ bytes_dec (contents k) b).
Definition xor_all (f : bytes -> N) (l : list bytes) : N := fold_right N.lxor 0 (map f l).
Lemma xor_hash_all f k : xor_hash f (ikey_keys k) = xor_all f (contents k).
Proof. unfold xor_hash, xor_all, contents. now rewrite map_map. Qed.
Lemma xor_all_app f l m : xor_all f (l ++ m) = N.lxor (xor_all f l) (xor_all f m).
Proof.
  unfold xor_all. induction l as [|x l IH]; cbn [app map fold_right]; [now rewrite N.lxor_0_l|]. now rewrite IH, N.lxor_assoc.
Qed.
Lemma xor_all_even f n : forall l, (length l <= n)%nat -> (forall b, Nat.even (count_occ bytes_dec l b) = true) -> xor_all f l = 0.
Proof.
  induction n as [|n IH]; intros [|x l] L E; try reflexivity; [cbn [length] in L; lia|].
  assert (In x l) as I.
  { apply (count_occ_In bytes_dec). specialize (E x). cbn [count_occ] in E. destruct (bytes_dec x x) as [_|C]; [|congruence].
    destruct (count_occ bytes_dec l x); [discriminate|lia]. }
  apply in_split in I. destruct I as (l1 & l2 & ->).
  assert (xor_all f (l1 ++ l2) = 0) as Z.
  { apply IH; [cbn [length] in L; rewrite app_length in *; cbn [length] in L; lia|]. intros b. specialize (E b).
    cbn [count_occ] in E. rewrite count_occ_app in *. cbn [count_occ] in E. destruct (bytes_dec x b); [|exact E].
    rewrite <- plus_n_Sm in E. exact E. }
  change (x :: l1 ++ x :: l2) with ([x] ++ l1 ++ [x] ++ l2). rewrite !xor_all_app in *. change (xor_all f [x]) with (N.lxor (f x) 0).
  rewrite N.lxor_0_r. rewrite (N.lxor_comm (f x) (N.lxor (xor_all f l1) _)), N.lxor_assoc, (N.lxor_comm _ (f x)), <- (N.lxor_assoc (f x) (f x)).
  now rewrite N.lxor_nilpotent, N.lxor_0_l.
Qed.
Lemma xor_all_one b l : xor_all (fun x => if bytes_dec x b then 1 else 0) l = if Nat.odd (count_occ bytes_dec l b) then 1 else 0.
Proof.
  induction l as [|x l IH]; [reflexivity|]. unfold xor_all in *. cbn [map fold_right count_occ]. rewrite IH.
  destruct (bytes_dec x b); [|apply N.lxor_0_l]. rewrite Nat.odd_succ, <- Nat.negb_odd. now destruct (Nat.odd _).
Qed.
Theorem C56_indistinct_exact : forall a b : ikey,
  (forall f, xor_hash f (ikey_keys a) = xor_hash f (ikey_keys b)) <-> (forall c, odd_in a c = odd_in b c).
Proof.
  intros a b. split.
  - intros E c. specialize (E (fun x => if bytes_dec x c then 1 else 0)). rewrite !xor_hash_all, !xor_all_one in E.
    unfold odd_in. destruct (Nat.odd _), (Nat.odd _); congruence.
  - intros E f. rewrite !xor_hash_all. apply N.lxor_eq. rewrite <- xor_all_app. apply (xor_all_even f _ _ (le_n _)).
    intros c. rewrite count_occ_app, Nat.even_add. specialize (E c). unfold odd_in in E. rewrite <- !Nat.negb_odd, E.
    apply Bool.eqb_reflx.
Qed.
Print Assumptions C56_indistinct_exact.
(** Two such keys keep the build from ending, for every hash function. *)
Theorem C56_indistinct_diverge : forall (H : N -> bytes -> N) sort keys by_key vseed i j a b,
  rearranges sort -> N.of_nat (length keys) < 2 ^ 32 -> nth_error keys i = Some a -> nth_error keys j = Some b -> i <> j ->
  (forall c, odd_in a c = odd_in b c) -> forall fuel, mph_build H fuel sort keys by_key vseed = Ok None.
Proof.
  intros H sort keys by_key vseed i j a b P L Ea Eb Nij O fuel. apply (twins_never H fuel sort keys by_key vseed i j a b P L Ea Eb Nij).
  intros s. rewrite !ikey_hash_xor. now apply C56_indistinct_exact.
Qed.
Print Assumptions C56_indistinct_diverge.
Example C56_indistinct_applies : forall c,
  odd_in (KKey false [Some [x61]; Some [x62]; Some [x62]] None 5) c = odd_in (KKey false [Some [x63]; Some [x61]; Some [x63]] None 5) c.
Proof.
  intros c. unfold odd_in, contents. cbn [ikey_keys map count_occ].
  destruct (bytes_dec [x61] c), (bytes_dec [x62] c), (bytes_dec [x63] c); subst; try reflexivity; discriminate.
Qed.

(** The build either ends with at most 2^32 attempts per bucket or never ends. *)
Theorem C56_seeds_exhausted : forall (H : N -> bytes -> N) sort keys by_key vseed fuel, rearranges sort -> N.of_nat (length keys) < 2 ^ 32 ->
  2 ^ 32 <= N.of_nat fuel -> mph_build H fuel sort keys by_key vseed = Ok None -> forall fuel', mph_build H fuel' sort keys by_key vseed = Ok None.
Proof. intros H sort keys by_key vseed fuel P L Lf E fuel'. apply (mph_build_none H fuel); [assumption|lia|assumption|assumption]. Qed.
Print Assumptions C56_seeds_exhausted.

(** What holds: the build ends for unequal keys when the seeds are rich enough to realise every assignment of slots.
    Missing from the full statement: hash functions and keys without that, such as the ones above. *)
Theorem C56_rich_terminates_partial : forall (H : N -> bytes -> N) sort keys by_key vseed fuel, rearranges sort -> N.of_nat (length keys) < 2 ^ 32 ->
  NoDup (map ikey_keys keys) -> rich H (next_pow2 (N.of_nat (length keys))) (map ikey_keys keys) -> 2 ^ 32 <= N.of_nat fuel ->
  exists t, mph_build H fuel sort keys by_key vseed = Ok (Some t).
Proof. intros H sort keys by_key vseed fuel P L ND R Lf. apply mph_build_rich; auto. lia. Qed.
Print Assumptions C56_rich_terminates_partial.

(** A single key always ends at the first attempt. *)
Theorem C56_single_terminates_partial : forall (H : N -> bytes -> N) sort k by_key vseed fuel, rearranges sort ->
  exists t, mph_build H (S fuel) sort [k] by_key vseed = Ok (Some t).
Proof.
  intros H sort k by_key vseed fuel P. eexists. exact (build_single H fuel sort k by_key vseed P).
Qed.
Print Assumptions C56_single_terminates_partial.

(** [rich] is satisfiable: a hash that spells out assignments for one-byte keys 0 and 1 in a table of two slots. *)
Example C56_rich_applies : rich (fun s b => match b with [x00] => s mod 2 | [x01] => s / 2 | _ => 0 end) 2 [[Some [x00]]; [Some [x01]]].
Proof.
  intros ms N1 N2 Im In2.
  assert (forall m n, In (m, n) ms -> (m = [Some [x00]] \/ m = [Some [x01]]) /\ (n = 0 \/ n = 1)) as C.
  { intros m n I. split; [destruct (Im m (in_map fst _ _ I)) as [E|[E|[]]]; auto|]. specialize (In2 n (in_map snd _ _ I)). lia. }
  set (v := fun m => match find (fun p => if list_eq_dec (fun a b : option (list byte) => ltac:(decide equality; apply (list_eq_dec Byte.byte_eq_dec))) (fst p) m then true else false) ms with Some p => snd p | None => 0 end).
  assert (forall m n, In (m, n) ms -> v m = n) as V.
  { intros m n I. unfold v. destruct (find _ ms) as [[m' n']|] eqn:F.
    - apply find_some in F. destruct F as [I' F]. cbn [fst snd] in *. destruct (list_eq_dec _ m' m); [|discriminate]. subst m'.
      clear - I I' N1. induction ms as [|[a b] ms IH]; [destruct I|]. cbn [map fst] in N1. inversion N1; subst.
      destruct I as [E|I], I' as [E'|I']; [congruence|..|now apply IH]; exfalso.
      + inv E. apply H1. apply (in_map fst) in I'. exact I'.
      + inv E'. apply H1. apply (in_map fst) in I. exact I.
    - exfalso. apply (find_none _ _ F) in I. cbn [fst] in I. destruct (list_eq_dec _ m m); [discriminate|congruence]. }
  assert (forall m, v m <= 1) as B.
  { intros m. unfold v. destruct (find _ ms) as [[m' n']|] eqn:F; [|lia]. apply find_some in F. destruct F as [I' _]. destruct (C _ _ I') as [_ [-> | ->]]; cbn; lia. }
  exists (v [Some [x00]] + 2 * v [Some [x01]]). pose proof (B [Some [x00]]). pose proof (B [Some [x01]]). split; [lia|].
  intros m n I. destruct (C m n I) as [[-> | ->] _]; pose proof (V _ _ I) as E; unfold xor_hash; cbn [map fold_right]; rewrite N.lxor_0_r.
  - rewrite E in *. rewrite N.mod_mod by lia. rewrite (N.mul_comm 2), N.mod_add by lia. apply N.mod_small. lia.
  - rewrite E in *. rewrite (N.mul_comm 2), N.div_add by lia. rewrite (N.div_small (v [Some [x00]])) by lia. apply N.mod_small. lia.
Qed.

(** ** C57 *)
(** Full statement: false. A table built from no keys panics on every Lookup, in both modes. *)
Theorem C57_empty_table_refuted : forall (H : N -> bytes -> N) sort by_key vseed fuel, rearranges sort ->
  exists t, mph_build H fuel sort [] by_key vseed = Ok (Some t) /\ forall s, mph_lookup H t s = Panic.
Proof.
  intros H sort by_key vseed fuel P. assert (sort [] = []) as Es by (apply Permutation_nil, P).
  exists (mkMPH [0] 0 [0] 0 (if by_key then Some [] else None) (if by_key then 0 else vseed) []). split.
  - unfold mph_build, mph_buckets. cbn [length]. change (next_pow2 (N.of_nat 0 / 4)) with 1. change (next_pow2 (N.of_nat 0)) with 1.
    change (N.to_nat 1) with 1%nat. cbn. rewrite Es. cbn. destruct by_key; reflexivity.
  - intros s. unfold mph_lookup. cbn [m_level0 m_mask0 m_level1 m_mask1 m_keys m_hashes]. rewrite slot_zero. unfold nth_res at 1. cbn [nth_error rbind].
    rewrite slot_zero. destruct by_key; reflexivity.
Qed.
Print Assumptions C57_empty_table_refuted.

(** Bytes that parse to a table without slots, and to one whose mask points beyond the slots for a suitable hash. *)
Theorem C57_parsed_table_refuted :
  (exists t, new_mph_table (repeat x00 25) = Ok (t, 25%Z) /\ forall (H : N -> bytes -> N) s, mph_lookup H t s = Panic) /\
  (exists buf t, new_mph_table buf = Ok (t, zlen buf) /\ m_level0 t <> [] /\ m_level1 t <> [] /\ m_hashes t <> [] /\
     forall (H : N -> bytes -> N) s, N.testbit (ikey_hash (H 0) s) 4 = true -> mph_lookup H t s = Panic).
Proof.
  split.
  - eexists. split; [vm_compute; reflexivity|]. intros H s. unfold mph_lookup. cbn [m_level0 m_mask0 m_level1 m_mask1 m_keys m_hashes].
    unfold nth_res at 1. destruct (slot H 0 0 s); reflexivity.
  - exists (x00 :: be32_array [0] ++ be32 16 ++ be32_array [0] ++ be32 0 ++ be32 5 ++ be32_array [7]). eexists. split; [vm_compute; reflexivity|].
    cbn [m_level0 m_mask0 m_level1 m_mask1 m_keys m_hashes]. repeat (split; [discriminate|]). intros H s T. unfold mph_lookup. cbn [m_level0 m_mask0 m_level1 m_mask1 m_keys m_hashes].
    unfold nth_res at 1. destruct (nth_error [0] (slot H 0 16 s)) eqn:E; [|reflexivity]. exfalso.
    assert (slot H 0 16 s < 1)%nat as L by (apply (nth_error_Some [0]); congruence). unfold slot in L.
    assert (N.testbit (N.land (ikey_hash (H 0) s) 16) 4 = true) as T' by (rewrite N.land_spec, T; reflexivity).
    assert (N.land (ikey_hash (H 0) s) 16 = 0) as Z by lia. rewrite Z in T'. discriminate.
Qed.
Print Assumptions C57_parsed_table_refuted.

(** What holds: no panic on tables built from at least one key, in either mode. *)
Theorem C57_built_partial : forall (H : N -> bytes -> N) fuel sort keys by_key vseed t s,
  rearranges sort -> N.of_nat (length keys) < 2 ^ 32 -> keys <> [] -> mph_build H fuel sort keys by_key vseed = Ok (Some t) ->
  exists n ok, mph_lookup H t s = Ok (n, ok) /\ n < N.of_nat (length keys).
Proof.
  intros H fuel sort keys by_key vseed t s P L Ne E.
  destruct (built_lookup H fuel sort keys by_key vseed t s P L Ne E) as (i & k & b & Ek & El & _). exists (N.of_nat i), b. split; [assumption|].
  assert (i < length keys)%nat by (apply nth_error_Some; congruence). lia.
Qed.
Print Assumptions C57_built_partial.

(** And on any table, built or parsed, whose masks are below the numbers of slots and whose entries are below the number of members.
    Missing from the full statement: NewMPHTable does not check this. *)
Theorem C57_well_formed_partial : forall (H : N -> bytes -> N) t s,
  m_mask0 t < N.of_nat (length (m_level0 t)) -> m_mask1 t < N.of_nat (length (m_level1 t)) ->
  Forall (fun n => n < match m_keys t with Some ks => N.of_nat (length ks) | None => N.of_nat (length (m_hashes t)) end) (m_level1 t) ->
  exists n ok, mph_lookup H t s = Ok (n, ok).
Proof.
  intros H t s L0 L1 F. unfold mph_lookup. unfold nth_res.
  destruct (nth_error_some (m_level0 t) (slot H 0 (m_mask0 t) s)) as (sd & E0); [apply slot_lt; lia|]. rewrite E0. cbn [rbind].
  destruct (nth_error_some (m_level1 t) (slot H sd (m_mask1 t) s)) as (n & E1); [apply slot_lt; lia|]. rewrite E1. cbn [rbind].
  rewrite Forall_forall in F. specialize (F n (nth_error_In _ _ E1)). destruct (m_keys t) as [ks|].
  - destruct (nth_error_some ks (N.to_nat n)) as (k & Ek); [lia|]. rewrite Ek. cbn [rbind]. destruct (ikey_equal_exact s k) as (b & Eb & _). rewrite Eb. cbn [rbind]. eauto.
  - destruct (nth_error_some (m_hashes t) (N.to_nat n)) as (h & Eh); [lia|]. rewrite Eh. cbn [rbind]. eauto.
Qed.
Print Assumptions C57_well_formed_partial.
Example C57_well_formed_applies : let t := example_table false in
  m_mask0 t < N.of_nat (length (m_level0 t)) /\ m_mask1 t < N.of_nat (length (m_level1 t)) /\ Forall (fun n => n < 5) (m_level1 t).
Proof. split; [vm_compute; reflexivity|]. split; [vm_compute; reflexivity|].
  assert (forallb (fun n => n <? 5) (m_level1 (example_table false)) = true) as B by (vm_compute; reflexivity).
  apply Forall_forall. intros n I. apply N.ltb_lt. rewrite forallb_forall in B. exact (B n I). Qed.

(** The result of Lookup on every table, built or parsed: the hash with seed 0 selects a seed, the hash with that seed selects an index, and
    the index a member. Lookup panics exactly when one of the three is out of range. *)
Definition selects (H : N -> bytes -> N) (t : mph) (s : ikey) (n : N) : Prop :=
  exists seed, nth_error (m_level0 t) (N.to_nat (N.land (xor_hash (H 0) (ikey_keys s)) (m_mask0 t))) = Some seed /\
    nth_error (m_level1 t) (N.to_nat (N.land (xor_hash (H seed) (ikey_keys s)) (m_mask1 t))) = Some n.
Definition confirms (H : N -> bytes -> N) (t : mph) (s : ikey) (n : N) (ok : bool) : Prop :=
  match m_keys t with
  | Some ks => exists k, nth_error ks (N.to_nat n) = Some k /\ (ok = true <-> ikey_keys s = ikey_keys k)
  | None => exists h, nth_error (m_hashes t) (N.to_nat n) = Some h /\ (ok = true <-> xor_hash (H (m_seed t)) (ikey_keys s) = h)
  end.
Theorem C57_lookup_exact : forall (H : N -> bytes -> N) t s,
  (forall n ok, mph_lookup H t s = Ok (n, ok) <-> selects H t s n /\ confirms H t s n ok) /\
  mph_lookup H t s <> Err /\
  (mph_lookup H t s = Panic <-> ~ exists n ok, selects H t s n /\ confirms H t s n ok).
Proof.
  intros H t s.
  assert (A : forall n ok, selects H t s n /\ confirms H t s n ok -> mph_lookup H t s = Ok (n, ok)).
  { intros n ok ((sd & E0 & E1) & C). unfold mph_lookup, nth_res, slot. rewrite <- !ikey_hash_xor in *. rewrite E0. cbn [rbind].
    rewrite E1. cbn [rbind]. unfold confirms in C. destruct (m_keys t) as [ks|].
    - destruct C as (k & Ek & B). rewrite Ek. cbn [rbind]. destruct (ikey_equal_exact s k) as (b & Eb & B'). rewrite Eb. cbn [rbind].
      assert (b = ok) as -> by (destruct b, ok; intuition congruence). reflexivity.
    - destruct C as (h & Eh & B). rewrite Eh. cbn [rbind]. rewrite <- ikey_hash_xor in B. do 2 f_equal.
      destruct (N.eqb_spec (ikey_hash (H (m_seed t)) s) h) as [Eq|Ne]; destruct ok; intuition congruence. }
  assert (B : (exists n ok, selects H t s n /\ confirms H t s n ok) \/ mph_lookup H t s = Panic).
  { unfold selects, confirms. rewrite <- !ikey_hash_xor. unfold mph_lookup, nth_res, slot.
    destruct (nth_error (m_level0 t) _) as [sd|] eqn:E0; cbn [rbind]; [|now right].
    destruct (nth_error (m_level1 t) _) as [n|] eqn:E1; cbn [rbind]; [|now right].
    destruct (m_keys t) as [ks|].
    - destruct (nth_error ks _) as [k|] eqn:E2; cbn [rbind]; [|now right]. left.
      destruct (ikey_equal_exact s k) as (b & Eb & B'). exists n, b. split; [exists sd; rewrite <- ikey_hash_xor; split; [reflexivity|exact E1]|]. exists k. split; assumption.
    - destruct (nth_error (m_hashes t) _) as [h|] eqn:E2; cbn [rbind]; [|now right]. left.
      exists n, (ikey_hash (H (m_seed t)) s =? h). split; [exists sd; rewrite <- ikey_hash_xor; split; [reflexivity|exact E1]|]. exists h. split; [exact E2|].
      apply N.eqb_eq. }
  split; [|split].
  - intros n ok. split; [|apply A]. intros E. destruct B as [(n' & ok' & C)|B]; [|congruence]. rewrite (A _ _ C) in E. inversion E; subst. exact C.
  - destruct B as [(n' & ok' & C)|B]; [|congruence]. rewrite (A _ _ C). discriminate.
  - split; [intros E (n & ok & C); rewrite (A _ _ C) in E; discriminate|]. intros C. destruct B as [B|B]; [contradiction|exact B].
Qed.
Print Assumptions C57_lookup_exact.
Example C57_lookup_applies : selects murmur3_32 (example_table true) (new_simple_key (Some [x7a])) 0 /\
  confirms murmur3_32 (example_table true) (new_simple_key (Some [x7a])) 0 false.
Proof. apply (C57_lookup_exact murmur3_32). vm_compute. reflexivity. Qed.

(** ** C58 *)
(** By hash the statement holds. *)
Theorem C58_by_hash : forall (H : N -> bytes -> N) fuel sort keys vseed t suf,
  (forall s b, H s b < 2 ^ 32) -> rearranges sort -> N.of_nat (length keys) <= 2 ^ 31 -> vseed < 2 ^ 32 ->
  mph_build H fuel sort keys false vseed = Ok (Some t) ->
  exists bytes t', mph_encode t = Ok bytes /\ new_mph_table (bytes ++ suf) = Ok (t', zlen bytes) /\ mph_encode t' = Ok bytes.
Proof.
  intros H fuel sort keys vseed t suf HB P L Lv E. destruct (C55_by_hash_roundtrip H fuel sort keys vseed t suf HB P L Lv E) as (bytes & E1 & E2). eauto.
Qed.
Print Assumptions C58_by_hash.

(** By key it holds exactly when every member except the last one is the empty key, and, unless the last one is also empty, nothing follows
    the bytes: Buf of a parsed key is everything from the key on. *)
Theorem C58_by_key_exact : forall (H : N -> bytes -> N) fuel sort keys vseed t ws suf,
  rearranges sort -> N.of_nat (length keys) <= 2 ^ 31 -> Forall2 wired keys ws ->
  mph_build H fuel sort keys true vseed = Ok (Some t) ->
  exists bytes t', mph_encode t = Ok bytes /\ new_mph_table (bytes ++ suf) = Ok (t', zlen bytes) /\
    (mph_encode t' = Ok bytes <-> forall i k, nth_error keys i = Some k -> ikey_keys k <> [] -> S i = length keys /\ suf = []).
Proof.
  intros H fuel sort keys vseed t ws suf P L W E.
  pose proof (built_small H fuel sort keys true vseed t P L E) as S.
  pose proof (mph_build_spec H fuel sort keys true vseed P ltac:(lia)) as Q. rewrite E in Q. cbv zeta in Q.
  destruct Q as (_ & _ & _ & _ & _ & _ & (K1 & _) & _).
  assert (length keys = length ws) as Lw by (clear - W; induction W; cbn; congruence).
  eexists. eexists. split; [apply (encode_by_key t keys (concat ws)); [assumption|now apply keys_wire_ok]|].
  split; [rewrite (parse_by_key t keys ws suf) by (assumption || lia); reflexivity|].
  rewrite (encode_by_key _ (parsed_keys keys ws suf) (again keys ws suf)) by (reflexivity || now apply keys_wire_again).
  rewrite parsed_keys_length by assumption.
  change (table_head (mkMPH (m_level0 t) (m_mask0 t) (m_level1 t) (m_mask1 t) (Some (parsed_keys keys ws suf)) 0 []) x01) with (table_head t x01).
  destruct (again_length keys ws suf W) as (_ & A & B). split.
  - intros Eq. apply A. assert (forall x y : bytes, Ok x = Ok y -> x = y) as OkI by congruence. apply OkI, app_inv_head, app_inv_head in Eq. now rewrite Eq.
  - intros C. now rewrite (B C).
Qed.
Print Assumptions C58_by_key_exact.

(** So with two members and a first one that is not empty the second save writes other bytes. *)
Theorem C58_by_key_refuted : forall (H : N -> bytes -> N) fuel sort k1 k2 keys vseed t ws,
  rearranges sort -> N.of_nat (length (k1 :: k2 :: keys)) <= 2 ^ 31 -> Forall2 wired (k1 :: k2 :: keys) ws -> ikey_keys k1 <> [] ->
  mph_build H fuel sort (k1 :: k2 :: keys) true vseed = Ok (Some t) ->
  exists bytes t', mph_encode t = Ok bytes /\ new_mph_table bytes = Ok (t', zlen bytes) /\ mph_encode t' <> Ok bytes.
Proof.
  intros H fuel sort k1 k2 keys vseed t ws P L W N E.
  destruct (C58_by_key_exact H fuel sort _ vseed t ws [] P L W E) as (bytes & t' & E1 & E2 & X). rewrite app_nil_r in E2. exists bytes, t'.
  split; [assumption|]. split; [assumption|]. intros C. destruct (proj1 X C 0%nat k1 eq_refl N) as (C1 & _). discriminate.
Qed.
Print Assumptions C58_by_key_refuted.
Example C58_by_key_applies : exists bytes t' again, mph_encode (example_table true) = Ok bytes /\ new_mph_table bytes = Ok (t', zlen bytes) /\
  zlen bytes = 73%Z /\ mph_encode t' = Ok again /\ zlen again = 102%Z.
Proof. do 3 eexists. split; [vm_compute; reflexivity|]. split; [vm_compute; reflexivity|]. split; [vm_compute; reflexivity|]. split; [vm_compute; reflexivity|]. vm_compute. reflexivity. Qed.
