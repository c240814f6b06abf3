(** * Hash tables with the resize decisions computed in float32, for all settings (C83, C84; C17, C18). *)
From Coq Require Import ZArith QArith Qround Qabs Bool Lia Lqa List Permutation.
From Verif Require Import Base BaseProofs AVLModel MapSpec MapProofs AVLProps HashModel HashSpec HashProofs HashProps.
From Verif Require Import F32Model F32Proofs F32HashProofs.
Import ListNotations.
Local Open Scope Q_scope.

(** The rounding of the model is rounding to nearest: the result has at most [p] bits and no number
    of at most [p] bits is closer. *)
Theorem C83_rounding : forall p q, (1 < p)%Z -> 0 < q ->
  (exists z e, (0 < z <= 2 ^ p)%Z /\ round p q == inject_Z z * pow2 e) /\
  (forall z e, (0 <= z <= 2 ^ p)%Z -> Qabs (round p q - q) <= Qabs (inject_Z z * pow2 e - q)).
Proof.
  intros p q Hp Hq. split; [now apply round_has_bits|]. intros z e Hz. now apply round_nearest.
Qed.
Print Assumptions C83_rounding.

Example C83_rounding_applies :
  round 24 (1 # 10) == 13421773 # 134217728 /\ f_1_2 = FVal (10066330 # 8388608) /\ round 24 (6 # 5) == 10066330 # 8388608.
Proof. repeat split; vm_compute; reflexivity. Qed.

Local Open Scope Z_scope.

(** Bounds on size and capacity after [b] calls. *)
Definition cap_inv (c0 b s c : Z) : Prop := 10 <= c /\ 0 <= s <= b /\ c <= Z.max (Z.max 10 c0) (11 * b).

Lemma cap_inv_put nan lf m c0 b s c : is_f32 lf -> cap_inv c0 b s c -> nan < 2 ^ 32 ->
  10 <= next_cap (after_put (float_policy nan lf m) (s + 1) c) c /\
  (next_cap (after_put (float_policy nan lf m) (s + 1) c) c <= Z.max (Z.max 10 c0) (11 * (b + 1)) \/
   m = FNaN /\ next_cap (after_put (float_policy nan lf m) (s + 1) c) c <= Z.max 10 nan).
Proof.
  intros Hf (H1 & H2 & H3) Hn. cbn [after_put float_policy].
  destruct (clamp_load_cases lf Hf) as [-> | (l & -> & L1 & L2 & L3)].
  - cbn [float_put next_cap]. lia.
  - destruct (clamp_multiplier_cases m) as [E | (mu & E & M1 & M2)]; rewrite E.
    + apply (proj1 (clamp_multiplier_nan m)) in E. subst m. unfold float_put. destruct (Qle_bool _ _); cbn [next_cap]; [|lia].
      unfold clamp, min_capacity. destruct (Z.ltb_spec nan 10); [lia|]. split; [lia|right]. split; [reflexivity|lia].
    + rewrite float_put_nan_int. destruct (float_put 0 (FVal l) (FVal mu) (s + 1) c) as [n|] eqn:P; cbn [next_cap]; [|lia].
      destruct (put_cap l mu (conj L1 L2) (conj M1 M2) s c n H1 ltac:(lia) P). lia.
Qed.

Lemma cap_inv_remove nan lf m c0 b s c s' : is_f32 lf -> cap_inv c0 b s c ->
  10 <= next_cap (after_remove (float_policy nan lf m) s' c) c <= c.
Proof.
  intros Hf (H1 & H2 & H3). cbn [after_remove float_policy].
  destruct (clamp_load_cases lf Hf) as [-> | (l & -> & L1 & L2 & L3)].
  - cbn [float_remove next_cap]. lia.
  - destruct (clamp_multiplier_cases m) as [E | (mu & E & M1 & M2)]; rewrite E.
    + cbn [float_remove next_cap]. lia.
    + destruct (float_remove (FVal l) (FVal mu) s' c) as [n|] eqn:P; cbn [next_cap]; [|lia].
      exact (remove_cap l mu (conj M1 M2) s' c n H1 P).
Qed.

Lemma new_size {K V} c : h_size (@new_hash K V c) = 0 /\ zlen (h_array (@new_hash K V c)) = Z.max 10 c.
Proof. unfold new_hash, min_capacity, zlen. cbn [h_array h_size]. rewrite repeat_length. split; [reflexivity|lia]. Qed.

(** C83: for every initial capacity below 2^32, every load factor and multiplier (NaN and infinities
    included), whatever the machine makes of NaN as a capacity, for fewer than 2^28 calls: a map. *)
Theorem C83_partial : forall {K V : Type} (equalb : K -> K -> res bool) (hashf : K -> res N)
    (D : K -> Prop) (eqv : K -> K -> Prop) (nan c : Z) (lf m : f32) (ops : list (mop K V)),
  hash_keys D eqv equalb hashf -> Forall (fun op => D (op_key op)) ops ->
  is_f32 lf -> nan < 2 ^ 32 -> c < 2 ^ 32 -> zlen ops < 2 ^ 28 ->
  exists t os l, hash_run equalb hashf (float_policy nan lf m) (new_hash c) ops = Ok (t, os) /\
    answers eqv [] ops os /\ lists_entries eqv ops l /\ h_size t = zlen l.
Proof.
  intros K V equalb hashf D eqv nan c lf m ops HK F Hf Hn Hc Ho.
  destruct (new_size (K := K) (V := V) c) as [S0 C0].
  destruct (@policy_run K V equalb hashf D eqv HK (float_policy nan lf m)
    (fun b s cp => cap_inv (Z.max c nan) b s cp) (2 ^ 28 - 1)) with (ops := ops) (h := @nil (mop K V))
    (t := @new_hash K V c) (b := 0) as (t & os & R & Hi & A & _).
  - intros b s cp (H1 & H2 & H3) Hb. lia.
  - intros b s cp n J Hb [P|P].
    + destruct (cap_inv_put nan lf m _ b s cp Hf J Hn) as [Q1 Q2]. rewrite P in Q1, Q2. cbn [next_cap] in *. lia.
    + pose proof (cap_inv_remove nan lf m _ b s cp (s - 1) Hf J) as Q. rewrite P in Q. cbn [next_cap] in Q.
      destruct J as (H1 & H2 & H3). lia.
  - intros b s cp J Hb Hs. pose proof (cap_inv_put nan lf m _ b s cp Hf J Hn) as [Q1 Q2]. destruct J as (H1 & H2 & H3).
    unfold cap_inv. lia.
  - intros b s cp J Hb Hs. pose proof (cap_inv_remove nan lf m _ b s cp (s - 1) Hf J) as Q. destruct J as (H1 & H2 & H3).
    unfold cap_inv. lia.
  - intros b s cp (H1 & H2 & H3) Hb. unfold cap_inv. lia.
  - exact F.
  - apply hash_inv_new.
  - rewrite S0, C0. unfold cap_inv. lia.
  - lia.
  - lia.
  - cbn [app] in Hi. apply inv_lists in Hi. exists t, os, (concat (h_array t)). tauto.
Qed.
Print Assumptions C83_partial.

(** The first Put never resizes: one entry is below every load. *)
Lemma first_put nan lf m cap : is_f32 lf -> 10 <= cap -> after_put (float_policy nan lf m) 1 cap = None.
Proof.
  intros Hf Hc. cbn [after_put float_policy].
  destruct (clamp_load_cases lf Hf) as [-> | (l & -> & L1 & L2 & L3)]; [reflexivity|].
  unfold float_put. destruct (Qle_bool l _) eqn:T; [exfalso|reflexivity].
  apply (grow_true l 1 cap ltac:(lia)) in T.
  pose proof (of_int_exact 1 ltac:(lia)) as E1. destruct (of_int_bounds cap ltac:(lia)) as [B _].
  assert (C := inject_le 10 cap Hc). rewrite E1 in T. change (inject_Z 10) with 10%Q in C. change (inject_Z 1) with 1%Q in T.
  set (f := of_int cap) in *. set (c := inject_Z cap) in *. clearbody f c. clear - T B C L1. unfold eps in *.
  assert (9 <= f)%Q by lra. assert ((1 # 2) * 9 <= l * f)%Q by nra. lra.
Qed.

(** The first call on a fresh table panics exactly when the capacity is a multiple of 2^32. *)
Theorem C83_exact : forall {K V : Type} (equalb : K -> K -> res bool) (hashf : K -> res N)
    (D : K -> Prop) (eqv : K -> K -> Prop) (nan c : Z) (lf m : f32) (op : mop K V),
  hash_keys D eqv equalb hashf -> D (op_key op) -> is_f32 lf ->
  (hash_step equalb hashf (float_policy nan lf m) (new_hash c) op = Panic <-> Z.max 10 c mod 2 ^ 32 = 0).
Proof.
  intros K V equalb hashf D eqv nan c lf m op HK Dk Hf.
  destruct (new_size (K := K) (V := V) c) as [S0 C0].
  assert (E : (N.of_nat (length (h_array (@new_hash K V c))) mod two32)%N = Z.to_N (Z.max 10 c mod 2 ^ 32)).
  { unfold zlen in C0. replace (N.of_nat (length (h_array (@new_hash K V c)))) with (Z.to_N (Z.max 10 c)) by lia.
    change two32 with (Z.to_N (2 ^ 32)). rewrite <- Z2N.inj_mod by lia. reflexivity. }
  pose proof (Z.mod_pos_bound (Z.max 10 c) (2 ^ 32) ltac:(lia)) as MB.
  split.
  - intros H. destruct (Z.eq_dec (Z.max 10 c mod 2 ^ 32) 0) as [|N]; [assumption|exfalso].
    assert (CO : cap_ok (length (h_array (@new_hash K V c)))) by (unfold cap_ok; rewrite E; clear - N MB; lia).
    destruct (slot_home equalb hashf D eqv HK (h_array (@new_hash K V c)) (op_key op) Dk CO) as [S L].
    set (i := home hashf _ _) in *. clearbody i.
    assert (B : bucket (h_array (@new_hash K V c)) i = Ok []).
    { unfold bucket. destruct (nth_error (h_array (@new_hash K V c)) i) as [x|] eqn:X.
      - apply nth_error_In in X. unfold new_hash in X. cbn [h_array] in X. apply repeat_spec in X. now subst x.
      - apply nth_error_None in X. lia. }
    destruct op as [k v|k|k]; cbn [hash_step op_key] in *.
    + unfold hash_put in H. rewrite S in H. cbn [rbind] in H. rewrite B in H. cbn [rbind chain_replace] in H.
      rewrite S0 in H. unfold zlen in H. rewrite set_bucket_length in H. fold (zlen (h_array (@new_hash K V c))) in H.
      rewrite C0 in H. change (0 + 1) with 1 in H. rewrite first_put in H by (assumption || lia). discriminate.
    + unfold hash_remove in H. rewrite S in H. cbn [rbind] in H. rewrite B in H. discriminate.
    + unfold hash_get in H. rewrite S in H. cbn [rbind] in H. rewrite B in H. discriminate.
  - intros H. rewrite H in E.
    assert (S : slot hashf (h_array (@new_hash K V c)) (op_key op) = Panic).
    { unfold slot. destruct (hk_hash _ _ _ _ HK (op_key op) Dk) as [x ->]. cbn [rbind]. rewrite E. reflexivity. }
    destruct op as [k v|k|k]; cbn [hash_step op_key] in *; unfold hash_put, hash_remove, hash_get; rewrite S; reflexivity.
Qed.
Print Assumptions C83_exact.

(** So the intended statement, "any settings give a map", is false: capacity 2^32, default load and multiplier. *)
Theorem C83_refuted : forall (nan : Z) (op : mop Z nat),
  hash_step z_equal z_hash (float_policy nan default_load default_multiplier) (new_hash (2 ^ 32)) op = Panic.
Proof.
  intros nan op. apply (C83_exact z_equal z_hash (fun _ => True) eq); [exact z_hash_keys|exact I| |reflexivity].
  exists 3, (-2). repeat split; discriminate.
Qed.
Print Assumptions C83_refuted.

Example C83_applies :
  is_f32 (FVal (5 # 8)) /\ is_f32 (FInf true) /\ is_f32 FNaN /\
  (exists t os, hash_run z_equal z_hash (float_policy 0 (FVal (5 # 8)) (FVal (9 # 4))) (new_hash 3) (firstn 20 hash_demo) = Ok (t, os) /\
     h_size t = 20 /\ zlen (h_array t) = 49) /\
  (exists t os, hash_run z_equal z_hash (float_policy 0 (FInf true) FNaN) (new_hash 30) (firstn 20 hash_demo) = Ok (t, os) /\
     h_size t = 20 /\ zlen (h_array t) = 10).
Proof.
  split; [exists 5, (-3); repeat split; vm_compute; congruence|]. split; [exact I|]. split; [exact I|]. split.
  - do 2 eexists. split; [vm_compute; reflexivity|]. split; vm_compute; reflexivity.
  - do 2 eexists. split; [vm_compute; reflexivity|]. split; vm_compute; reflexivity.
Qed.

(** The settings that exist: the greatest is 2^128 - 2^104, and the smallest but zero is 2^-149. *)
Theorem C83_settings : forall q, is_f32 (FVal q) ->
  (Qabs q <= inject_Z (2 ^ 128 - 2 ^ 104) /\ (q == 0 \/ pow2 (-149) <= Qabs q))%Q.
Proof.
  intros q (z & e & Hz & He & E). rewrite E. rewrite Qabs_Qmult. pose proof (pow2_pos e) as P.
  rewrite (Qabs_pos (pow2 e)) by (apply Qlt_le_weak; exact P).
  assert (Qabs (inject_Z z) == inject_Z (Z.abs z))%Q as -> by reflexivity. split.
  - apply (Qle_trans _ (inject_Z (2 ^ 24 - 1) * pow2 104)%Q).
    + apply (Qle_trans _ (inject_Z (2 ^ 24 - 1) * pow2 e)%Q).
      * apply Qmult_le_compat_r; [|apply Qlt_le_weak; exact P]. rewrite <- Zle_Qle. lia.
      * rewrite (Qmult_comm _ (pow2 e)), (Qmult_comm _ (pow2 104)). apply Qmult_le_compat_r; [now apply pow2_le|]. discriminate.
    + vm_compute. discriminate.
  - destruct (Z.eq_dec z 0) as [->|N]; [left; ring|right].
    apply (Qle_trans _ (1 * pow2 e)%Q); [rewrite Qmult_1_l; now apply pow2_le|].
    apply Qmult_le_compat_r; [|apply Qlt_le_weak; exact P]. change 1%Q with (inject_Z 1). rewrite <- Zle_Qle. lia.
Qed.
Print Assumptions C83_settings.
Example C83_settings_applies : is_f32 (FVal (inject_Z (2 ^ 128 - 2 ^ 104))) /\ is_f32 (FVal (pow2 (-149))) /\ is_f32 (FVal (-3 # 2)).
Proof.
  split; [exists (2 ^ 24 - 1)%Z, 104%Z|split; [exists 1%Z, (-149)%Z|exists (-3)%Z, (-1)%Z]];
    (split; [lia|]); (split; [lia|]); vm_compute; reflexivity.
Qed.

(** ** C84: the load stays bounded *)

(** For all settings that are not NaN: never fewer than 10 slots, and the load below the clamped load factor
    (exactly while there are fewer than 2^24 slots, up to a factor 1 - 2^-22 beyond). *)
Theorem C84_partial : forall {K V : Type} (equalb : K -> K -> res bool) (hashf : K -> res N)
    (D : K -> Prop) (eqv : K -> K -> Prop) (nan c : Z) (lf m : f32) (ops : list (mop K V)),
  hash_keys D eqv equalb hashf -> Forall (fun op => D (op_key op)) ops ->
  is_f32 lf -> lf <> FNaN -> m <> FNaN -> c < 2 ^ 32 -> zlen ops < 2 ^ 28 ->
  exists t os l, hash_run equalb hashf (float_policy nan lf m) (new_hash c) ops = Ok (t, os) /\
    clamp_load lf = FVal l /\ ((1 # 2) <= l)%Q /\ (l <= 1)%Q /\
    10 <= zlen (h_array t) /\ load_in l (h_size t) (zlen (h_array t)).
Proof.
  intros K V equalb hashf D eqv nan c lf m ops HK F Hf NL NM Hc Ho.
  destruct (new_size (K := K) (V := V) c) as [S0 C0].
  destruct (clamp_load_cases lf Hf) as [E|(l & EL & L1 & L2 & L3)]; [now apply (proj1 (clamp_load_nan lf)) in E|].
  destruct (clamp_multiplier_cases m) as [E|(mu & EM & M1 & M2)]; [now apply (proj1 (clamp_multiplier_nan m)) in E|].
  assert (Pp : forall s cp, after_put (float_policy nan lf m) s cp = float_put 0 (FVal l) (FVal mu) s cp)
    by (intros; cbn [after_put float_policy]; now rewrite EL, EM).
  assert (Pr : forall s cp, after_remove (float_policy nan lf m) s cp = float_remove (FVal l) (FVal mu) s cp)
    by (intros; cbn [after_remove float_policy]; now rewrite EL, EM).
  destruct (@policy_run K V equalb hashf D eqv HK (float_policy nan lf m)
    (fun b s cp => cap_inv c b s cp /\ load_in l s cp) (2 ^ 28 - 1)) with (ops := ops) (h := @nil (mop K V))
    (t := @new_hash K V c) (b := 0) as (t & os & R & _ & _ & (J1 & _) & J2).
  - intros b s cp [(H1 & H2 & H3) _] Hb. lia.
  - intros b s cp n [(H1 & H2 & H3) _] Hb [P|P]; [rewrite Pp in P|rewrite Pr in P].
    + destruct (put_cap l mu (conj L1 L2) (conj M1 M2) s cp n H1 ltac:(lia) P). lia.
    + pose proof (remove_cap l mu (conj M1 M2) (s - 1) cp n H1 P). lia.
  - intros b s cp [(H1 & H2 & H3) L] Hb Hs. rewrite Pp. split; [|now apply put_load].
    destruct (float_put 0 (FVal l) (FVal mu) (s + 1) cp) as [n|] eqn:P; cbn [next_cap]; unfold cap_inv; [|lia].
    destruct (put_cap l mu (conj L1 L2) (conj M1 M2) s cp n H1 ltac:(lia) P). lia.
  - intros b s cp [(H1 & H2 & H3) L] Hb Hs. rewrite Pr. split; [|now apply remove_load].
    destruct (float_remove (FVal l) (FVal mu) (s - 1) cp) as [n|] eqn:P; cbn [next_cap]; unfold cap_inv; [|lia].
    pose proof (remove_cap l mu (conj M1 M2) (s - 1) cp n H1 P). lia.
  - intros b s cp [(H1 & H2 & H3) L] Hb. split; [unfold cap_inv; lia|exact L].
  - exact F.
  - apply hash_inv_new.
  - rewrite S0, C0. split; [unfold cap_inv; lia|]. apply load_in_strong; [apply Qle_refl|].
    assert (C := inject_le 10 (Z.max 10 c) ltac:(lia)). change (inject_Z 10) with 10%Q in C. change (inject_Z 0) with 0%Q.
    set (x := inject_Z (Z.max 10 c)) in *. clearbody x. clear - C L1. nra.
  - lia.
  - lia.
  - exists t, os, l. tauto.
Qed.
Print Assumptions C84_partial.

(** Puts of the keys 0 .. n-1. *)
Definition puts (n : nat) : list (mop Z nat) := map (fun i => MPut (Z.of_nat i) i) (seq 0 n).

Lemma puts_stored n k v : stored eq (puts n) k v <-> In (k, v) (map (fun i => (Z.of_nat i, i)) (seq 0 n)).
Proof.
  induction n as [|n IH].
  - split; [|intros []]. intros H. now apply stored_in_history in H.
  - unfold puts in *. rewrite seq_S, !map_app. cbn [map plus]. rewrite stored_snoc, IH, in_app_iff. cbn [touches In].
    split.
    + intros [H|[_ H]]; [injection H as -> ->; right; now left|now left].
    + intros [H|[H|[]]]; [right|left; congruence]. split; [|assumption].
      apply in_map_iff in H. destruct H as (i & H & Hi). apply in_seq in Hi. injection H as <- <-. lia.
Qed.

(** With a NaN load factor, or a NaN multiplier that the machine turns into at most 10, the load has no bound. *)
Theorem C84_refuted : forall (nan : Z) (lf m : f32) (n : nat), is_f32 lf ->
  lf = FNaN \/ (m = FNaN /\ nan <= 10) ->
  exists t os, hash_run z_equal z_hash (float_policy nan lf m) (new_hash 10) (puts n) = Ok (t, os) /\
    h_size t = Z.of_nat n /\ zlen (h_array t) = 10.
Proof.
  intros nan lf m n Hf Hnan.
  assert (Pp : forall s x, after_put (float_policy nan lf m) s 10 = Some x -> clamp x = 10).
  { intros s x P. cbn [after_put float_policy] in P. destruct Hnan as [-> | [-> Hn]]; [discriminate P|].
    change (clamp_multiplier FNaN) with FNaN in P. destruct (clamp_load lf); try discriminate P. unfold float_put in P.
    destruct (Qle_bool _ _); [|discriminate P]. injection P as <-. unfold clamp, min_capacity.
    destruct (Z.ltb_spec nan 10); lia. }
  assert (Pr : forall s, after_remove (float_policy nan lf m) s 10 = None).
  { intros s. cbn [after_remove float_policy]. destruct Hnan as [-> | [-> _]]; [reflexivity|].
    change (clamp_multiplier FNaN) with FNaN. now destruct (clamp_load lf). }
  destruct (@policy_run Z nat z_equal z_hash (fun _ => True) eq z_hash_keys (float_policy nan lf m)
    (fun _ _ cp => cp = 10) (zlen (puts n))) with (ops := puts n) (h := @nil (mop Z nat))
    (t := @new_hash Z nat 10) (b := 0) as (t & os & R & Hi & _ & J).
  - intros b s cp -> _. lia.
  - intros b s cp x -> _ [P|P]; [rewrite (Pp _ _ P); lia|rewrite Pr in P; discriminate].
  - intros b s cp -> _ _. destruct (after_put _ _ _) as [x|] eqn:P; [exact (Pp _ _ P)|reflexivity].
  - intros b s cp -> _ _. now rewrite Pr.
  - intros b s cp -> _. reflexivity.
  - apply Forall_forall. intros; exact I.
  - apply hash_inv_new.
  - reflexivity.
  - lia.
  - lia.
  - cbn [app] in Hi. apply inv_lists in Hi. destruct Hi as [[HL HD] HS].
    exists t, os. split; [exact R|]. split; [|exact J]. rewrite HS. unfold zlen. f_equal.
    rewrite <- (seq_length n 0), <- (map_length (fun i => (Z.of_nat i, i)) (seq 0 n)). apply Permutation_length.
    apply NoDup_Permutation.
    + clear - HD. induction HD as [|a l Ha Hl IH]; constructor; [|assumption]. intros Hin.
      rewrite Forall_forall in Ha. now apply (Ha a Hin).
    + apply FinFun.Injective_map_NoDup; [|apply seq_NoDup]. intros x y E. congruence.
    + intros [k v]. rewrite HL. apply puts_stored.
Qed.
Print Assumptions C84_refuted.

(** The same for every NaN setting, whatever the machine makes of int(NaN) and whatever the first capacity: the number of slots has a bound and the
    number of entries has none. Together with [C84_partial]: the load has a bound exactly if neither setting is NaN. *)
Theorem C84_nan_refuted : forall (nan c : Z) (lf m : f32) (n : nat), is_f32 lf -> nan < 2 ^ 32 -> c < 2 ^ 32 ->
  lf = FNaN \/ m = FNaN ->
  exists t os, hash_run z_equal z_hash (float_policy nan lf m) (new_hash c) (puts n) = Ok (t, os) /\
    h_size t = Z.of_nat n /\ zlen (h_array t) <= Z.max 10 (Z.max nan c).
Proof.
  intros nan c lf m n Hf Hb Hc Hnan. destruct (new_size (K := Z) (V := nat) c) as [S0 C0].
  assert (Pp : forall s cp x, after_put (float_policy nan lf m) s cp = Some x -> x = nan).
  { intros s cp x P. cbn [after_put float_policy] in P. destruct Hnan as [-> | ->]; [discriminate P|].
    change (clamp_multiplier FNaN) with FNaN in P. destruct (clamp_load lf); try discriminate P. unfold float_put in P.
    destruct (Qle_bool _ _); [|discriminate P]. now injection P. }
  assert (Pr : forall s cp, after_remove (float_policy nan lf m) s cp = None).
  { intros s cp. cbn [after_remove float_policy]. destruct Hnan as [-> | ->]; [reflexivity|].
    change (clamp_multiplier FNaN) with FNaN. now destruct (clamp_load lf). }
  assert (Cl : forall x, clamp x = Z.max 10 x) by (intros x; unfold clamp, min_capacity; destruct (Z.ltb_spec x 10); lia).
  destruct (@policy_run Z nat z_equal z_hash (fun _ => True) eq z_hash_keys (float_policy nan lf m)
    (fun _ _ cp => 10 <= cp <= Z.max 10 (Z.max nan c)) (zlen (puts n))) with (ops := puts n) (h := @nil (mop Z nat))
    (t := @new_hash Z nat c) (b := 0) as (t & os & R & Hi & _ & J).
  - intros b s cp H _. lia.
  - intros b s cp x H _ [P|P]; [rewrite (Pp _ _ _ P), Cl; lia|rewrite Pr in P; discriminate].
  - intros b s cp H _ _. destruct (after_put _ _ _) as [x|] eqn:P; cbn [next_cap]; [rewrite (Pp _ _ _ P), Cl; lia|exact H].
  - intros b s cp H _ _. rewrite Pr. exact H.
  - intros b s cp H _. exact H.
  - apply Forall_forall. intros; exact I.
  - apply hash_inv_new.
  - rewrite C0. lia.
  - lia.
  - lia.
  - cbn [app] in Hi. apply inv_lists in Hi. destruct Hi as [[HL HD] HS].
    exists t, os. split; [exact R|]. split; [|exact (proj2 J)]. rewrite HS. unfold zlen. f_equal.
    rewrite <- (seq_length n 0), <- (map_length (fun i => (Z.of_nat i, i)) (seq 0 n)). apply Permutation_length.
    apply NoDup_Permutation.
    + clear - HD. induction HD as [|a l Ha Hl IH]; constructor; [|assumption]. intros Hin.
      rewrite Forall_forall in Ha. now apply (Ha a Hin).
    + apply FinFun.Injective_map_NoDup; [|apply seq_NoDup]. intros x y E. congruence.
    + intros [k v]. rewrite HL. apply puts_stored.
Qed.
Print Assumptions C84_nan_refuted.
Example C84_nan_refuted_applies :
  exists t os, hash_run z_equal z_hash (float_policy 13 (FVal 1) FNaN) (new_hash 10) (puts 40) = Ok (t, os) /\ h_size t = 40 /\ zlen (h_array t) = 13.
Proof. do 2 eexists. split; [vm_compute; reflexivity|]. split; vm_compute; reflexivity. Qed.

Example C84_applies :
  clamp_load (FVal 0) = FVal (1 # 2) /\ is_f32 (FVal 0) /\
  (exists t os, hash_run z_equal z_hash (float_policy 0 (FVal 0) (FInf false)) (new_hash 0) (puts 30) = Ok (t, os) /\
     h_size t = 30 /\ zlen (h_array t) = 250) /\
  (exists t os, hash_run z_equal z_hash (float_policy (- 2 ^ 63) (FVal 0) FNaN) (new_hash 10) (puts 30) = Ok (t, os) /\
     h_size t = 30 /\ zlen (h_array t) = 10).
Proof.
  split; [reflexivity|]. split; [exists 0, 0; repeat split; vm_compute; congruence|].
  split; do 2 eexists; (split; [vm_compute; reflexivity|split; vm_compute; reflexivity]).
Qed.

(** ** C17, C18: the default settings in float32 *)
Lemma default_f32 : is_f32 default_load.
Proof. exists 3, (-2). repeat split; discriminate. Qed.

Theorem C17_float32_history : forall {K V : Type} (equalb : K -> K -> res bool) (hashf : K -> res N)
    (D : K -> Prop) (eqv : K -> K -> Prop) (nan : Z) (ops : list (mop K V)),
  hash_keys D eqv equalb hashf -> Forall (fun op => D (op_key op)) ops -> zlen ops < 2 ^ 28 ->
  exists t os l, hash_run equalb hashf (float_policy nan default_load default_multiplier) (new_hash 10) ops = Ok (t, os) /\
    answers eqv [] ops os /\ lists_entries eqv ops l /\ h_size t = zlen l.
Proof.
  intros K V equalb hashf D eqv nan ops HK F Ho.
  assert (E : float_policy nan default_load default_multiplier = float_policy 0 default_load default_multiplier) by reflexivity.
  rewrite E. apply (C83_partial equalb hashf D eqv); try assumption; [exact default_f32|lia|lia].
Qed.
Print Assumptions C17_float32_history.

Theorem C18_float32_load : forall {K V : Type} (equalb : K -> K -> res bool) (hashf : K -> res N)
    (D : K -> Prop) (eqv : K -> K -> Prop) (nan : Z) (ops : list (mop K V)),
  hash_keys D eqv equalb hashf -> Forall (fun op => D (op_key op)) ops -> zlen ops < 2 ^ 28 ->
  exists t os, hash_run equalb hashf (float_policy nan default_load default_multiplier) (new_hash 10) ops = Ok (t, os) /\
    10 <= zlen (h_array t) /\ load_in (3 # 4) (h_size t) (zlen (h_array t)).
Proof.
  intros K V equalb hashf D eqv nan ops HK F Ho.
  destruct (C84_partial equalb hashf D eqv nan 10 default_load default_multiplier ops HK F default_f32)
    as (t & os & l & R & EL & _ & _ & H); try discriminate; [lia|exact Ho|].
  change (clamp_load default_load) with (FVal (3 # 4)) in EL. injection EL as <-. exists t, os. tauto.
Qed.
Print Assumptions C18_float32_load.

Local Open Scope Q_scope.

Lemma int_div s c : (0 <= s <= 2 ^ 20)%Z -> (10 <= c <= 2 ^ 20)%Z ->
  round 24 (of_int s / of_int c) == round 24 (inject_Z s / inject_Z c).
Proof.
  intros Hs Hc. apply round_comp. rewrite (of_int_exact s), (of_int_exact c) by lia. reflexivity.
Qed.

Lemma floor_is q z : inject_Z z <= q -> q < inject_Z z + 1 -> Qfloor q = z.
Proof.
  intros H1 H2. assert (z <= Qfloor q)%Z by now apply floor_ge.
  assert (L := floor_le q). assert (inject_Z (Qfloor q) < inject_Z (z + 1)).
  { rewrite inject_Z_plus. change (inject_Z 1) with 1. lra. }
  rewrite <- Zlt_Qlt in H0. lia.
Qed.

Lemma frac_le s c a b : (0 < c)%Z -> (0 < b)%Z -> (b * s <= a * c)%Z -> inject_Z s / inject_Z c <= inject_Z a / inject_Z b.
Proof.
  intros Hc Hb H. assert (0 < inject_Z c) by (change 0 with (inject_Z 0); now rewrite <- Zlt_Qlt).
  assert (0 < inject_Z b) by (change 0 with (inject_Z 0); now rewrite <- Zlt_Qlt).
  apply Qle_shift_div_r; [assumption|].
  assert (E : inject_Z a / inject_Z b * inject_Z c == inject_Z (a * c) / inject_Z b) by (rewrite inject_Z_mult; field; lra).
  rewrite E. apply Qle_shift_div_l; [assumption|]. rewrite <- inject_Z_mult, <- Zle_Qle. lia.
Qed.

Lemma frac_ge s c a b : (0 < c)%Z -> (0 < b)%Z -> (a * c <= b * s)%Z -> inject_Z a / inject_Z b <= inject_Z s / inject_Z c.
Proof. intros Hc Hb H. apply frac_le; lia. Qed.

(** The default policy of the model is the float32 one up to 2^20 slots and entries. *)
Theorem C18_policies_agree : forall (nan size cap : Z), (0 <= size <= 2 ^ 20)%Z -> (10 <= cap <= 2 ^ 20)%Z ->
  after_put (float_policy nan default_load default_multiplier) size cap = after_put default_policy size cap /\
  after_remove (float_policy nan default_load default_multiplier) size cap = after_remove default_policy size cap.
Proof.
  intros nan size cap Hs Hc. assert (D := int_div size cap Hs Hc).
  cbn [after_put after_remove float_policy default_policy].
  change (clamp_load default_load) with (FVal (3 # 4)). change (clamp_multiplier default_multiplier) with (FVal (3 # 2)).
  unfold float_put, float_remove. set (r := round 24 (of_int size / of_int cap)) in *. clearbody r. split.
  - replace (Qle_bool (3 # 4) r) with (3 * cap <=? 4 * size)%Z.
    + destruct (3 * cap <=? 4 * size)%Z; [|reflexivity]. f_equal.
      assert (E : of_int cap * (3 # 2) == inject_Z (3 * cap) * pow2 (-1)).
      { rewrite (of_int_exact cap) by lia. rewrite inject_Z_mult. change (pow2 (-1)) with (1 # 2). change (inject_Z 3) with 3. ring. }
      rewrite (Qfloor_comp _ _ (Qeq_trans _ _ _ (round_comp 24 _ _ E) (round_exact 24 eq_refl (3 * cap) (-1) ltac:(lia)))).
      change (pow2 (-1)) with (1 # 2). apply floor_is.
      * assert (2 * (3 * cap / 2) <= 3 * cap)%Z by (apply Z.mul_div_le; lia).
        apply inject_le in H. rewrite inject_Z_mult in H. change (inject_Z 2) with 2 in H. lra.
      * assert (3 * cap < 2 * (3 * cap / 2) + 2)%Z by (pose proof (Z.mul_succ_div_gt (3 * cap) 2 ltac:(lia)); lia).
        rewrite Zlt_Qlt, inject_Z_plus, (inject_Z_mult 2) in H. change (inject_Z 2) with 2 in H. lra.
    + destruct (Z.leb_spec (3 * cap) (4 * size)) as [G|G]; symmetry.
      * apply Qle_bool_iff. rewrite D. assert (F := frac_ge size cap 3 4 ltac:(lia) ltac:(lia) G).
        apply (round_mono 24 eq_refl) in F.
        assert (X : round 24 (inject_Z 3 / inject_Z 4) == 3 # 4) by (vm_compute; reflexivity). rewrite X in F. exact F.
      * apply not_true_is_false. intros T. apply Qle_bool_iff in T. rewrite D in T.
        assert (F := frac_le size cap 3145727 4194304 ltac:(lia) ltac:(lia) ltac:(lia)).
        apply (round_mono 24 eq_refl) in F.
        assert (X : round 24 (inject_Z 3145727 / inject_Z 4194304) == 3145727 # 4194304) by (vm_compute; reflexivity).
        rewrite X in F. assert ((3 # 4) <= (3145727 # 4194304)) by lra. now apply H.
  - assert (T1 : round 24 ((3 # 4) / pow_4 (3 # 2)) == 9942054 # 67108864) by (vm_compute; reflexivity).
    assert (T2 : pow_2 (3 # 2) == 9 # 4) by (vm_compute; reflexivity).
    replace (negb (Qle_bool (round 24 ((3 # 4) / pow_4 (3 # 2))) r)) with (27 * size <? 4 * cap)%Z.
    + destruct (27 * size <? 4 * cap)%Z; [|reflexivity]. f_equal.
      set (z := (4 * cap / 9)%Z).
      assert (Z1 : (9 * z <= 4 * cap)%Z) by (apply Z.mul_div_le; lia).
      assert (Z2 : (4 * cap <= 9 * z + 8)%Z) by (pose proof (Z.mul_succ_div_gt (4 * cap) 9 ltac:(lia)); unfold z; lia).
      clearbody z.
      assert (E : of_int cap / pow_2 (3 # 2) == inject_Z (4 * cap) / 9).
      { rewrite T2, (of_int_exact cap) by lia. rewrite inject_Z_mult. change (inject_Z 4) with 4. field. }
      rewrite (Qfloor_comp _ _ (round_comp 24 _ _ E)).
      apply inject_le in Z1 as Q1. apply inject_le in Z2 as Q2. rewrite inject_Z_plus, (inject_Z_mult 9) in Q2.
      rewrite (inject_Z_mult 9) in Q1. change (inject_Z 9) with 9 in *. change (inject_Z 8) with 8 in *.
      assert (X1 : inject_Z z <= inject_Z (4 * cap) / 9) by (apply Qle_shift_div_l; lra).
      assert (P4 : pow2 (-4) == 1 # 16) by reflexivity.
      assert (X2 : inject_Z (4 * cap) / 9 <= inject_Z (16 * z + 15) * pow2 (-4)).
      { apply Qle_shift_div_r; [lra|]. rewrite P4, inject_Z_plus, (inject_Z_mult 16). change (inject_Z 16) with 16.
        change (inject_Z 15) with 15. lra. }
      apply (round_mono 24 eq_refl) in X1. apply (round_mono 24 eq_refl) in X2.
      rewrite (round_int 24 eq_refl) in X1 by lia. rewrite (round_exact 24 eq_refl) in X2 by lia.
      apply floor_is; [exact X1|]. rewrite P4, inject_Z_plus, (inject_Z_mult 16) in X2. change (inject_Z 16) with 16 in X2.
      change (inject_Z 15) with 15 in X2. lra.
    + destruct (Z.ltb_spec (27 * size) (4 * cap)) as [G|G]; symmetry.
      * apply negb_true_iff, not_true_is_false. intros T. apply Qle_bool_iff in T. rewrite T1, D in T.
        assert (F := frac_le size cap 9942053 67108864 ltac:(lia) ltac:(lia) ltac:(lia)).
        apply (round_mono 24 eq_refl) in F.
        assert (X : round 24 (inject_Z 9942053 / inject_Z 67108864) == 9942053 # 67108864) by (vm_compute; reflexivity).
        rewrite X in F. assert ((9942054 # 67108864) <= (9942053 # 67108864)) by lra. now apply H.
      * apply negb_false_iff, Qle_bool_iff. rewrite T1, D. assert (F := frac_ge size cap 4 27 ltac:(lia) ltac:(lia) G).
        apply (round_mono 24 eq_refl) in F.
        assert (X : round 24 (inject_Z 4 / inject_Z 27) == 9942054 # 67108864) by (vm_compute; reflexivity).
        rewrite X in F. exact F.
Qed.
Print Assumptions C18_policies_agree.

Example C18_policies_agree_applies :
  after_put (float_policy 0 default_load default_multiplier) 8 10 = Some 15%Z /\
  after_remove (float_policy 0 default_load default_multiplier) 3 33 = Some 14%Z /\
  after_remove (float_policy 0 default_load default_multiplier) 4 27 = None.
Proof. repeat split; vm_compute; reflexivity. Qed.
