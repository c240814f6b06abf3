(** * Lemmas about the byte format of perfect hash tables. *)
From Coq Require Import List NArith ZArith Bool Lia Permutation Sorted.
From Coq Require Import Strings.Byte.
From Verif Require Import Base BaseProofs EndianModel EndianProofs VarintModel VarintSpec VarintProofs KeyModel KeySpec KeyProofs MPHModel MPHSpec MPHProofs.
Import ListNotations.
Local Open Scope N_scope.

Lemma be32_length x : length (be32 x) = 4%nat.
Proof. apply be_put_length. Qed.
Lemma zlen_be32 x : zlen (be32 x) = 4%Z.
Proof. unfold zlen. now rewrite be32_length. Qed.
Lemma zlen_be32s l : zlen (be32s l) = (4 * zlen l)%Z.
Proof.
  induction l as [|x l IH]; [reflexivity|]. unfold be32s in *. cbn [flat_map]. rewrite zlen_app, zlen_be32, IH, zlen_cons. lia.
Qed.

Lemma be_read_be32 x suf : x < 2 ^ 32 -> be_read 4 (be32 x ++ suf) = Ok x.
Proof. intros L. unfold be32. rewrite be_read_put_app. rewrite pow256_4, !N.mod_small by (rewrite ?N.mod_small by assumption; assumption). reflexivity. Qed.

Lemma read32_ok pre x suf : x < 2 ^ 32 -> read32 (pre ++ be32 x ++ suf) (zlen pre) = Ok (x, (zlen pre + 4)%Z).
Proof.
  intros L. unfold read32. rewrite !zlen_app, zlen_be32. pose proof (zlen_nonneg suf). destruct (Z.ltb_spec (zlen pre + (4 + zlen suf)) (zlen pre + 4)); [lia|].
  rewrite go_from_app. cbn [rbind]. rewrite be_read_be32 by assumption. reflexivity.
Qed.

Lemma read32s_ok l : forall pre suf, Forall (fun x => x < 2 ^ 32) l ->
  read32s (length l) (pre ++ be32s l ++ suf) (zlen pre) = Ok (l, (zlen pre + 4 * zlen l)%Z).
Proof.
  induction l as [|x l IH]; intros pre suf F; cbn [length read32s].
  - change (zlen (@nil N)) with 0%Z. now rewrite Z.mul_0_r, Z.add_0_r.
  - inversion F; subst. change (be32s (x :: l)) with (be32 x ++ be32s l). rewrite go_from_app. cbn [rbind]. rewrite <- !app_assoc.
    rewrite be_read_be32 by assumption. cbn [rbind]. rewrite (app_assoc pre). replace (zlen pre + 4)%Z with (zlen (pre ++ be32 x)) by (rewrite zlen_app, zlen_be32; reflexivity).
    rewrite IH by assumption. cbn [rbind]. rewrite zlen_cons, zlen_app, zlen_be32. do 2 f_equal. lia.
Qed.

Definition be32_array (l : list N) : bytes := be32 (N.of_nat (length l)) ++ be32s l.
Lemma zlen_be32_array l : zlen (be32_array l) = (4 + 4 * zlen l)%Z.
Proof. unfold be32_array. now rewrite zlen_app, zlen_be32, zlen_be32s. Qed.

Lemma read_array_ok l pre suf : N.of_nat (length l) < 2 ^ 32 -> Forall (fun x => x < 2 ^ 32) l ->
  read_array (pre ++ be32_array l ++ suf) (zlen pre) = Ok (l, zlen (pre ++ be32_array l)).
Proof.
  intros L F. unfold read_array, be32_array. rewrite <- !app_assoc. rewrite read32_ok by assumption. cbn [rbind].
  rewrite (app_assoc pre). replace (zlen pre + 4)%Z with (zlen (pre ++ be32 (N.of_nat (length l)))) by (rewrite zlen_app, zlen_be32; reflexivity).
  assert (zlen l = Z.of_N (N.of_nat (length l))) as El by (unfold zlen; lia).
  destruct (Z.ltb_spec (zlen ((pre ++ be32 (N.of_nat (length l))) ++ be32s l ++ suf)) (zlen (pre ++ be32 (N.of_nat (length l))) + 4 * Z.of_N (N.of_nat (length l)))) as [C|_].
  { exfalso. rewrite !zlen_app, zlen_be32s in C. pose proof (zlen_nonneg suf). lia. }
  rewrite Nat2N.id, read32s_ok by assumption. do 2 f_equal. rewrite !zlen_app, zlen_be32s. lia.
Qed.

(** Keys whose bytes describe their sub keys. *)
Definition wired (k : ikey) (w : bytes) : Prop :=
  key_wire k = Ok w /\ key_bytes (map gcontent (ikey_keys k)) w /\ Forall sized (map gcontent (ikey_keys k)) /\ (zlen (ikey_keys k) < 2 ^ 43)%Z.

Definition parsed_key (k : ikey) (rest : bytes) : ikey := KMapped (map Some (map gcontent (ikey_keys k))) rest.
Fixpoint parsed_keys (ks : list ikey) (ws : list bytes) (suf : bytes) : list ikey :=
  match ks, ws with
  | k :: ks', w :: ws' => parsed_key k (w ++ concat ws' ++ suf) :: parsed_keys ks' ws' suf
  | _, _ => []
  end.

Lemma keys_wire_ok ks ws : Forall2 wired ks ws -> keys_wire ks = Ok (concat ws).
Proof. induction 1 as [|k w ks ws (E & _) _ IH]; [reflexivity|]. cbn [keys_wire concat]. rewrite E. cbn [rbind]. rewrite IH. reflexivity. Qed.

Lemma read_keys_ok ks ws : Forall2 wired ks ws -> forall pre suf,
  read_keys (length ks) (pre ++ concat ws ++ suf) (zlen pre) = Ok (parsed_keys ks ws suf, zlen (pre ++ concat ws)).
Proof.
  induction 1 as [|k w ks ws (E & K & S & L) _ IH]; intros pre suf; cbn [length read_keys concat parsed_keys].
  - now rewrite app_nil_r.
  - rewrite go_from_app. cbn [rbind]. unfold new_mapped_key. cbn [gcontent]. rewrite <- app_assoc.
    rewrite (decode_keys_ok _ _ _ K S) by (unfold zlen in *; rewrite map_length; exact L). cbn [rbind].
    destruct (Z.ltb_spec (zlen (pre ++ w ++ concat ws ++ suf)) (zlen pre + zlen w)) as [C|_].
    { exfalso. rewrite !zlen_app in C. pose proof (zlen_nonneg suf). pose proof (zlen_nonneg (concat ws)). lia. }
    rewrite (app_assoc pre). rewrite <- zlen_app. rewrite IH. cbn [rbind]. do 2 f_equal. now rewrite <- app_assoc.
Qed.

Definition table_head (t : mph) (m : byte) : bytes := m :: be32_array (m_level0 t) ++ be32 (m_mask0 t) ++ be32_array (m_level1 t) ++ be32 (m_mask1 t).

(** What fits into the format. *)
Definition small_table (t : mph) : Prop :=
  N.of_nat (length (m_level0 t)) < 2 ^ 32 /\ N.of_nat (length (m_level1 t)) < 2 ^ 32 /\ m_mask0 t < 2 ^ 32 /\ m_mask1 t < 2 ^ 32 /\
  Forall (fun x => x < 2 ^ 32) (m_level0 t) /\ Forall (fun x => x < 2 ^ 32) (m_level1 t).

Lemma parse_head t m suf : small_table t -> (b2n m = 0 \/ b2n m = 1) -> new_mph_table (table_head t m ++ suf) =
  let buf := table_head t m ++ suf in let pos := zlen (table_head t m) in
  if b2n m =? 1
  then let? (n, pos) := read32 buf pos in
       let? (ks, pos) := read_keys (N.to_nat n) buf pos in
       Ok (mkMPH (m_level0 t) (m_mask0 t) (m_level1 t) (m_mask1 t) (Some ks) 0 [], pos)
  else let? (seed, pos) := read32 buf pos in
       let? (hs, pos) := read_array buf pos in
       Ok (mkMPH (m_level0 t) (m_mask0 t) (m_level1 t) (m_mask1 t) None seed hs, pos).
Proof.
  intros (L0 & L1 & M0 & M1 & F0 & F1) Hm. unfold new_mph_table.
  change (table_head t m ++ suf) with (m :: (be32_array (m_level0 t) ++ be32 (m_mask0 t) ++ be32_array (m_level1 t) ++ be32 (m_mask1 t)) ++ suf) at 1.
  cbv iota. assert (negb ((b2n m =? 0) || (b2n m =? 1)) = false) as -> by (destruct Hm as [-> | ->]; reflexivity).
  assert (table_head t m ++ suf = [m] ++ be32_array (m_level0 t) ++ be32 (m_mask0 t) ++ be32_array (m_level1 t) ++ be32 (m_mask1 t) ++ suf) as Eb.
  { unfold table_head. cbn [app]. now rewrite <- !app_assoc. }
  assert (forall A (k : list N * Z -> res A), rbind (read_array (table_head t m ++ suf) 1) k = k (m_level0 t, zlen ([m] ++ be32_array (m_level0 t)))) as R0.
  { intros A k. rewrite Eb. change 1%Z with (zlen [m]). rewrite read_array_ok by assumption. reflexivity. }
  assert (forall A (k : N * Z -> res A), rbind (read32 (table_head t m ++ suf) (zlen ([m] ++ be32_array (m_level0 t)))) k =
     k (m_mask0 t, zlen ([m] ++ be32_array (m_level0 t) ++ be32 (m_mask0 t)))) as R1.
  { intros A k. rewrite Eb, (app_assoc [m]), read32_ok by assumption. cbn [rbind]. do 2 f_equal. rewrite !zlen_app, zlen_be32. lia. }
  assert (forall A (k : list N * Z -> res A), rbind (read_array (table_head t m ++ suf) (zlen ([m] ++ be32_array (m_level0 t) ++ be32 (m_mask0 t)))) k =
     k (m_level1 t, zlen ([m] ++ be32_array (m_level0 t) ++ be32 (m_mask0 t) ++ be32_array (m_level1 t)))) as R2.
  { intros A k. rewrite Eb. rewrite (app_assoc (be32_array (m_level0 t))), (app_assoc [m] (be32_array (m_level0 t) ++ be32 (m_mask0 t))), read_array_ok by assumption.
    cbn [rbind]. do 2 f_equal. now rewrite <- !app_assoc. }
  assert (forall A (k : N * Z -> res A), rbind (read32 (table_head t m ++ suf) (zlen ([m] ++ be32_array (m_level0 t) ++ be32 (m_mask0 t) ++ be32_array (m_level1 t)))) k =
     k (m_mask1 t, zlen (table_head t m))) as R3.
  { intros A k. rewrite Eb. replace ([m] ++ be32_array (m_level0 t) ++ be32 (m_mask0 t) ++ be32_array (m_level1 t) ++ be32 (m_mask1 t) ++ suf)
      with (([m] ++ be32_array (m_level0 t) ++ be32 (m_mask0 t) ++ be32_array (m_level1 t)) ++ be32 (m_mask1 t) ++ suf) by now rewrite <- !app_assoc.
    rewrite read32_ok by assumption. cbn [rbind]. do 2 f_equal. change (table_head t m) with ([m] ++ be32_array (m_level0 t) ++ be32 (m_mask0 t) ++ be32_array (m_level1 t) ++ be32 (m_mask1 t)).
    rewrite !zlen_app, !zlen_be32. lia. }
  cbn [app] in *. rewrite R0, R1, R2, R3. reflexivity.
Qed.

Lemma encode_by_hash t : m_keys t = None -> mph_encode t = Ok (table_head t x00 ++ be32 (m_seed t) ++ be32_array (m_hashes t)).
Proof. intros E. unfold mph_encode, table_head, be32_array. rewrite E. cbn [app]. now rewrite <- !app_assoc. Qed.
Lemma encode_by_key t ks ws : m_keys t = Some ks -> keys_wire ks = Ok ws ->
  mph_encode t = Ok (table_head t x01 ++ be32 (N.of_nat (length ks)) ++ ws).
Proof. intros E W. unfold mph_encode, table_head, be32_array. rewrite E, W. cbn [rbind app]. now rewrite <- !app_assoc. Qed.

Lemma parse_by_hash t suf : small_table t -> m_seed t < 2 ^ 32 -> N.of_nat (length (m_hashes t)) < 2 ^ 32 ->
  Forall (fun x => x < 2 ^ 32) (m_hashes t) ->
  new_mph_table ((table_head t x00 ++ be32 (m_seed t) ++ be32_array (m_hashes t)) ++ suf) =
  Ok (mkMPH (m_level0 t) (m_mask0 t) (m_level1 t) (m_mask1 t) None (m_seed t) (m_hashes t), zlen (table_head t x00 ++ be32 (m_seed t) ++ be32_array (m_hashes t))).
Proof.
  intros S Ls Lh F. rewrite <- app_assoc, parse_head by auto. cbv zeta. change (b2n x00 =? 1) with false. cbv iota.
  rewrite <- app_assoc, read32_ok by assumption. cbn [rbind].
  rewrite (app_assoc (table_head t x00)). replace (zlen (table_head t x00) + 4)%Z with (zlen (table_head t x00 ++ be32 (m_seed t))) by (rewrite zlen_app, zlen_be32; reflexivity).
  rewrite read_array_ok by assumption. cbn [rbind]. now rewrite <- app_assoc.
Qed.

Lemma parse_by_key t ks ws suf : small_table t -> Forall2 wired ks ws -> N.of_nat (length ks) < 2 ^ 32 ->
  new_mph_table ((table_head t x01 ++ be32 (N.of_nat (length ks)) ++ concat ws) ++ suf) =
  Ok (mkMPH (m_level0 t) (m_mask0 t) (m_level1 t) (m_mask1 t) (Some (parsed_keys ks ws suf)) 0 [],
      zlen (table_head t x01 ++ be32 (N.of_nat (length ks)) ++ concat ws)).
Proof.
  intros S W L. rewrite <- app_assoc, parse_head by auto. cbv zeta. change (b2n x01 =? 1) with true. cbv iota.
  rewrite <- app_assoc, read32_ok by assumption. cbn [rbind]. rewrite Nat2N.id.
  rewrite (app_assoc (table_head t x01)). replace (zlen (table_head t x01) + 4)%Z with (zlen (table_head t x01 ++ be32 (N.of_nat (length ks)))) by (rewrite zlen_app, zlen_be32; reflexivity).
  rewrite (read_keys_ok _ _ W). cbn [rbind]. now rewrite <- app_assoc.
Qed.

Lemma wired_length k w : wired k w -> (1 <= zlen w)%Z /\ (ikey_keys k = [] -> zlen w = 1%Z).
Proof.
  intros (E & (n & ls & U & V & ->) & _ & L). rewrite map_length in U. unfold zlen in L.
  pose proof (minimal_numeral _ _ U ltac:(lia)) as Un. pose proof (zlen_numeral _ _ Un). rewrite zlen_app. pose proof (zlen_nonneg (concat ls)). split; [lia|].
  intros N. rewrite N in *. inversion V; subst. cbn [concat length] in *.
  destruct (encode_uvarint64_minimal 0 ltac:(lia)) as (n' & E' & M'). rewrite (uvarint_minimal_fun _ _ _ U M') in *. vm_compute in E'. inv E'. reflexivity.
Qed.
Lemma wired_empty k w : wired k w -> ikey_keys k = [] -> w = [x00].
Proof.
  intros (E & (n & ls & U & V & ->) & _ & L) N. rewrite N in *. inversion V; subst. cbn [concat length map] in *.
  destruct (encode_uvarint64_minimal 0 ltac:(lia)) as (n' & E' & M'). rewrite (uvarint_minimal_fun _ _ _ U M'). vm_compute in E'. inv E'. reflexivity.
Qed.

(** ** Encoding parsed keys again *)
Lemma parsed_keys_length ks ws suf : length ks = length ws -> length (parsed_keys ks ws suf) = length ks.
Proof. revert ws. induction ks as [|k ks IH]; intros [|w ws] E; try discriminate; [reflexivity|]. cbn [parsed_keys length] in *. f_equal. apply IH. lia. Qed.

Lemma nth_parsed ks ws suf : length ks = length ws -> forall i k, nth_error ks i = Some k ->
  exists rest, nth_error (parsed_keys ks ws suf) i = Some (parsed_key k rest).
Proof.
  revert ws. induction ks as [|k0 ks IH]; intros [|w ws] E i k Ei; try discriminate; [destruct i; discriminate|].
  destruct i as [|i]; cbn [nth_error parsed_keys] in *; [injection Ei as ->; eauto|]. apply IH; [simpl in E; lia|assumption].
Qed.

Fixpoint again (ks : list ikey) (ws : list bytes) (suf : bytes) : bytes :=
  match ks, ws with
  | k :: ks', w :: ws' => (match ikey_keys k with [] => [x00] | _ => w ++ concat ws' ++ suf end) ++ again ks' ws' suf
  | _, _ => []
  end.
Lemma keys_wire_again ks ws suf : Forall2 wired ks ws -> keys_wire (parsed_keys ks ws suf) = Ok (again ks ws suf).
Proof.
  induction 1 as [|k w ks ws Wk _ IH]; [reflexivity|]. cbn [parsed_keys keys_wire again].
  unfold key_wire, parsed_key at 1 2 3. cbn [ikey_is_encoded]. cbn [rbind]. cbn [ikey_buf ikey_is_empty].
  destruct (ikey_keys k) as [|s l]; cbn [map].
  - destruct (w ++ concat ws ++ suf); cbn [rbind gcontent]; rewrite IH; reflexivity.
  - destruct (w ++ concat ws ++ suf) eqn:Ec; cbn [rbind gcontent]; rewrite IH; [|reflexivity]. exfalso. apply app_eq_nil in Ec. destruct Ec as [-> _].
    destruct (wired_length _ _ Wk) as (L & _). cbn in L. lia.
Qed.

Lemma again_length ks ws suf : Forall2 wired ks ws -> (zlen (concat ws) <= zlen (again ks ws suf))%Z /\
  (zlen (again ks ws suf) = zlen (concat ws) -> forall i k, nth_error ks i = Some k -> ikey_keys k <> [] -> S i = length ks /\ suf = []) /\
  ((forall i k, nth_error ks i = Some k -> ikey_keys k <> [] -> S i = length ks /\ suf = []) -> again ks ws suf = concat ws).
Proof.
  induction 1 as [|k w ks ws Wk W (IH1 & IH2 & IH3)]; cbn [again concat].
  - split; [lia|]. split; [|reflexivity]. intros _ [|i] k E; discriminate.
  - destruct (wired_length _ _ Wk) as (Lw & Le). rewrite !zlen_app. pose proof (zlen_nonneg suf). pose proof (zlen_nonneg (concat ws)).
    assert ((zlen w <= zlen (match ikey_keys k with [] => [x00] | _ => w ++ concat ws ++ suf end))%Z /\
            (ikey_keys k <> [] -> zlen (match ikey_keys k with [] => [x00] | _ => w ++ concat ws ++ suf end) = zlen w + zlen (concat ws) + zlen suf)%Z) as (A1 & A2).
    { destruct (ikey_keys k); [split; [rewrite Le by reflexivity; reflexivity|congruence]|]. rewrite !zlen_app. split; [lia|intros _; lia]. }
    split; [lia|]. split.
    + intros E i k' Ei Nk. destruct i as [|i]; cbn [nth_error] in Ei.
      * injection Ei as ->. specialize (A2 Nk). assert (zlen (concat ws) = 0%Z /\ zlen suf = 0%Z) as (Z1 & Z2) by lia.
        split; [|destruct suf; [reflexivity|rewrite zlen_cons in Z2; pose proof (zlen_nonneg suf); lia]].
        destruct W as [|k2 w2 ks ws W2 W]; [reflexivity|]. destruct (wired_length _ _ W2). cbn [concat] in Z1. rewrite zlen_app in Z1.
        pose proof (zlen_nonneg (concat ws)). lia.
      * destruct (IH2 ltac:(lia) i k' Ei Nk). cbn [length]. auto.
    + intros C. rewrite IH3.
      * f_equal. destruct (ikey_keys k) as [|s l] eqn:Ek; [symmetry; now apply (wired_empty k)|].
        destruct (C 0%nat k eq_refl) as (C1 & ->); [congruence|]. cbn [length] in C1.
        destruct W; [now rewrite app_nil_r|discriminate].
      * intros i k' Ei Nk. destruct (C (S i) k' Ei Nk) as (C1 & C2). cbn [length] in C1. split; [lia|assumption].
Qed.
