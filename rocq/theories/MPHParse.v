(** * Parsing arbitrary bytes as a perfect hash table: C76. *)
From Coq Require Import List NArith ZArith Bool Lia.
From Coq Require Import Strings.Byte.
From Verif Require Import Base BaseProofs EndianModel EndianProofs VarintModel VarintSpec VarintProofs KeyModel KeySpec KeyProofs MPHModel MPHSpec MPHProofs MPHCodec.
Import ListNotations.
Local Open Scope N_scope.

Lemma take4 (l : bytes) : (4 <= length l)%nat -> exists x l', l = be32 x ++ l' /\ x < 2 ^ 32.
Proof.
  intros L. exists (be_get (firstn 4 l)), (skipn 4 l).
  assert (length (firstn 4 l) = 4%nat) as L4 by (rewrite firstn_length; lia).
  pose proof (be_get_bound (firstn 4 l)) as B. rewrite L4 in B. change (256 ^ N.of_nat 4) with (2 ^ 32) in B. split; [|assumption].
  unfold be32. rewrite N.mod_small by assumption. rewrite <- L4 at 1. rewrite be_put_get. symmetry. apply firstn_skipn.
Qed.
Lemma read32_cases pre rest :
  (read32 (pre ++ rest) (zlen pre) = Err /\ (length rest < 4)%nat) \/
  exists x rest', rest = be32 x ++ rest' /\ x < 2 ^ 32 /\ read32 (pre ++ rest) (zlen pre) = Ok (x, zlen (pre ++ be32 x)).
Proof.
  destruct (Nat.lt_ge_cases (length rest) 4) as [L|L].
  - left. split; [|assumption]. unfold read32. destruct (Z.ltb_spec (zlen (pre ++ rest)) (zlen pre + 4)); [reflexivity|].
    rewrite zlen_app in *. unfold zlen in *. lia.
  - right. destruct (take4 rest L) as (x & rest' & -> & B). exists x, rest'. split; [reflexivity|]. split; [assumption|].
    rewrite read32_ok by assumption. now rewrite zlen_app, zlen_be32.
Qed.
Lemma take4s n : forall (l : bytes), (4 * n <= length l)%nat -> exists xs l', l = be32s xs ++ l' /\ length xs = n /\ Forall (fun x => x < 2 ^ 32) xs.
Proof.
  induction n as [|n IH]; intros l L.
  - exists [], l. repeat split. constructor.
  - destruct (take4 l ltac:(lia)) as (x & l' & -> & B). rewrite app_length, be32_length in L. destruct (IH l' ltac:(lia)) as (xs & l2 & -> & E & F).
    exists (x :: xs), l2. change (be32s (x :: xs)) with (be32 x ++ be32s xs). rewrite <- app_assoc. split; [reflexivity|]. split; [simpl; lia|]. now constructor.
Qed.
Lemma read_array_cases pre rest :
  read_array (pre ++ rest) (zlen pre) = Err \/
  exists l rest', rest = be32_array l ++ rest' /\ N.of_nat (length l) < 2 ^ 32 /\ Forall (fun x => x < 2 ^ 32) l /\
    read_array (pre ++ rest) (zlen pre) = Ok (l, zlen (pre ++ be32_array l)).
Proof.
  unfold read_array at 1. destruct (read32_cases pre rest) as [(E & _) | (x & rest1 & -> & B & E)]; rewrite E; cbn [rbind]; [now left|].
  destruct (Z.ltb_spec (zlen (pre ++ be32 x ++ rest1)) (zlen (pre ++ be32 x) + 4 * Z.of_N x)) as [C|C]; [now left|]. right.
  rewrite app_assoc, (zlen_app _ rest1) in C. destruct (take4s (N.to_nat x) rest1) as (l & rest2 & -> & L & F); [revert C; generalize (zlen (pre ++ be32 x)); unfold zlen; clear; intros; lia|].
  assert (x = N.of_nat (length l)) as -> by lia. exists l, rest2. unfold be32_array at 1. rewrite <- app_assoc. split; [reflexivity|]. split; [assumption|]. split; [assumption|].
  change (be32 (N.of_nat (length l)) ++ be32s l ++ rest2) with (be32 (N.of_nat (length l)) ++ (be32s l ++ rest2)). rewrite (app_assoc _ (be32s l)).
  fold (be32_array l). now apply read_array_ok.
Qed.

(** [key_run n l tail]: the bytes [l] are [n] keys followed by [tail]. *)
Inductive key_run : nat -> bytes -> bytes -> Prop :=
| run_0 l : key_run 0 l l
| run_S n k w l tail : new_mapped_key (Some (w ++ l)) = Ok (k, zlen w) -> key_run n l tail -> key_run (S n) (w ++ l) tail.

Lemma key_run_split n l tail : key_run n l tail -> exists w, l = w ++ tail.
Proof.
  induction 1 as [l|n k w l tail P R (v & E)]; [now exists []|]. exists (w ++ v). rewrite <- app_assoc. now f_equal.
Qed.
Lemma read_keys_run n l tail : key_run n l tail -> forall pre m,
  read_keys (n + m) (pre ++ l) (zlen pre) =
    (let? (ks, pos) := read_keys m (pre ++ l) (zlen (pre ++ l) - zlen tail) in
     let? (ks0, _) := read_keys n (pre ++ l) (zlen pre) in Ok (ks0 ++ ks, pos)).
Proof.
  induction 1 as [l|n k w l tail P R IH]; intros pre m.
  - cbn [Nat.add read_keys rbind app]. replace (zlen (pre ++ l) - zlen l)%Z with (zlen pre) by (rewrite zlen_app; lia).
    destruct (read_keys m (pre ++ l) (zlen pre)) as [[ks pos]| |]; reflexivity.
  - cbn [Nat.add read_keys]. rewrite go_from_app. cbn [rbind]. rewrite P. cbn [rbind]. rewrite app_assoc, <- zlen_app.
    destruct (Z.ltb_spec (zlen ((pre ++ w) ++ l)) (zlen (pre ++ w))) as [C|_]; [rewrite (zlen_app (pre ++ w)) in C; pose proof (zlen_nonneg l); lia|].
    rewrite IH. destruct (read_keys m ((pre ++ w) ++ l) _) as [[ks pos]| |]; cbn [rbind]; [|reflexivity..].
    destruct (read_keys n ((pre ++ w) ++ l) (zlen (pre ++ w))) as [[ks0 pos0]| |]; reflexivity.
Qed.

Lemma decode_subkeys_bounds n : forall buf pos ks pos', (0 <= pos <= zlen buf)%Z -> decode_subkeys n buf pos = Ok (ks, pos') -> (pos <= pos' <= zlen buf)%Z.
Proof.
  induction n as [|n IH]; intros buf pos ks pos' B H; cbn [decode_subkeys] in H; [inv H; lia|]. unfold go_from in H.
  destruct ((0 <=? pos) && (pos <=? zlen buf))%Z eqn:G; [|discriminate]. cbn [rbind] in H.
  destruct (decode_varchar (skipn (Z.to_nat pos) buf)) as [[k l]| |] eqn:D; cbn [rbind] in H; try discriminate.
  destruct (decode_subkeys n buf (pos + l)) as [[ks1 p1]| |] eqn:R; cbn [rbind] in H; try discriminate. inv H.
  assert (0 <= l <= zlen buf - pos)%Z as Bl.
  { assert (zlen (skipn (Z.to_nat pos) buf) = zlen buf - pos)%Z as Ls by (unfold zlen in *; rewrite skipn_length; lia).
    destruct (varchar_inside _ _ _ D) as [(_ & _ & ->)|(pre & more & E & _ & ->)]; [lia|]. rewrite E, app_assoc, zlen_app in Ls.
    pose proof (zlen_nonneg more). pose proof (zlen_nonneg (pre ++ k)). lia. }
  apply IH in R; lia.
Qed.
Lemma mapped_key_bounds buf k n : new_mapped_key (Some buf) = Ok (k, n) -> (0 <= n <= zlen buf)%Z.
Proof.
  unfold new_mapped_key, decode_keys. cbn [gcontent]. intros H. destruct (decode_uvarint64 buf) as [[v l]| |] eqn:D; cbn [rbind] in H; try discriminate.
  destruct (make_slices_ok v); [|discriminate]. destruct (decode_subkeys (N.to_nat v) buf l) as [[ks p]| |] eqn:R; cbn [rbind] in H; try discriminate. inv H.
  assert (0 <= l <= zlen buf)%Z as Bl.
  { destruct buf as [|b buf]; [vm_compute in D; inv D; vm_compute; split; discriminate|].
    destruct (header_cases (b :: buf)) as [v' m E Hn|pre suf v' Eb U E].
    - destruct (bad_header_err (b :: buf) v' m) as (_ & F & _); [discriminate|assumption..|]. congruence.
    - rewrite Eb, (decode_uvarint64_header _ _ _ U) in D. destruct (_ && _)%bool; [discriminate|]. inv D. rewrite Eb, zlen_app.
      pose proof (zlen_nonneg suf). pose proof (zlen_nonneg pre). lia. }
  apply decode_subkeys_bounds in R; lia.
Qed.

(** The outcomes of reading keys. *)
Lemma read_keys_cases n : forall pre rest,
  read_keys n (pre ++ rest) (zlen pre) = Err \/
  (exists ks w tail, rest = w ++ tail /\ key_run n rest tail /\ read_keys n (pre ++ rest) (zlen pre) = Ok (ks, zlen (pre ++ w))) \/
  (exists j tail, (j < n)%nat /\ key_run j rest tail /\ new_mapped_key (Some tail) = Panic /\ read_keys n (pre ++ rest) (zlen pre) = Panic).
Proof.
  induction n as [|n IH]; intros pre rest; cbn [read_keys].
  - right. left. exists [], [], rest. split; [reflexivity|]. split; [constructor|]. now rewrite app_nil_r.
  - rewrite go_from_app. cbn [rbind]. destruct (new_mapped_key (Some rest)) as [[k l]| |] eqn:K; cbn [rbind].
    + pose proof (mapped_key_bounds _ _ _ K) as B. destruct (Z.ltb_spec (zlen (pre ++ rest)) (zlen pre + l)) as [C|_]; [rewrite zlen_app in C; lia|].
      assert (exists w rest', rest = w ++ rest' /\ l = zlen w) as (w & rest' & -> & ->).
      { exists (firstn (Z.to_nat l) rest), (skipn (Z.to_nat l) rest). rewrite firstn_skipn. split; [reflexivity|].
        unfold zlen in *. rewrite firstn_length. lia. }
      rewrite app_assoc, <- zlen_app. destruct (IH (pre ++ w) rest') as [E | [(ks & w' & tail & Et & R & E) | (j & tail & J & R & P & E)]]; rewrite E; cbn [rbind].
      * now left.
      * right. left. exists (k :: ks), (w ++ w'), tail. split; [rewrite Et, app_assoc; reflexivity|]. split; [exact (run_S _ _ _ _ _ K R)|].
        now rewrite app_assoc.
      * right. right. exists (S j), tail. split; [lia|]. split; [exact (run_S _ _ _ _ _ K R)|]. auto.
    + now left.
    + right. right. exists 0%nat, rest. split; [lia|]. split; [constructor|]. auto.
Qed.
Lemma read_keys_panics j rest tail : key_run j rest tail -> new_mapped_key (Some tail) = Panic -> forall n pre, (j < n)%nat ->
  read_keys n (pre ++ rest) (zlen pre) = Panic.
Proof.
  induction 1 as [l|j k w l tail K R IH]; intros P n pre L; (destruct n as [|n]; [lia|]); cbn [read_keys]; rewrite go_from_app; cbn [rbind].
  - now rewrite (P : new_mapped_key (@Some (list byte) l) = Panic).
  - rewrite (K : new_mapped_key (@Some (list byte) (w ++ l)) = Ok (k, zlen w)). cbn [rbind]. rewrite app_assoc, <- zlen_app.
    destruct (Z.ltb_spec (zlen ((pre ++ w) ++ l)) (zlen (pre ++ w))) as [C|_]; [rewrite (zlen_app _ l) in C; pose proof (zlen_nonneg l); lia|].
    rewrite (IH P n (pre ++ w) ltac:(lia)). reflexivity.
Qed.

(** The outcomes of parsing a table. *)
Lemma new_mph_cases buf :
  new_mph_table buf = Err \/
  (exists w tail m, buf = w ++ tail /\ new_mph_table buf = Ok (m, zlen w)) \/
  (exists t n rest j tail, small_table t /\ n < 2 ^ 32 /\ buf = table_head t x01 ++ be32 n ++ rest /\ (j < N.to_nat n)%nat /\ key_run j rest tail /\
     new_mapped_key (Some tail) = Panic /\ new_mph_table buf = Panic).
Proof.
  destruct buf as [|m r]; [now left|]. 
  unfold new_mph_table. cbv iota.
  destruct ((b2n m =? 0) || (b2n m =? 1)) eqn:M; cbn [negb]; [|now left].
  assert (b2n m = 0 \/ b2n m = 1) as M' by lia. clear M.
  change 1%Z with (zlen [m]). change (m :: r) with ([m] ++ r).
  destruct (read_array_cases [m] r) as [E | (l0 & r1 & -> & L0 & F0 & E)]; rewrite E; cbn [rbind]; [now left|].
  destruct (read32_cases ([m] ++ be32_array l0) r1) as [(E1 & _) | (m0 & r2 & -> & B0 & E1)]; rewrite <- app_assoc in E1; rewrite E1; cbn [rbind]; [now left|].
  destruct (read_array_cases (([m] ++ be32_array l0) ++ be32 m0) r2) as [E2 | (l1 & r3 & -> & L1 & F1 & E2)]; rewrite <- !app_assoc in E2; rewrite <- ?app_assoc; rewrite E2; cbn [rbind]; [now left|].
  destruct (read32_cases (([m] ++ be32_array l0 ++ be32 m0) ++ be32_array l1) r3) as [(E3 & _) | (m1 & r4 & -> & B1 & E3)]; rewrite <- !app_assoc in E3; rewrite <- ?app_assoc; rewrite E3; cbn [rbind]; [now left|].
  set (t := mkMPH l0 m0 l1 m1 None 0 []). assert (small_table t) as St by (repeat split; assumption).
  assert (forall rest, [m] ++ be32_array l0 ++ be32 m0 ++ be32_array l1 ++ be32 m1 ++ rest = table_head t m ++ rest) as Th.
  { intros rest. unfold table_head, t. cbn [m_level0 m_mask0 m_level1 m_mask1 app]. now rewrite <- !app_assoc. }
  rewrite (Th r4). change ([m] ++ be32_array l0 ++ be32 m0 ++ be32_array l1 ++ be32 m1) with (table_head t m).
  destruct (N.eqb_spec (b2n m) 1) as [M1|M1].
  - assert (m = x01) as -> by (apply b2n_inj; assumption).
    destruct (read32_cases (table_head t x01) r4) as [(E4 & _) | (n & r5 & -> & Bn & E4)]; rewrite E4; cbn [rbind]; [now left|].
    rewrite app_assoc. destruct (read_keys_cases (N.to_nat n) (table_head t x01 ++ be32 n) r5) as [E5 | [(ks & w & tail & -> & R & E5) | (j & tail & J & R & P & E5)]];
      rewrite E5; cbn [rbind].
    + now left.
    + right. left. eexists ((table_head t x01 ++ be32 n) ++ w), tail, _. split; [now rewrite <- !app_assoc|reflexivity].
    + right. right. exists t, n, r5, j, tail. repeat (split; [assumption || reflexivity|]). split; [now rewrite <- app_assoc|]. auto.
  - destruct (read32_cases (table_head t m) r4) as [(E4 & _) | (s & r5 & -> & Bs & E4)]; rewrite E4; cbn [rbind]; [now left|].
    rewrite app_assoc. destruct (read_array_cases (table_head t m ++ be32 s) r5) as [E5 | (hs & r6 & -> & Lh & Fh & E5)]; rewrite E5; cbn [rbind]; [now left|].
    right. left. eexists ((table_head t m ++ be32 s) ++ be32_array hs), r6, _. split; [now rewrite <- !app_assoc|reflexivity].
Qed.

(** ** C76 *)
(** Parsing panics exactly if the table keeps keys and one of the announced keys cannot be allocated (C30). *)
Theorem C76_panic_exact : forall buf,
  new_mph_table buf = Panic <->
  exists t n rest j tail, small_table t /\ n < 2 ^ 32 /\ buf = table_head t x01 ++ be32 n ++ rest /\ (j < N.to_nat n)%nat /\ key_run j rest tail /\
    new_mapped_key (Some tail) = Panic.
Proof.
  intros buf. split.
  - intros H. destruct (new_mph_cases buf) as [E | [(w & tail & m & _ & E) | (t & n & rest & j & tail & S & B & Eb & J & R & P & _)]]; [congruence..|].
    exists t, n, rest, j, tail. auto 10.
  - intros (t & n & rest & j & tail & S & B & -> & J & R & P). rewrite parse_head by auto. cbv zeta. change (b2n x01 =? 1) with true. cbv iota.
    rewrite read32_ok by assumption. cbn [rbind]. rewrite <- (zlen_be32 n), <- zlen_app, app_assoc. now rewrite (read_keys_panics j rest tail R P).
Qed.
Print Assumptions C76_panic_exact.
Definition huge_key_table : bytes := table_head (mkMPH [] 0 [] 0 None 0 []) x01 ++ be32 1 ++ repeat xff 9 ++ [x01].
Theorem C76_refuted : new_mph_table huge_key_table = Panic.
Proof. vm_compute. reflexivity. Qed.
Print Assumptions C76_refuted.
(** What holds: tables that keep hashes never panic, and every parsed table lies inside the buffer. *)
Theorem C76_partial : forall buf,
  (new_mph_table buf = Panic -> exists r, buf = x01 :: r) /\
  (forall m n, new_mph_table buf = Ok (m, n) -> (0 <= n <= zlen buf)%Z).
Proof.
  intros buf. split.
  - intros H. apply C76_panic_exact in H. destruct H as (t & n & rest & j & tail & _ & _ & -> & _). eexists. unfold table_head. cbn [app]. reflexivity.
  - intros m n H. destruct (new_mph_cases buf) as [E | [(w & tail & m' & Eb & E) | (t & n' & rest & j & tail & _ & _ & _ & _ & _ & _ & E)]]; [congruence| |congruence].
    assert (n = zlen w) as -> by congruence. rewrite Eb, zlen_app. pose proof (zlen_nonneg w). pose proof (zlen_nonneg tail). lia.
Qed.
Print Assumptions C76_partial.
Example C76_partial_applies : exists m n, new_mph_table (x00 :: be32_array [3] ++ be32 0 ++ be32_array [7] ++ be32 0 ++ be32 9 ++ be32_array [5] ++ [x01]) = Ok (m, n) /\ n = 37%Z.
Proof. do 2 eexists. split; vm_compute; reflexivity. Qed.
