(** * Lemmas about building a perfect hash table and looking up in it. *)
From Coq Require Import List NArith ZArith Bool Lia Permutation Sorted.
From Coq Require Import Strings.Byte.
From Verif Require Import Base BaseProofs KeyModel KeyProofs MPHModel.
Import ListNotations.
Local Open Scope N_scope.

(** ** Arrays *)
Lemma set_nth_length {A} (l : list A) n x : length (set_nth l n x) = length l.
Proof. revert n. induction l as [|a l IH]; intros [|n]; simpl; auto. Qed.

Lemma nth_error_set {A} (l : list A) n x j :
  nth_error (set_nth l n x) j = if Nat.eqb j n then (if Nat.ltb n (length l) then Some x else None) else nth_error l j.
Proof.
  revert n j. induction l as [|a l IH]; intros n j.
  - simpl. destruct j, n; simpl; auto. destruct (Nat.eqb j n); reflexivity.
  - destruct n as [|n], j as [|j]; simpl; auto. rewrite IH. destruct (Nat.eqb j n); [|reflexivity].
    destruct (Nat.ltb_spec n (length l)), (Nat.ltb_spec (S n) (S (length l))); try lia; reflexivity.
Qed.

Lemma nth_error_set_same {A} (l : list A) n x : (n < length l)%nat -> nth_error (set_nth l n x) n = Some x.
Proof. intros H. rewrite nth_error_set, Nat.eqb_refl. destruct (Nat.ltb_spec n (length l)); [reflexivity|lia]. Qed.
Lemma nth_error_set_other {A} (l : list A) n x j : j <> n -> nth_error (set_nth l n x) j = nth_error l j.
Proof. intros H. rewrite nth_error_set. destruct (Nat.eqb_spec j n); [contradiction|reflexivity]. Qed.

Lemma nth_error_ext {A} (l m : list A) : (forall j, nth_error l j = nth_error m j) -> l = m.
Proof.
  revert m. induction l as [|a l IH]; intros [|b m] E.
  - reflexivity.
  - specialize (E 0%nat). discriminate.
  - specialize (E 0%nat). discriminate.
  - f_equal; [specialize (E 0%nat); simpl in E; congruence|]. apply IH. intros j. exact (E (S j)).
Qed.

Lemma nth_error_some {A} (l : list A) n : (n < length l)%nat -> exists a, nth_error l n = Some a.
Proof. intros L. destruct (nth_error l n) eqn:E; [eauto|]. apply nth_error_None in E. lia. Qed.

Lemma nth_error_repeat {A} (a : A) n j : (j < n)%nat -> nth_error (repeat a n) j = Some a.
Proof. revert j. induction n as [|n IH]; intros [|j] L; simpl; try lia; [reflexivity|]. apply IH. lia. Qed.
Lemma nth_error_repeat_inv {A} (a : A) n j b : nth_error (repeat a n) j = Some b -> b = a.
Proof. intros E. apply nth_error_In, repeat_spec in E. assumption. Qed.

(** ** Masks *)
Lemma land_le a b : N.land a b <= b.
Proof.
  pose proof (N.lor_ldiff_and b a) as E. rewrite (N.land_comm b a) in E.
  assert (N.land (N.ldiff b a) (N.land a b) = 0) as D.
  { apply N.bits_inj_0. intros k. rewrite !N.land_spec, N.ldiff_spec. destruct (N.testbit a k), (N.testbit b k); reflexivity. }
  rewrite <- N.lxor_lor in E by assumption. rewrite <- N.add_nocarry_lxor in E by assumption. lia.
Qed.

Lemma next_pow2_loop_spec fuel : forall i n k a, i = 2 ^ a -> a + N.of_nat fuel = k -> n <= 2 ^ k ->
  n <= next_pow2_loop fuel i n /\ (exists c, next_pow2_loop fuel i n = 2 ^ c /\ c <= k /\ forall c', a <= c' -> n <= 2 ^ c' -> 2 ^ c <= 2 ^ c').
Proof.
  induction fuel as [|f IH]; intros i n k a Ei Ek L; cbn [next_pow2_loop]; destruct (N.leb_spec n i) as [C|C].
  - split; [assumption|]. exists a. split; [assumption|]. split; [lia|]. intros c' Hc _. apply N.pow_le_mono_r; lia.
  - exfalso. assert (k = a) as Ka by lia. rewrite Ka in L. lia.
  - split; [assumption|]. exists a. split; [assumption|]. split; [lia|]. intros c' Hc _. apply N.pow_le_mono_r; lia.
  - destruct (IH (2 * i) n k (a + 1)) as (H1 & c & H2 & H3 & H4); [subst i; rewrite N.pow_add_r; change (2 ^ 1) with 2; lia|lia|assumption|].
    split; [assumption|]. exists c. split; [assumption|]. split; [assumption|]. intros c' Hc Hn.
    destruct (N.eq_dec a c') as [->|]; [subst i; lia|]. apply H4; [lia|assumption].
Qed.

Lemma next_pow2_spec n : n <= 2 ^ 62 -> n <= next_pow2 n /\ 1 <= next_pow2 n /\ (forall c, n <= 2 ^ c -> next_pow2 n <= 2 ^ c).
Proof.
  intros L. destruct (next_pow2_loop_spec 62 1 n 62 0 eq_refl eq_refl L) as (H1 & c & H2 & H3 & H4).
  unfold next_pow2. split; [assumption|]. rewrite H2. split.
  - pose proof (N.pow_nonzero 2 c). lia.
  - intros c' Hc. apply H4; [lia|assumption].
Qed.

Section WithHash.
Context (H : N -> bytes -> N).

Lemma slot_lt seed mask k n : mask < N.of_nat n -> (slot H seed mask k < n)%nat.
Proof. intros L. unfold slot. pose proof (land_le (ikey_hash (H seed) k) mask). lia. Qed.

Lemma ikey_hash_keys f k k' : ikey_keys k = ikey_keys k' -> ikey_hash f k = ikey_hash f k'.
Proof. unfold ikey_hash. now intros ->. Qed.
Lemma slot_keys seed mask k k' : ikey_keys k = ikey_keys k' -> slot H seed mask k = slot H seed mask k'.
Proof. intros E. unfold slot. now rewrite (ikey_hash_keys _ _ _ E). Qed.

(** ** Buckets *)
Lemma fill_buckets_spec mask0 keys : forall i sparse, mask0 < N.of_nat (length sparse) ->
  exists sparse', fill_buckets H mask0 keys i sparse = Ok sparse' /\ length sparse' = length sparse /\
    forall n vals, nth_error sparse n = Some vals ->
      nth_error sparse' n = Some (vals ++ map (fun j => i + j)%nat
        (filter (fun j => match nth_error keys j with Some k => Nat.eqb (slot H 0 mask0 k) n | None => false end) (seq 0 (length keys)))).
Proof.
  induction keys as [|k keys IH]; intros i sparse L; cbn [fill_buckets].
  - exists sparse. split; [reflexivity|]. split; [reflexivity|]. intros n vals E. simpl. rewrite app_nil_r. assumption.
  - pose proof (slot_lt 0 mask0 k (length sparse) L) as Hs. destruct (nth_error_some sparse _ Hs) as (v & Ev).
    unfold nth_res. rewrite Ev. cbn [rbind]. unfold set_res. destruct (Nat.ltb_spec (slot H 0 mask0 k) (length sparse)); [|lia].
    cbn [rbind]. destruct (IH (S i) (set_nth sparse (slot H 0 mask0 k) (v ++ [i]))) as (sp & E & Le & Sp); [now rewrite set_nth_length|].
    exists sp. split; [assumption|]. split; [now rewrite Le, set_nth_length|]. intros n vals En.
    cbn [length seq filter nth_error].
    assert (forall l : list nat, map (fun j => i + j)%nat (map S l) = map (fun j => S i + j)%nat l) as Mp.
    { intros l. rewrite map_map. apply map_ext. intros; lia. }
    assert (forall l (p : nat -> bool), filter p (map S l) = map S (filter (fun j => p (S j)) l)) as Fm.
    { induction l as [|x l IHl]; intros p; [reflexivity|]. cbn [map filter]. rewrite IHl. destruct (p (S x)); reflexivity. }
    rewrite <- seq_shift. rewrite Fm. cbn [nth_error].
    destruct (Nat.eqb_spec (slot H 0 mask0 k) n) as [En'|En'].
    + subst n. rewrite Ev in En. inv En.
      rewrite (Sp (slot H 0 mask0 k) (vals ++ [i])) by (apply nth_error_set_same; assumption).
      cbn [map]. rewrite Mp. rewrite <- app_assoc. simpl. now rewrite Nat.add_0_r.
    + rewrite (Sp n vals) by (rewrite nth_error_set_other by auto; assumption). now rewrite Mp.
Qed.

Lemma nonempty_in sparse : forall base n vals,
  In (n, vals) (nonempty_buckets base sparse) <-> (base <= n)%nat /\ nth_error sparse (n - base) = Some vals /\ vals <> [].
Proof.
  induction sparse as [|v sparse IH]; intros base n vals; cbn [nonempty_buckets].
  - simpl. split; [tauto|]. intros (_ & E & _). destruct (n - base)%nat; discriminate.
  - assert (In (n, vals) (nonempty_buckets (S base) sparse) <->
            (S base <= n)%nat /\ nth_error (v :: sparse) (n - base) = Some vals /\ vals <> []) as Q.
    { rewrite IH. split; intros (A & B & C).
      - split; [lia|]. replace (n - base)%nat with (S (n - S base)) by lia. auto.
      - split; [lia|]. replace (n - base)%nat with (S (n - S base)) in B by lia. auto. }
    assert (n = base -> nth_error (v :: sparse) (n - base) = Some v) as Z by (intros ->; rewrite Nat.sub_diag; reflexivity).
    destruct v as [|i v].
    + rewrite Q. split; intros (A & B & C); (split; [|auto]); [lia|].
      destruct (Nat.eq_dec n base) as [E|]; [|lia]. rewrite (Z E) in B. congruence.
    + cbn [In]. rewrite Q. split.
      * intros [E|(A & B & C)]; [inv E; split; [lia|split; [apply Z; reflexivity|discriminate]]|]. split; [lia|auto].
      * intros (A & B & C). destruct (Nat.eq_dec n base) as [E|]; [left|right; split; [lia|auto]].
        rewrite (Z E) in B. congruence.
Qed.

Lemma nonempty_nodup sparse : forall base, NoDup (map fst (nonempty_buckets base sparse)) /\
  forall n, In n (map fst (nonempty_buckets base sparse)) -> (base <= n < base + length sparse)%nat.
Proof.
  induction sparse as [|v sparse IH]; intros base; cbn [nonempty_buckets].
  - split; [constructor|]. simpl. tauto.
  - destruct (IH (S base)) as [ND B]. assert (forall n, In n (map fst (nonempty_buckets (S base) sparse)) -> (base <= n < base + S (length sparse))%nat) as B'.
    { intros n I. apply B in I. lia. }
    destruct v as [|i v]; [auto|]. cbn [map fst]. split.
    + constructor; [|assumption]. intros I. apply B in I. lia.
    + intros n [E|I]; [subst n; simpl length; lia|]. apply B' in I. simpl length. lia.
Qed.

(** What the list of buckets is: bucket [n] holds exactly the indices of the keys whose first-level slot is [n]. *)
Definition buckets_of (keys : list ikey) (mask0 : N) (bs : list (nat * list nat)) : Prop :=
  NoDup (map fst bs) /\
  (forall n vals, In (n, vals) bs -> N.of_nat n <= mask0 /\ NoDup vals /\ vals <> [] /\
     forall i, In i vals -> exists k, nth_error keys i = Some k /\ slot H 0 mask0 k = n) /\
  (forall i k, nth_error keys i = Some k -> exists vals, In (slot H 0 mask0 k, vals) bs /\ In i vals).

Lemma mph_buckets_spec keys : N.of_nat (length keys) <= 2 ^ 62 ->
  exists bs, mph_buckets H keys = Ok bs /\ buckets_of keys (next_pow2 (N.of_nat (length keys) / 4) - 1) bs.
Proof.
  intros L. unfold mph_buckets. set (len0 := next_pow2 (N.of_nat (length keys) / 4)).
  destruct (next_pow2_spec (N.of_nat (length keys) / 4)) as (_ & P1 & _).
  { transitivity (N.of_nat (length keys)); [|assumption]. apply N.div_le_upper_bound; lia. }
  fold len0 in P1.
  destruct (fill_buckets_spec (len0 - 1) keys 0 (repeat [] (N.to_nat len0))) as (sp & E & Le & Sp); [rewrite repeat_length; lia|].
  rewrite repeat_length in Le. rewrite E. cbn [rbind]. exists (nonempty_buckets 0 sp). split; [reflexivity|].
  destruct (nonempty_nodup sp 0) as [ND B].
  assert (forall n, (n < N.to_nat len0)%nat -> nth_error sp n = Some (filter (fun j => match nth_error keys j with Some k => Nat.eqb (slot H 0 (len0 - 1) k) n | None => false end) (seq 0 (length keys)))) as V.
  { intros n Hn. rewrite (Sp n [] (nth_error_repeat _ _ _ Hn)). cbn [app]. f_equal. rewrite (map_ext _ (fun j => j)) by (intros; lia). apply map_id. }
  split; [assumption|]. split.
  - intros n vals I. assert (In n (map fst (nonempty_buckets 0 sp))) as I' by (apply (in_map fst) in I; exact I). apply B in I'.
    apply nonempty_in in I. destruct I as (_ & I & Ne). rewrite Nat.sub_0_r in I. rewrite V in I by lia. inv I.
    split; [lia|]. split; [apply NoDup_filter, seq_NoDup|]. split; [assumption|]. intros i I. apply filter_In in I. destruct I as [_ I].
    destruct (nth_error keys i) as [k|]; [|discriminate]. exists k. split; [reflexivity|]. now apply Nat.eqb_eq.
  - intros i k Ek. pose proof (slot_lt 0 (len0 - 1) k (N.to_nat len0) ltac:(lia)) as Hs.
    set (n := slot H 0 (len0 - 1) k) in *. pose proof (V n Hs) as Vn.
    set (vals := filter _ _) in Vn. assert (In i vals) as I.
    { apply filter_In. split; [apply in_seq; assert (i < length keys)%nat by (apply nth_error_Some; congruence); lia|].
      rewrite Ek. apply Nat.eqb_refl. }
    exists vals. split; [|assumption]. apply nonempty_in. rewrite Nat.sub_0_r. split; [lia|]. split; [assumption|].
    intros C. rewrite C in I. destruct I.
Qed.

(** ** One attempt *)
Lemma clear_length tmp : forall occ, length (clear_slots tmp occ) = length occ.
Proof. induction tmp as [|n tmp IH]; intros occ; [reflexivity|]. cbn. change (length (clear_slots tmp (set_nth occ n false)) = length occ). rewrite IH. apply set_nth_length. Qed.

Lemma nth_error_clear tmp : forall occ j, nth_error (clear_slots tmp occ) j =
  if existsb (Nat.eqb j) tmp then (if Nat.ltb j (length occ) then Some false else None) else nth_error occ j.
Proof.
  induction tmp as [|n tmp IH]; intros occ j; [reflexivity|].
  change (clear_slots (n :: tmp) occ) with (clear_slots tmp (set_nth occ n false)). rewrite IH, set_nth_length.
  cbn [existsb]. destruct (existsb (Nat.eqb j) tmp); [now rewrite orb_true_r|]. rewrite orb_false_r.
  rewrite nth_error_set. destruct (Nat.eqb_spec j n) as [->|]; reflexivity.
Qed.

Lemma clear_step tmp occ n : nth_error occ n = Some false ->
  clear_slots (tmp ++ [n]) (set_nth occ n true) = clear_slots tmp occ.
Proof.
  intros E. apply nth_error_ext. intros j. rewrite !nth_error_clear, set_nth_length.
  rewrite existsb_app. cbn [existsb]. rewrite orb_false_r.
  destruct (existsb (Nat.eqb j) tmp); [reflexivity|]. cbn [orb].
  destruct (Nat.eqb_spec j n) as [->|Nj].
  - rewrite E. assert (n < length occ)%nat by (apply nth_error_Some; congruence). destruct (Nat.ltb_spec n (length occ)); [reflexivity|lia].
  - now rewrite nth_error_set_other.
Qed.

(** The slots the keys with these indices get under a seed. *)
Definition slots_of (seed mask1 : N) (keys : list ikey) (vals : list nat) : list nat :=
  map (fun i => match nth_error keys i with Some k => slot H seed mask1 k | None => 0%nat end) vals.

Lemma try_bucket_spec seed mask1 keys vals : forall occ level1 tmp,
  mask1 < N.of_nat (length occ) -> length level1 = length occ ->
  Forall (fun i => (i < length keys)%nat) vals ->
  exists ok occ' level1', try_bucket H seed mask1 keys vals occ level1 tmp = Ok (ok, occ', level1') /\
    length occ' = length occ /\ length level1' = length occ /\
    (forall n, nth_error occ n = Some true -> nth_error level1' n = nth_error level1 n) /\
    (forall n x, nth_error level1' n = Some x -> nth_error level1 n = Some x \/ exists i, In i vals /\ x = N.of_nat i mod 2 ^ 32) /\
    (if ok : bool
     then NoDup (slots_of seed mask1 keys vals) /\
          (forall n, In n (slots_of seed mask1 keys vals) -> nth_error occ n = Some false) /\
          (forall n, nth_error occ' n = if existsb (Nat.eqb n) (slots_of seed mask1 keys vals) then Some true else nth_error occ n) /\
          (forall i k, In i vals -> nth_error keys i = Some k -> nth_error level1' (slot H seed mask1 k) = Some (N.of_nat i mod 2 ^ 32))
     else occ' = clear_slots tmp occ /\
          ~ (NoDup (slots_of seed mask1 keys vals) /\ forall n, In n (slots_of seed mask1 keys vals) -> nth_error occ n = Some false)).
Proof.
  induction vals as [|i vals IH]; intros occ level1 tmp Lm Ll Fv; cbn [try_bucket].
  - exists true, occ, level1. split; [reflexivity|]. split; [reflexivity|]. split; [assumption|]. split; [auto|]. split; [auto|].
    split; [constructor|]. split; [simpl; tauto|]. split; [reflexivity|]. simpl; tauto.
  - inversion Fv as [|? ? Hi Fv']; subst. destruct (nth_error_some keys i Hi) as (k & Ek).
    unfold nth_res at 1. rewrite Ek. cbn [rbind].
    assert (slots_of seed mask1 keys (i :: vals) = slot H seed mask1 k :: slots_of seed mask1 keys vals) as Sl.
    { unfold slots_of. cbn [map]. now rewrite Ek. }
    rewrite Sl. set (n := slot H seed mask1 k) in *.
    assert (n < length occ)%nat as Hn by (apply slot_lt; assumption).
    destruct (nth_error_some occ n Hn) as (o & Eo). unfold nth_res at 1. rewrite Eo. cbn [rbind].
    destruct o.
    + exists false, (clear_slots tmp occ), level1. split; [reflexivity|]. split; [apply clear_length|]. split; [assumption|].
      split; [auto|]. split; [auto|]. split; [reflexivity|]. intros (_ & C). specialize (C n (or_introl eq_refl)). congruence.
    + unfold set_res. destruct (Nat.ltb_spec n (length occ)); [|lia]. cbn [rbind].
      destruct (Nat.ltb_spec n (length level1)); [|lia]. cbn [rbind].
      destruct (IH (set_nth occ n true) (set_nth level1 n (N.of_nat i mod 2 ^ 32)) (tmp ++ [n]))
        as (ok & occ' & level1' & E & L1 & L2 & P1 & P2 & P3); [now rewrite set_nth_length|now rewrite !set_nth_length|assumption|].
      rewrite set_nth_length in L1, L2.
      exists ok, occ', level1'. split; [assumption|]. split; [assumption|]. split; [assumption|].
      assert (nth_error level1' n = Some (N.of_nat i mod 2 ^ 32)) as W.
      { rewrite P1 by (apply nth_error_set_same; assumption). apply nth_error_set_same. lia. }
      split.
      { intros j Ej. assert (j <> n) by congruence. rewrite P1 by (rewrite nth_error_set_other; assumption). now apply nth_error_set_other. }
      split.
      { intros j x Ej. destruct (P2 j x Ej) as [Q|(i' & I & Q)]; [|right; exists i'; split; [now right|assumption]].
        rewrite nth_error_set in Q. destruct (Nat.eqb_spec j n); [|auto]. destruct (Nat.ltb _ _); [|discriminate].
        right. exists i. split; [now left|congruence]. }
      destruct ok.
      * destruct P3 as (ND & Fr & Oc & Pl).
        assert (~ In n (slots_of seed mask1 keys vals)) as Nin.
        { intros I. apply Fr in I. rewrite nth_error_set_same in I by assumption. discriminate. }
        split; [now constructor|]. split.
        { intros j [<- | I]; [assumption|]. specialize (Fr j I). rewrite nth_error_set_other in Fr; [assumption|]. intros ->. contradiction. }
        split.
        { intros j. rewrite Oc. cbn [existsb]. destruct (existsb (Nat.eqb j) (slots_of seed mask1 keys vals)); [now rewrite orb_true_r|].
          rewrite orb_false_r, nth_error_set. destruct (Nat.eqb j n); [|reflexivity]. destruct (Nat.ltb_spec n (length occ)); [reflexivity|lia]. }
        intros i' k' [<- | I] Ek'; [|now apply Pl]. assert (k' = k) by congruence. subst k'. exact W.
      * destruct P3 as (Cl & Nf). split; [now rewrite clear_step in Cl|]. intros (ND & Fr). inversion ND as [|? ? Nin ND']; subst. apply Nf.
        split; [assumption|]. intros j I. rewrite nth_error_set_other by (intros ->; contradiction). apply Fr. now right.
Qed.

(** A seed is good for a bucket when it sends its keys to distinct free slots. *)
Definition good_seed (mask1 : N) (keys : list ikey) (vals : list nat) (occ : list bool) (seed : N) : Prop :=
  NoDup (slots_of seed mask1 keys vals) /\ forall n, In n (slots_of seed mask1 keys vals) -> nth_error occ n = Some false.

Definition indices_in (keys : list ikey) (level1 : list N) : Prop :=
  forall n x, nth_error level1 n = Some x -> x = 0 \/ exists i, (i < length keys)%nat /\ x = N.of_nat i mod 2 ^ 32.

(** The retry loop: it never panics, stops at the first good seed it meets, and a good seed ends it within the fuel. *)
Lemma seed_loop_spec fuel : forall mask1 keys vals seed occ level1,
  mask1 < N.of_nat (length occ) -> length level1 = length occ -> seed < 2 ^ 32 ->
  Forall (fun i => (i < length keys)%nat) vals ->
  match seed_loop H fuel mask1 keys vals seed occ level1 with
  | Ok None => forall j, (j < fuel)%nat -> ~ good_seed mask1 keys vals occ ((seed + N.of_nat j) mod 2 ^ 32)
  | Ok (Some (s, occ', level1')) =>
      s < 2 ^ 32 /\ good_seed mask1 keys vals occ s /\ length occ' = length occ /\ length level1' = length occ /\
      (exists j, (j < fuel)%nat /\ s = (seed + N.of_nat j) mod 2 ^ 32 /\
                 forall j', (j' < j)%nat -> ~ good_seed mask1 keys vals occ ((seed + N.of_nat j') mod 2 ^ 32)) /\
      (forall n, nth_error occ n = Some true -> nth_error occ' n = Some true /\ nth_error level1' n = nth_error level1 n) /\
      (forall n, nth_error occ' n = if existsb (Nat.eqb n) (slots_of s mask1 keys vals) then Some true else nth_error occ n) /\
      (forall i k, In i vals -> nth_error keys i = Some k -> nth_error level1' (slot H s mask1 k) = Some (N.of_nat i mod 2 ^ 32)) /\
      (indices_in keys level1 -> indices_in keys level1')
  | _ => False
  end.
Proof.
  induction fuel as [|fuel IH]; intros mask1 keys vals seed occ level1 Lm Ll Hs Fv; cbn [seed_loop]; [intros j Hj; lia|].
  destruct (try_bucket_spec seed mask1 keys vals occ level1 [] Lm Ll Fv) as (ok & occ' & level1' & E & L1 & L2 & P1 & P2 & P3).
  rewrite E. cbn [rbind]. clear E.
  assert (indices_in keys level1 -> indices_in keys level1') as Ix.
  { intros I n x En. destruct (P2 n x En) as [Q|(i & Ii & Q)]; [now apply (I n)|]. right. exists i. split; [|assumption].
    rewrite Forall_forall in Fv. now apply Fv. }
  destruct ok.
  - destruct P3 as (ND & Fr & Oc & Pl). split; [assumption|]. split; [split; assumption|]. split; [assumption|]. split; [assumption|].
    split; [exists 0%nat; split; [lia|split; [rewrite N.add_0_r, N.mod_small by assumption; reflexivity|intros j' Hj'; lia]]|].
    split; [|auto]. intros n En. split; [|now apply P1]. rewrite Oc. destruct (existsb _ _); [reflexivity|assumption].
  - destruct P3 as (Cl & Nf). cbn in Cl. subst occ'.
    assert (((seed + 1) mod 2 ^ 32 + 0) mod 2 ^ 32 = (seed + 1) mod 2 ^ 32) as _ by (rewrite N.add_0_r, N.mod_mod by lia; reflexivity).
    assert (forall j, (((seed + 1) mod 2 ^ 32) + N.of_nat j) mod 2 ^ 32 = (seed + N.of_nat (S j)) mod 2 ^ 32) as Sh.
    { intros j. rewrite N.add_mod_idemp_l by lia. f_equal. lia. }
    assert (~ good_seed mask1 keys vals occ ((seed + N.of_nat 0) mod 2 ^ 32)) as N0.
    { rewrite N.add_0_r, N.mod_small by assumption. exact Nf. }
    pose proof (IH mask1 keys vals ((seed + 1) mod 2 ^ 32) occ level1' Lm L2 ltac:(apply N.mod_lt; lia) Fv) as Q.
    destruct (seed_loop H fuel mask1 keys vals ((seed + 1) mod 2 ^ 32) occ level1') as [[[[s occ2] l2]|]| |]; [|..|contradiction].
    + destruct Q as (Q1 & Q2 & Q3 & Q4 & (j & Hj & Ej & Fj) & Q5 & Q6 & Q7 & Q8).
      split; [assumption|]. split; [assumption|]. split; [assumption|]. split; [assumption|]. split.
      { exists (S j). split; [lia|]. split; [now rewrite <- Sh|]. intros [|j'] Hj'; [exact N0|]. rewrite <- Sh. apply Fj. lia. }
      split; [|split; [assumption|split; [assumption|auto]]].
      intros n En. destruct (Q5 n En) as [A B]. split; [assumption|]. rewrite B. now apply P1.
    + intros [|j] Hj; [exact N0|]. rewrite <- Sh. apply Q. lia.
    + contradiction.
Qed.

Lemma seed_loop_stops_iff mask1 keys vals occ level1 :
  mask1 < N.of_nat (length occ) -> length level1 = length occ -> Forall (fun i => (i < length keys)%nat) vals ->
  ((exists fuel r, seed_loop H fuel mask1 keys vals 0 occ level1 = Ok (Some r)) <-> exists s, s < 2 ^ 32 /\ good_seed mask1 keys vals occ s).
Proof.
  intros Lm Ll Fv. split.
  - intros (fuel & [[s o] l] & E). pose proof (seed_loop_spec fuel mask1 keys vals 0 occ level1 Lm Ll ltac:(lia) Fv) as Q.
    rewrite E in Q. exists s. tauto.
  - intros (s & Hs & G). exists (S (N.to_nat s)).
    pose proof (seed_loop_spec (S (N.to_nat s)) mask1 keys vals 0 occ level1 Lm Ll ltac:(lia) Fv) as Q.
    destruct (seed_loop H _ mask1 keys vals 0 occ level1) as [[r|]| |]; [eauto|..|contradiction].
    + exfalso. apply (Q (N.to_nat s) ltac:(lia)). rewrite N2Nat.id, N.add_0_l, N.mod_small by assumption. assumption.
    + contradiction.
Qed.

(** More fuel gives the same answer. *)
Lemma seed_loop_mono fuel : forall mask1 keys vals seed occ level1 r fuel', seed_loop H fuel mask1 keys vals seed occ level1 = Ok (Some r) ->
  (fuel <= fuel')%nat -> seed_loop H fuel' mask1 keys vals seed occ level1 = Ok (Some r).
Proof.
  induction fuel as [|fuel IH]; intros mask1 keys vals seed occ level1 r fuel' E L; [discriminate|].
  destruct fuel' as [|fuel']; [lia|]. cbn [seed_loop] in *.
  destruct (try_bucket H seed mask1 keys vals occ level1 []) as [[[ok o] l]| |]; cbn [rbind] in *; try discriminate.
  destruct ok; [assumption|]. apply IH; [assumption|lia].
Qed.

Lemma place_mono fuel fuel' mask1 keys bs : (fuel <= fuel')%nat -> forall level0 occ level1 r,
  place_buckets H fuel mask1 keys bs level0 occ level1 = Ok (Some r) -> place_buckets H fuel' mask1 keys bs level0 occ level1 = Ok (Some r).
Proof.
  intros L. induction bs as [|[n vals] bs IH]; intros level0 occ level1 r E; [exact E|]. cbn [place_buckets] in *.
  destruct (seed_loop H fuel mask1 keys vals 0 occ level1) as [[[[s o] l]|]| |] eqn:Es; cbn [rbind] in *; try discriminate.
  rewrite (seed_loop_mono _ _ _ _ _ _ _ _ _ Es L). cbn [rbind].
  destruct (set_res level0 n s); cbn [rbind] in *; try discriminate. now apply IH.
Qed.

(** ** All buckets *)
Definition placed (mask1 : N) (keys : list ikey) (level0 : list N) (occ : list bool) (level1 : list N) (n : nat) (vals : list nat) : Prop :=
  exists s, nth_error level0 n = Some s /\
    forall i k, In i vals -> nth_error keys i = Some k ->
      nth_error occ (slot H s mask1 k) = Some true /\ nth_error level1 (slot H s mask1 k) = Some (N.of_nat i mod 2 ^ 32).

Lemma place_buckets_spec fuel mask1 keys bs : forall level0 occ level1,
  mask1 < N.of_nat (length occ) -> length level1 = length occ -> indices_in keys level1 ->
  Forall (fun b => Forall (fun i => (i < length keys)%nat) (snd b)) bs ->
  Forall (fun b => (fst b < length level0)%nat) bs -> NoDup (map fst bs) ->
  match place_buckets H fuel mask1 keys bs level0 occ level1 with
  | Ok None => True
  | Ok (Some (level0', level1')) =>
      length level0' = length level0 /\ length level1' = length level1 /\ indices_in keys level1' /\
      (Forall (fun s => s < 2 ^ 32) level0 -> Forall (fun s => s < 2 ^ 32) level0') /\
      (exists occ', (forall n vals, In (n, vals) bs -> placed mask1 keys level0' occ' level1' n vals) /\
         (forall n, nth_error occ n = Some true -> nth_error occ' n = Some true /\ nth_error level1' n = nth_error level1 n)) /\
      (forall n, ~ In n (map fst bs) -> nth_error level0' n = nth_error level0 n)
  | _ => False
  end.
Proof.
  induction bs as [|[n vals] bs IH]; intros level0 occ level1 Lm Ll Ix Fv Fn ND; cbn [place_buckets].
  - split; [reflexivity|]. split; [reflexivity|]. split; [assumption|]. split; [auto|]. split; [|auto].
    exists occ. split; [simpl; tauto|auto].
  - inversion Fv as [|? ? Fv1 Fv2]; subst. inversion Fn as [|? ? Fn1 Fn2]; subst. cbn [map fst] in ND. inversion ND as [|? ? Nin ND2]; subst.
    cbn [fst snd] in *.
    pose proof (seed_loop_spec fuel mask1 keys vals 0 occ level1 Lm Ll ltac:(lia) Fv1) as Q.
    destruct (seed_loop H fuel mask1 keys vals 0 occ level1) as [[[[s occ2] l2]|]| |]; cbn [rbind]; [|exact I|contradiction..].
    destruct Q as (Q1 & Q2 & Q3 & Q4 & _ & Q5 & Q6 & Q7 & Q8).
    unfold set_res. destruct (Nat.ltb_spec n (length level0)); [|lia]. cbn [rbind].
    assert (forall i k, In i vals -> nth_error keys i = Some k -> nth_error occ2 (slot H s mask1 k) = Some true) as Oc.
    { intros i k Ii Ek. rewrite Q6. assert (existsb (Nat.eqb (slot H s mask1 k)) (slots_of s mask1 keys vals) = true) as ->; [|reflexivity].
      apply existsb_exists. exists (slot H s mask1 k). split; [|apply Nat.eqb_refl]. unfold slots_of. apply in_map_iff.
      exists i. rewrite Ek. auto. }
    pose proof (IH (set_nth level0 n s) occ2 l2 ltac:(rewrite Q3; assumption) ltac:(lia) (Q8 Ix) Fv2 ltac:(now rewrite set_nth_length) ND2) as R.
    destruct (place_buckets H fuel mask1 keys bs (set_nth level0 n s) occ2 l2) as [[[l0' l1']|]| |]; [|exact I|contradiction..].
    destruct R as (R1 & R2 & R3 & R4 & (occ3 & R5 & R6) & R7). rewrite set_nth_length in R1.
    split; [assumption|]. split; [lia|]. split; [assumption|]. split.
    { intros F. apply R4. apply Forall_forall. intros x Ix'. apply In_nth_error in Ix'. destruct Ix' as (j & Ej). rewrite nth_error_set in Ej.
      destruct (Nat.eqb j n); [destruct (Nat.ltb _ _); [congruence|discriminate]|]. rewrite Forall_forall in F. apply F. eapply nth_error_In; eauto. }
    split.
    { exists occ3. split.
      - intros n' vals' [E|Ib]; [inv E|now apply R5]. exists s. split.
        + rewrite R7 by assumption. now apply nth_error_set_same.
        + intros i k Ii Ek. specialize (Oc i k Ii Ek). destruct (R6 _ Oc) as [A B]. split; [assumption|]. rewrite B. now apply Q7 with (1 := Ii).
      - intros j Ej. destruct (Q5 j Ej) as [A B]. destruct (R6 j A) as [C D]. split; [assumption|congruence]. }
    intros j Nj. cbn [map fst In] in Nj. rewrite R7 by tauto. apply nth_error_set_other. intros ->. tauto.
Qed.

(** ** Built tables *)
Lemma buckets_of_perm keys mask0 bs bs' : Permutation bs bs' -> buckets_of keys mask0 bs -> buckets_of keys mask0 bs'.
Proof.
  intros P (A & B & C). split; [|split].
  - eapply Permutation_NoDup; [apply Permutation_map; exact P|assumption].
  - intros n vals I. apply B. eapply Permutation_in; [apply Permutation_sym; exact P|assumption].
  - intros i k E. destruct (C i k E) as (vals & I1 & I2). exists vals. split; [|assumption]. eapply Permutation_in; eauto.
Qed.

Lemma buckets_of_bounds keys mask0 bs : buckets_of keys mask0 bs ->
  Forall (fun b => Forall (fun i => (i < length keys)%nat) (snd b)) bs /\ Forall (fun b => (fst b < N.to_nat (mask0 + 1))%nat) bs.
Proof.
  intros (A & B & C). split; apply Forall_forall; intros [n vals] I; destruct (B n vals I) as (B1 & _ & _ & B2); cbn [fst snd].
  - apply Forall_forall. intros i Ii. destruct (B2 i Ii) as (k & Ek & _). apply nth_error_Some. congruence.
  - lia.
Qed.

(** What a finished build guarantees. *)
Lemma mph_build_spec fuel sort keys by_key vseed : (forall l, Permutation l (sort l)) -> N.of_nat (length keys) <= 2 ^ 62 ->
  match mph_build H fuel sort keys by_key vseed with
  | Ok None => True
  | Ok (Some t) =>
      let len0 := next_pow2 (N.of_nat (length keys) / 4) in
      let len1 := next_pow2 (N.of_nat (length keys)) in
      m_mask0 t = len0 - 1 /\ m_mask1 t = len1 - 1 /\
      length (m_level0 t) = N.to_nat len0 /\ length (m_level1 t) = N.to_nat len1 /\
      Forall (fun s => s < 2 ^ 32) (m_level0 t) /\ indices_in keys (m_level1 t) /\
      (if by_key then m_keys t = Some keys /\ m_seed t = 0 /\ m_hashes t = []
       else m_keys t = None /\ m_seed t = vseed /\ m_hashes t = map (ikey_hash (H vseed)) keys) /\
      (forall i k, nth_error keys i = Some k -> exists s, nth_error (m_level0 t) (slot H 0 (m_mask0 t) k) = Some s /\
         nth_error (m_level1 t) (slot H s (m_mask1 t) k) = Some (N.of_nat i mod 2 ^ 32))
  | _ => False
  end.
Proof.
  intros P L. unfold mph_build.
  destruct (mph_buckets_spec keys L) as (bs & Eb & Bs). rewrite Eb. cbn [rbind].
  set (len0 := next_pow2 (N.of_nat (length keys) / 4)) in *. set (len1 := next_pow2 (N.of_nat (length keys))) in *.
  destruct (next_pow2_spec (N.of_nat (length keys) / 4)) as (_ & P0 & _).
  { transitivity (N.of_nat (length keys)); [|assumption]. apply N.div_le_upper_bound; lia. }
  destruct (next_pow2_spec (N.of_nat (length keys)) L) as (_ & P1 & _). fold len0 in P0. fold len1 in P1.
  apply (buckets_of_perm _ _ _ _ (P bs)) in Bs. destruct (buckets_of_bounds _ _ _ Bs) as [F1 F2]. destruct Bs as (B1 & B2 & B3).
  replace (len0 - 1 + 1) with len0 in F2 by lia.
  pose proof (place_buckets_spec fuel (len1 - 1) keys (sort bs) (repeat 0 (N.to_nat len0)) (repeat false (N.to_nat len1)) (repeat 0 (N.to_nat len1))) as Q.
  rewrite !repeat_length in Q.
  specialize (Q ltac:(lia) eq_refl).
  specialize (Q ltac:(intros n x E; left; eapply nth_error_repeat_inv; exact E) F1 F2 B1).
  destruct (place_buckets H fuel (len1 - 1) keys (sort bs) _ _ _) as [[[l0 l1]|]| |]; cbn [rbind]; [|exact I|contradiction..].
  destruct Q as (Q1 & Q2 & Q3 & Q4 & (occ & Q5 & _) & _).
  assert (forall i k, nth_error keys i = Some k -> exists s, nth_error l0 (slot H 0 (len0 - 1) k) = Some s /\
         nth_error l1 (slot H s (len1 - 1) k) = Some (N.of_nat i mod 2 ^ 32)) as Pl.
  { intros i k Ek. destruct (B3 i k Ek) as (vals & Ib & Iv). destruct (Q5 _ _ Ib) as (s & Es & Ps).
    exists s. split; [assumption|]. now apply (Ps i k). }
  assert (Forall (fun s => s < 2 ^ 32) l0) as Fs.
  { apply Q4. apply Forall_forall. intros x Ix. apply repeat_spec in Ix. subst x. lia. }
  destruct by_key; cbn [m_mask0 m_mask1 m_level0 m_level1 m_keys m_seed m_hashes]; repeat (split; [auto; fail|]); auto.
Qed.
End WithHash.
