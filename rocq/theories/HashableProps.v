(** * Final theorems about hashing (C20, C21) and the hash map over the project's own keys (C17). *)
From Coq Require Import List NArith ZArith Bool Lia.
From Coq Require Import Strings.Byte.
From Verif Require Import Base BaseProofs CmpModel CmpProofs AVLModel MapSpec AVLProps HashModel HashSpec HashProofs HashProps.
From Verif Require Import KeyModel KeyProofs MurmurModel MurmurSpec MurmurProofs HashableModel.
Import ListNotations.

(** ** C20: MurmurHash3 *)
Theorem C20_murmur3 : forall (seed : N) (b : bytes), (seed < 2 ^ 32)%N ->
  murmur_hash seed b = Ok (murmur3_32 seed b) /\ (murmur3_32 seed b < 2 ^ 32)%N.
Proof. intros seed b H. split; [now apply murmur_ok|apply avalanche_bound]. Qed.
Print Assumptions C20_murmur3.

(** Published test vectors, for the model and for the reference. *)
Definition bs (l : list N) : bytes := map n2b l.
Definition murmur_vectors : list (N * list N * N) := [
  (0, [], 0); (1, [], 0x514e28b7); (0xffffffff, [], 0x81f16f39);
  (0, [0xff; 0xff; 0xff; 0xff], 0x76293b50); (0, [0x21; 0x43; 0x65; 0x87], 0xf55b516b);
  (0x5082edee, [0x21; 0x43; 0x65; 0x87], 0x2362f9de);
  (0, [0x21; 0x43; 0x65], 0x7e4a8634); (0, [0x21; 0x43], 0xa0f7b07a); (0, [0x21], 0x72661cf4);
  (0, [0; 0; 0; 0], 0x2362f9de); (0, [0; 0; 0], 0x85f0b427); (0, [0; 0], 0x30f4c306); (0, [0], 0x514e28b7);
  (0x9747b28c, [0x48; 0x65; 0x6c; 0x6c; 0x6f; 0x2c; 0x20; 0x77; 0x6f; 0x72; 0x6c; 0x64; 0x21], 0x24884cba)]%N.
Example C20_applies :
  forallb (fun t => match t with (s, l, h) =>
    ((s <? 2 ^ 32) && (murmur3_32 s (bs l) =? h) && match murmur_hash s (bs l) with Ok r => r =? h | _ => false end)%N
    end) murmur_vectors = true.
Proof. vm_compute. reflexivity. Qed.

(** ** C21: equal values have equal hashes *)
Lemma ikind_eqb_eq a b : ikind_eqb a b = true -> a = b.
Proof. destruct a, b; (reflexivity || discriminate). Qed.

Definition elems_of (s : option (list (option hobj))) : list (option hobj) :=
  match s with Some l => l | None => [] end.

Lemma xor_elems_ok e l : forall h n, xor_elems e l h = Ok n ->
  l = repeat None (length l) .
Proof.
  induction l as [|[x|] l IH]; intros h n H; cbn in H |- *; try discriminate; [reflexivity|].
  f_equal. eapply IH, H.
Qed.

Lemma hobj_hash_slice f s : hobj_hash f (HSlice s) = xor_elems (f []) (elems_of s) (f []).
Proof. destruct s; reflexivity. Qed.

Theorem C21_equal_same_hash : forall (f : bytes -> N) (a b : hobj) (m n : N),
  hobj_equal a b = true -> hobj_hash f a = Ok m -> hobj_hash f b = Ok n -> m = n.
Proof.
  intros f a b m n E Ha Hb. destruct a as [s|k s|s], b as [t|k' t|t]; try discriminate.
  - cbn [hobj_equal] in E. destruct (Nat.eqb _ _); [|discriminate].
    apply equal_byte_slice_exact in E. subst t. congruence.
  - cbn [hobj_equal] in E. destruct (ikind_eqb k k') eqn:Ek; [|discriminate]. apply ikind_eqb_eq in Ek. subst k'.
    destruct (Nat.eqb _ _); [|discriminate]. apply equal_int_slice_exact in E.
    destruct s as [[l c]|], t as [[l' c']|]; cbn in E; try discriminate; cbn [hobj_hash] in *.
    + injection E as <-. destruct (Nat.leb _ c); [|discriminate]. destruct (Nat.leb _ c'); [|discriminate]. congruence.
    + congruence.
  - rewrite hobj_hash_slice in *.
    assert (Hl : length (elems_of s) = length (elems_of t)).
    { cbn [hobj_equal] in E. fold (elems_of t) in E. destruct s as [l|]; cbn [elems_of].
      - destruct (Nat.eqb (length l) (length (elems_of t))) eqn:El; [now apply Nat.eqb_eq|discriminate].
      - now apply Nat.eqb_eq in E. }
    pose proof (xor_elems_ok _ _ _ _ Ha) as Ea. pose proof (xor_elems_ok _ _ _ _ Hb) as Eb.
    rewrite Ea, Hl, <- Eb in Ha. congruence.
Qed.
Print Assumptions C21_equal_same_hash.

(** Equal, exactly: the same type and, element by element, the same content. Capacities do not count; a nil slice of bytes or numbers differs from
    an empty one, while a nil HashableSlice is like an empty one. *)
Definition elements_of (s : option (list (option hobj))) : list (option hobj) := match s with Some l => l | None => [] end.
Inductive same : hobj -> hobj -> Prop :=
| SameBytes s : same (HBytes s) (HBytes s)
| SameInts k s t : option_map fst s = option_map fst t -> same (HInts k s) (HInts k t)
| SameSlice s t : Forall2 same_element (elements_of s) (elements_of t) -> same (HSlice s) (HSlice t)
with same_element : option hobj -> option hobj -> Prop :=
| SameNil : same_element None None
| SameSome x y : same x y -> same_element (Some x) (Some y).
Definition equal_loop : list (option hobj) -> list (option hobj) -> bool :=
  fix loop (l : list (option hobj)) (m : list (option hobj)) {struct l} : bool :=
    match l, m with
    | [], _ => true
    | None :: l', None :: m' => loop l' m'
    | Some x :: l', Some y :: m' => if hobj_equal x y then loop l' m' else false
    | _, _ => false
    end.
Lemma ikind_eqb_iff a b : ikind_eqb a b = true <-> a = b.
Proof. split; [apply ikind_eqb_eq|]. intros <-. now destruct a. Qed.
Lemma hobj_equal_same : forall a b, hobj_equal a b = true <-> same a b.
Proof.
  fix IH 1. intros [s|k s|s] [t|k' t|t];
    try (split; [intros H; discriminate H|intros H; inversion H]; fail).
  - cbn [hobj_equal]. split.
    + destruct (Nat.eqb _ _); [|discriminate]. intros H. apply equal_byte_slice_exact in H. subst. constructor.
    + intros H. inversion H; subst. rewrite Nat.eqb_refl. now apply equal_byte_slice_exact.
  - cbn [hobj_equal]. split.
    + destruct (ikind_eqb k k') eqn:E; [|discriminate]. apply ikind_eqb_iff in E. subst k'.
      destruct (Nat.eqb _ _); [|discriminate]. intros H. apply equal_int_slice_exact in H. now constructor.
    + intros H. inversion H as [|k0 s0 t0 E|]; subst. rewrite (proj2 (ikind_eqb_iff k' k') eq_refl).
      assert (match s with Some (l, _) => length l | None => 0%nat end = match t with Some (l, _) => length l | None => 0%nat end) as ->.
      { destruct s as [[l c]|], t as [[l' c']|]; cbn [option_map fst] in E; congruence. }
      rewrite Nat.eqb_refl. now apply equal_int_slice_exact.
  - assert (hobj_equal (HSlice s) (HSlice t) = (if Nat.eqb (length (elements_of s)) (length (elements_of t)) then equal_loop (elements_of s) (elements_of t) else false)) as ->.
    { destruct s as [l|]; cbn [hobj_equal elements_of]; [reflexivity|]. cbn [length]. destruct t as [[|y m]|]; reflexivity. }
    assert (forall m, (if Nat.eqb (length (elements_of s)) (length m) then equal_loop (elements_of s) m else false) = true <-> Forall2 same_element (elements_of s) m) as G.
    { destruct s as [l|]; cbn [elements_of].
      - induction l as [|x l IHl]; intros [|y m]; cbn [length Nat.eqb equal_loop].
        + split; [constructor|reflexivity].
        + split; [discriminate|intros H; inversion H].
        + split; [discriminate|intros H; inversion H].
        + specialize (IHl m). destruct x as [x|], y as [y|].
          * specialize (IH x y). destruct (hobj_equal x y).
            -- split; [intros H; constructor; [constructor; now apply IH|now apply IHl]|intros H; inversion H; subst; now apply IHl].
            -- split; [destruct (Nat.eqb _ _); discriminate|]. intros H. inversion H as [|? ? ? ? E F]; subst. inversion E; subst.
               assert (false = true) by now apply IH. discriminate.
          * split; [destruct (Nat.eqb _ _); discriminate|]. intros H. inversion H as [|? ? ? ? E F]; subst. inversion E.
          * split; [destruct (Nat.eqb _ _); discriminate|]. intros H. inversion H as [|? ? ? ? E F]; subst. inversion E.
          * split; [intros H; constructor; [constructor|now apply IHl]|intros H; inversion H; subst; now apply IHl].
      - intros [|y m]; cbn [length Nat.eqb equal_loop]; [split; [constructor|reflexivity]|split; [discriminate|intros H; inversion H]]. }
    rewrite G. split; [now constructor|]. intros H. now inversion H.
Qed.
Theorem C21_equal_exact : forall a b, hobj_equal a b = true <-> same a b.
Proof. exact hobj_equal_same. Qed.
Print Assumptions C21_equal_exact.
Example C21_equal_exact_applies :
  same (HSlice (Some [Some (HInts KInt32 (Some ([1; 2]%Z, 8%nat))); None])) (HSlice (Some [Some (HInts KInt32 (Some ([1; 2]%Z, 2%nat))); None])) /\
  same (HSlice None) (HSlice (Some [])) /\ ~ same (HBytes None) (HBytes (Some [])) /\
  ~ same (HInts KInt16 (Some ([1]%Z, 1%nat))) (HInts KInt32 (Some ([1]%Z, 1%nat))).
Proof.
  split; [apply C21_equal_exact; reflexivity|]. split; [apply C21_equal_exact; reflexivity|].
  split; intros H; apply C21_equal_exact in H; discriminate.
Qed.

(** Keys, in any two representations. *)
Theorem C21_equal_keys_same_hash : forall (f : bytes -> N) (k t : ikey),
  ikey_equal k (OKey t) = Ok true -> ikey_hash f k = ikey_hash f t.
Proof.
  intros f k t E. destruct (ikey_equal_exact k t) as (b & E' & Hb). rewrite E' in E. injection E as ->.
  unfold ikey_hash. now rewrite (proj1 Hb eq_refl).
Qed.
Print Assumptions C21_equal_keys_same_hash.

(** Exactly when hashing panics: an integer slice whose byte length exceeds its capacity in elements, or a
    slice of hashables with an element that is not nil. *)
Theorem C21_panic_exact : forall (f : bytes -> N) (a : hobj),
  hobj_hash f a = Panic <->
  (exists k l cap, a = HInts k (Some (l, cap)) /\ cap < length l * ikind_width k) \/
  (exists l x, a = HSlice (Some l) /\ In (Some x) l).
Proof.
  intros f a. split.
  - destruct a as [[s|]|k [[l c]|]|[l|]]; cbn [hobj_hash]; try discriminate.
    + destruct (Nat.leb _ c) eqn:E; [discriminate|]. intros _. left. exists k, l, c. split; [reflexivity|].
      apply Nat.leb_gt in E. exact E.
    + intros H. right. exists l.
      assert (G : exists x, In (Some x) l).
      { revert H. generalize (f []) at 2. induction l as [|[x|] l IH]; intros h H; cbn in H; try discriminate.
        - exists x. now left.
        - destruct (IH _ H) as [y Hy]. exists y. now right. }
      destruct G as [x Hx]. exists x. auto.
  - intros [(k & l & c & -> & H)|(l & x & -> & H)]; cbn [hobj_hash].
    + apply Nat.leb_gt in H. now rewrite H.
    + generalize (f []) at 2. induction l as [|[y|] l IH]; intros h; [destruct H| |]; cbn; [reflexivity|].
      destruct H as [H|H]; [discriminate|]. now apply IH.
Qed.
Print Assumptions C21_panic_exact.

(** Hashing an integer slice made by a literal or by [make([]T, n)] ([cap = len]) panics whenever it is not
    empty, and so does any list of hashables that holds one. *)
Theorem C21_never_panics_refuted : forall (f : bytes -> N) (k : ikind) (x : Z) (l : list Z) (a : hobj),
  hobj_hash f (HInts k (Some (x :: l, length (x :: l)))) = Panic /\
  hobj_hash f (HSlice (Some [Some a])) = Panic.
Proof.
  intros f k x l a. split; [|reflexivity]. apply C21_panic_exact. left. do 3 eexists. split; [reflexivity|].
  cbn [length]. destruct k; cbn [ikind_width]; lia.
Qed.
Print Assumptions C21_never_panics_refuted.

(** Byte slices (and keys, whose hash is a total function) never panic. *)
Theorem C21_no_panic_partial : forall (f : bytes -> N) (s : gslice), hobj_hash f (HBytes s) = Ok (f (gcontent s)).
Proof. intros f [s|]; reflexivity. Qed.
Print Assumptions C21_no_panic_partial.

(** The bytes of equal-width integers determine them, so the hash covers the whole content. *)
Lemma le_put_length w : forall x, length (le_put w x) = w.
Proof. induction w as [|w IH]; intros x; cbn; [reflexivity|]. now rewrite IH. Qed.
Lemma le_put_inj w : forall x y, le_put w x = le_put w y -> (x mod 256 ^ Z.of_nat w = y mod 256 ^ Z.of_nat w)%Z.
Proof.
  induction w as [|w IH]; intros x y H; cbn [le_put] in H.
  - now rewrite !Z.mod_1_r.
  - injection H as H0 H1. apply IH in H1.
    assert (B0 : (x mod 256 = y mod 256)%Z).
    { pose proof (Z.mod_pos_bound x 256 ltac:(lia)). pose proof (Z.mod_pos_bound y 256 ltac:(lia)).
      apply n2b_inj_small in H0; lia. }
    rewrite Nat2Z.inj_succ, Z.pow_succ_r by lia.
    rewrite !Z.rem_mul_r by lia. congruence.
Qed.

(** The size of the element types in bits, and what the memory of integers is: each element takes [w] bytes that, read as digits to
    the base 256 with the lowest first, give the element modulo [2 ^ (8 * w)]. *)
Definition type_bits (k : ikind) : nat := match k with KInt16 | KUint16 => 16 | KInt32 | KUint32 => 32 | KInt64 | KUint64 => 64 end.
Fixpoint low_first (l : bytes) : Z := match l with [] => 0%Z | b :: l' => (Z.of_N (Byte.to_N b) + 256 * low_first l')%Z end.
Inductive memory_of (w : nat) : list Z -> bytes -> Prop :=
| MemNil : memory_of w [] []
| MemCons x xs m rest : length m = w -> low_first m = (x mod 2 ^ (8 * Z.of_nat w))%Z -> memory_of w xs rest -> memory_of w (x :: xs) (m ++ rest).
Lemma low_first_put w : forall x, low_first (le_put w x) = (x mod 2 ^ (8 * Z.of_nat w))%Z.
Proof.
  induction w as [|w IH]; intros x; cbn [le_put low_first]; [now rewrite Z.mod_1_r|]. rewrite IH.
  assert (Z.of_N (Byte.to_N (n2b (Z.to_N (x mod 256)))) = x mod 256)%Z as ->.
  { pose proof (Z.mod_pos_bound x 256 ltac:(lia)). change (Byte.to_N (n2b ?n)) with (b2n (n2b n)). rewrite b2n_n2b_small by lia. lia. }
  replace (8 * Z.of_nat (S w))%Z with (8 + 8 * Z.of_nat w)%Z by lia. rewrite Z.pow_add_r by lia. change (2 ^ 8)%Z with 256%Z.
  rewrite Z.rem_mul_r; [reflexivity|lia|apply Z.pow_pos_nonneg; lia].
Qed.
Lemma memory_put w l : memory_of w l (flat_map (le_put w) l).
Proof. induction l as [|x l IH]; cbn [flat_map]; constructor; [apply le_put_length|apply low_first_put|exact IH]. Qed.
(** What is hashed. An integer slice: its memory, if the capacity counted in elements covers its bytes. A slice of hashables: only nil
    elements can be hashed, and they cancel out in pairs. *)
Theorem C21_ints_exact : forall (f : bytes -> N) (k : ikind) (l : list Z) (cap : nat),
  if (length l * type_bits k <=? 8 * cap)%nat
  then exists mem, memory_of (type_bits k / 8) l mem /\ hobj_hash f (HInts k (Some (l, cap))) = Ok (f mem)
  else hobj_hash f (HInts k (Some (l, cap))) = Panic.
Proof.
  intros f k l cap. cbn [hobj_hash]. assert (type_bits k = 8 * ikind_width k) as E by (destruct k; reflexivity).
  assert (type_bits k / 8 = ikind_width k) as E' by (destruct k; reflexivity). rewrite E'.
  destruct (Nat.leb_spec (length l * type_bits k) (8 * cap)) as [H|H], (Nat.leb_spec (length l * ikind_width k) cap) as [G|G]; rewrite E in H; try lia.
  - exists (flat_map (le_put (ikind_width k)) l). split; [apply memory_put|reflexivity].
  - reflexivity.
Qed.
Print Assumptions C21_ints_exact.
Theorem C21_nil_elements_exact : forall (f : bytes -> N) (n : nat),
  hobj_hash f (HSlice (Some (repeat None n))) = Ok (if Nat.even n then f [] else 0%N).
Proof.
  intros f n. cbn [hobj_hash]. assert (forall h, xor_elems (f []) (repeat None n) h = Ok (if Nat.even n then h else N.lxor h (f []))) as G.
  { induction n as [|n IH]; intros h; cbn [repeat xor_elems]; [reflexivity|]. rewrite IH, Nat.even_succ, <- Nat.negb_even.
    destruct (Nat.even n); cbn [negb]; [reflexivity|]. now rewrite N.lxor_assoc, N.lxor_nilpotent, N.lxor_0_r. }
  rewrite G. destruct (Nat.even n); [reflexivity|]. now rewrite N.lxor_nilpotent.
Qed.
Print Assumptions C21_nil_elements_exact.

Example C21_applies :
  hobj_equal (HInts KUint16 (Some ([258; 65535]%Z, 4))) (HInts KUint16 (Some ([258; 65535]%Z, 9))) = true /\
  hobj_hash (murmur3_32 7) (HInts KUint16 (Some ([258; 65535]%Z, 4))) = Ok (murmur3_32 7 [x02; x01; xff; xff]) /\
  hobj_hash (murmur3_32 7) (HInts KUint16 (Some ([258; 65535]%Z, 9))) = Ok (murmur3_32 7 [x02; x01; xff; xff]) /\
  hobj_hash (murmur3_32 7) (HInts KInt32 (Some ([-2]%Z, 4))) = Ok (murmur3_32 7 [xfe; xff; xff; xff]) /\
  hobj_equal (HSlice None) (HSlice (Some [])) = true /\
  hobj_equal (HSlice (Some [Some (HBytes None)])) (HSlice (Some [Some (HBytes None)])) = true /\
  ikey_equal KEmpty (OKey new_key) = Ok true.
Proof. repeat split; vm_compute; reflexivity. Qed.

(** ** C17 over the project's own keys, for every seed *)

(** The table's [h.seed.Hash]; it never fails (C20). *)
Definition seeded (seed : N) (b : bytes) : N := match murmur_hash seed b with Ok n => n | _ => 0%N end.

(** HashableByteSlice keys; a nil slice is not equal to an empty one. *)
Theorem C17_byte_slice_map : forall {V : Type} (seed : N) (ops : list (mop gslice V)),
  (seed < 2 ^ 32)%N -> (zlen ops < 2 ^ 31)%Z ->
  exists t os l,
    hash_run (fun a b => Ok (hobj_equal (HBytes a) (HBytes b))) (fun a => hobj_hash (seeded seed) (HBytes a))
      default_policy (new_hash 10) ops = Ok (t, os) /\
    answers eq [] ops os /\ lists_entries eq ops l /\ h_size t = zlen l.
Proof.
  intros V seed ops Hs Hn. eapply (C17_default_history _ _ (fun _ => True)); [|apply Forall_forall; auto|exact Hn].
  constructor; intros; subst; auto.
  - eexists. split; [reflexivity|]. cbn [hobj_equal]. split.
    + destruct (Nat.eqb _ _); [|discriminate]. apply equal_byte_slice_exact.
    + intros ->. rewrite Nat.eqb_refl. now apply equal_byte_slice_exact.
  - rewrite C21_no_panic_partial. eauto.
Qed.
Print Assumptions C17_byte_slice_map.

(** Composite keys in any mixture of representations: keys with the same sub keys are one key. *)
Theorem C17_key_map : forall {V : Type} (seed : N) (ops : list (mop ikey V)),
  (seed < 2 ^ 32)%N -> (zlen ops < 2 ^ 31)%Z ->
  exists t os l,
    hash_run (fun a b => ikey_equal a (OKey b)) (fun a => Ok (ikey_hash (seeded seed) a))
      default_policy (new_hash 10) ops = Ok (t, os) /\
    answers (fun a b => ikey_keys a = ikey_keys b) [] ops os /\
    lists_entries (fun a b => ikey_keys a = ikey_keys b) ops l /\ h_size t = zlen l.
Proof.
  intros V seed ops Hs Hn. eapply (C17_default_history _ _ (fun _ => True)); [|apply Forall_forall; auto|exact Hn].
  constructor; intros; auto; try congruence.
  - apply ikey_equal_exact.
  - eauto.
  - unfold ikey_hash. now rewrite H1.
Qed.
Print Assumptions C17_key_map.

Example C17_keys_apply :
  exists t, hash_run (fun a b => ikey_equal a (OKey b)) (fun a => Ok (ikey_hash (seeded 42) a)) default_policy
    (new_hash 10) [MPut (KMapped [Some [x61]] [x01; x01; x61]) 1; MGet (KKey false [Some [x61]] None 3);
                   MPut KEmpty 2; MRemove new_key; MGet KEmpty] =
  Ok (t, [None; Some (KMapped [Some [x61]] [x01; x01; x61], 1); None; Some (KEmpty, 2); None]).
Proof. eexists. vm_compute. reflexivity. Qed.
