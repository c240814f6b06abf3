(** * C121: Min, Max and the seed of a hash table. *)
From Coq Require Import List NArith ZArith Bool Lia.
From Coq Require Import Strings.Byte.
From Verif Require Import Base BaseProofs EndianModel EndianProofs RandModel MinMaxModel.
Import ListNotations.
Local Open Scope Z_scope.

(** [m] is the least, or the greatest, of two numbers. *)
Definition least (a b m : Z) : Prop := m <= a /\ m <= b /\ (m = a \/ m = b).
Definition greatest (a b m : Z) : Prop := a <= m /\ b <= m /\ (m = a \/ m = b).
Definition is_uint64 (a : Z) : Prop := 0 <= a < 2 ^ 64.

(** The functions for int and for the sized types: exactly the least and the greatest, in the type because one of the arguments. *)
Theorem C121_min_exact : forall a b m, go_min a b = m <-> least a b m.
Proof. intros a b m. unfold go_min, least. destruct (Z.ltb_spec a b); lia. Qed.
Print Assumptions C121_min_exact.
Theorem C121_max_exact : forall a b m, go_max a b = m <-> greatest a b m.
Proof. intros a b m. unfold go_max, greatest. destruct (Z.ltb_spec b a); lia. Qed.
Print Assumptions C121_max_exact.
Example C121_exact_applies : least (-128) 127 (-128) /\ greatest (-128) 127 127 /\ go_min (-128) 127 = -128 /\ go_max 5 5 = 5.
Proof. unfold least, greatest. repeat split; lia. Qed.

(** MinUnt and MaxUint with numbers of type uint: right exactly if both or neither have the highest bit. *)
Lemma convert a : is_uint64 a -> wrap_s 64 a = if a <? 2 ^ 63 then a else a - 2 ^ 64.
Proof.
  intros B. unfold is_uint64 in B. unfold wrap_s. change (2 ^ (64 - 1)) with (2 ^ 63). destruct (Z.ltb_spec a (2 ^ 63)) as [H|H].
  - rewrite Z.mod_small by lia. lia.
  - replace (a + 2 ^ 63) with (a - 2 ^ 63 + 1 * 2 ^ 64) by lia. rewrite Z.mod_add by lia. rewrite Z.mod_small by lia. lia.
Qed.
Lemma back a : is_uint64 a -> wrap_u 64 (wrap_s 64 a) = a.
Proof.
  intros B. rewrite (convert a B). unfold is_uint64 in B. unfold wrap_u. destruct (Z.ltb_spec a (2 ^ 63)); [apply Z.mod_small; lia|].
  replace (a - 2 ^ 64) with (a + (-1) * 2 ^ 64) by lia. rewrite Z.mod_add by lia. apply Z.mod_small. lia.
Qed.
Theorem C121_uint_exact : forall a b, is_uint64 a -> is_uint64 b ->
  (least a b (min_of_uint a b) <-> (a < 2 ^ 63 <-> b < 2 ^ 63)) /\ (greatest a b (max_of_uint a b) <-> (a < 2 ^ 63 <-> b < 2 ^ 63)).
Proof.
  intros a b Ha Hb. pose proof (convert a Ha) as Ca. pose proof (convert b Hb) as Cb. pose proof (back a Ha) as Ba. pose proof (back b Hb) as Bb.
  assert (min_of_uint a b = if wrap_s 64 a <? wrap_s 64 b then a else b) as ->.
  { unfold min_of_uint, go_min. destruct (wrap_s 64 a <? wrap_s 64 b); assumption. }
  assert (max_of_uint a b = if wrap_s 64 b <? wrap_s 64 a then a else b) as ->.
  { unfold max_of_uint, go_max. destruct (wrap_s 64 b <? wrap_s 64 a); assumption. }
  rewrite Ca, Cb. unfold is_uint64 in *. unfold least, greatest.
  destruct (Z.ltb_spec a (2 ^ 63)), (Z.ltb_spec b (2 ^ 63)); split;
    match goal with |- context [if ?x <? ?y then _ else _] => destruct (Z.ltb_spec x y) end; lia.
Qed.
Print Assumptions C121_uint_exact.
Theorem C121_uint_refuted : forall a b, 0 <= a < 2 ^ 63 -> 2 ^ 63 <= b < 2 ^ 64 -> min_of_uint a b = b /\ max_of_uint a b = a.
Proof.
  intros a b Ha Hb. assert (is_uint64 a) as Ua by (unfold is_uint64; lia). assert (is_uint64 b) as Ub by (unfold is_uint64; lia).
  pose proof (convert a Ua) as Ca. pose proof (convert b Ub) as Cb. pose proof (back a Ua) as Ba. pose proof (back b Ub) as Bb.
  destruct (Z.ltb_spec a (2 ^ 63)); [|lia]. destruct (Z.ltb_spec b (2 ^ 63)); [lia|].
  unfold min_of_uint, max_of_uint, go_min, go_max. destruct (Z.ltb_spec (wrap_s 64 a) (wrap_s 64 b)); [lia|].
  destruct (Z.ltb_spec (wrap_s 64 b) (wrap_s 64 a)); [now split|lia].
Qed.
Print Assumptions C121_uint_refuted.
Example C121_uint_refuted_applies : min_of_uint 0 (2 ^ 64 - 1) = 2 ^ 64 - 1 /\ max_of_uint 0 (2 ^ 64 - 1) = 0 /\ min_of_uint 3 7 = 3.
Proof. repeat split; vm_compute; reflexivity. Qed.

(** The seed of a hash table: four random bytes give a number of 32 bits, and every number comes from exactly one choice of them, so that random
    bytes make all seeds equally likely. *)
Theorem C121_seed : forall buf, List.length buf = 4%nat -> exists v, rand_uint32 buf = Ok v /\ 0 <= v < 2 ^ 32.
Proof.
  intros buf L. unfold rand_uint32. assert (zlen buf = 4) as -> by (unfold zlen; lia). cbn [Z.ltb Z.compare Pos.compare Pos.compare_cont].
  eexists. split; [reflexivity|]. rewrite firstn_all2 by lia. pose proof (be_get_bound buf) as B. rewrite L in B.
  change (256 ^ N.of_nat 4)%N with (2 ^ 32)%N in B. lia.
Qed.
Print Assumptions C121_seed.
Theorem C121_seed_one_to_one : forall v, 0 <= v < 2 ^ 32 -> exists! buf, List.length buf = 4%nat /\ rand_uint32 buf = Ok v.
Proof.
  assert (forall buf, List.length buf = 4%nat -> rand_uint32 buf = Ok (Z.of_N (be_get buf))) as R.
  { intros buf L. unfold rand_uint32. assert (zlen buf = 4) as -> by (unfold zlen; lia). rewrite firstn_all2 by lia. reflexivity. }
  intros v B. exists (be_put 4 (Z.to_N v)). split.
  - split; [apply be_put_length|]. rewrite R by apply be_put_length. f_equal. rewrite be_get_put. change (256 ^ N.of_nat 4)%N with (2 ^ 32)%N.
    rewrite N.mod_small by lia. lia.
  - intros buf (L & E). rewrite R in E by exact L. assert (Z.of_N (be_get buf) = v) as <- by congruence.
    rewrite N2Z.id. rewrite <- L. apply be_put_get.
Qed.
Print Assumptions C121_seed_one_to_one.
Example C121_seed_applies : rand_uint32 [x12; x34; x56; x78] = Ok 0x12345678 /\ rand_uint32 [xff; xff; xff; xff] = Ok (2 ^ 32 - 1).
Proof. split; vm_compute; reflexivity. Qed.
