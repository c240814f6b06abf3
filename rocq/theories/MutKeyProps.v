(** * Maps whose key objects are changed by their owner: C106. *)
From Coq Require Import List NArith ZArith Bool Lia.
From Verif Require Import Base BaseProofs AVLModel AVLSpec MapSpec MapProofs AVLProofs AVLHistory AVLProps HashModel HashSpec HashProofs HashProps
  MutKeyModel MutKeySpec MutKeyProofs MutKeyClass MutKeySorted.
Import ListNotations.
Open Scope Z_scope.

(** The calls of a history are answered by the contents of the keys at the time of each call. *)
Definition right {X V} (eqv : X -> X -> Prop) (evs : list (event X V)) (vs : list (option V)) : Prop :=
  exists es, answers (same eqv) [] (calls [] evs) es /\ vs = map value_of es.
(** The call number [length (calls [] e1)] of the history is answered so. *)
Definition right_at {X V} (eqv : X -> X -> Prop) (e1 : list (event X V)) (i : nat) (x : X) (vs : list (option V)) : Prop :=
  exists e, entry_at (same eqv) (calls [] e1) (i, x) e /\ nth_error vs (length (calls [] e1)) = Some (value_of e).

(** ** The default settings *)
Definition tame (p : policy) : policy := {|
  after_put := fun s c => match after_put p s c with Some n => if n <? 2 ^ 32 then Some n else None | None => None end;
  after_remove := fun s c => match after_remove p s c with Some n => if n <? 2 ^ 32 then Some n else None | None => None end |}.
Lemma tame_modest p : modest (tame p).
Proof.
  intros s c n. cbn [after_put after_remove tame]. destruct (after_put p s c) as [m|], (after_remove p s c) as [q|]; intros [H|H];
    repeat match type of H with context [?a <? ?b] => destruct (a <? b) eqn:?; [apply Z.ltb_lt in Heqb|] end; try discriminate; injection H as <-; assumption.
Qed.
Lemma set_bucket_zlen {K V} (arr : list (list (K * V))) i c : zlen (set_bucket arr i c) = zlen arr.
Proof. unfold zlen. now rewrite set_bucket_length. Qed.
Lemma rehash_length {K V} (hashf : K -> res N) nodes : forall (arr arr' : list (list (K * V))), rehash hashf nodes arr = Ok arr' -> length arr' = length arr.
Proof.
  induction nodes as [|[k v] nodes IH]; intros arr arr' H; cbn [rehash] in H; [injection H as <-; reflexivity|].
  destruct (slot hashf arr k) as [i| |]; try discriminate. cbn [rbind] in H. destruct (bucket arr i) as [c| |]; try discriminate. cbn [rbind] in H.
  apply IH in H. now rewrite set_bucket_length in H.
Qed.
Lemma maybe_resize_small {K V} (hashf : K -> res N) d (arr arr' : list (list (K * V))) : maybe_resize hashf d arr = Ok arr' -> zlen arr < 2 ^ 32 ->
  (forall n, d = Some n -> n < 2 ^ 32) -> zlen arr' < 2 ^ 32.
Proof.
  intros H L N. destruct d as [n|]; cbn [maybe_resize] in H; [|injection H as <-; exact L]. specialize (N n eq_refl). unfold resize in H.
  fold (clamp n) in H. destruct (zlen arr =? clamp n); [injection H as <-; exact L|]. apply rehash_length in H. unfold zlen. rewrite H, repeat_length.
  unfold clamp, min_capacity. destruct (n <? 10); lia.
Qed.
Lemma tame_put s c : s < 2 ^ 31 -> after_put (tame default_policy) s c = after_put default_policy s c.
Proof.
  intros H. cbn [tame after_put default_policy]. destruct (3 * c <=? 4 * s) eqn:E; [|reflexivity]. apply Z.leb_le in E.
  assert (L : 3 * c / 2 < 2 ^ 32) by (apply Z.div_lt_upper_bound; lia). apply Z.ltb_lt in L. now rewrite L.
Qed.
Lemma tame_remove s c : c < 2 ^ 32 -> after_remove (tame default_policy) s c = after_remove default_policy s c.
Proof.
  intros H. cbn [tame after_remove default_policy]. destruct (27 * s <? 4 * c) eqn:E; [|reflexivity].
  assert (L : 4 * c / 9 < 2 ^ 32) by (apply Z.div_lt_upper_bound; lia). apply Z.ltb_lt in L. now rewrite L.
Qed.
Lemma tame_step {K V} (equalb : K -> K -> res bool) (hashf : K -> res N) (t : hash K V) op : h_size t + 1 < 2 ^ 31 -> zlen (h_array t) < 2 ^ 32 ->
  hash_step equalb hashf default_policy t op = hash_step equalb hashf (tame default_policy) t op /\
  forall t' n, hash_step equalb hashf (tame default_policy) t op = Ok (t', n) -> h_size t' <= h_size t + 1 /\ zlen (h_array t') < 2 ^ 32.
Proof.
  intros Hs Hl. destruct op as [k v|k|k]; cbn [hash_step]; [unfold hash_put|unfold hash_remove|].
  - destruct (slot hashf (h_array t) k) as [i| |]; cbn [rbind]; try (split; [reflexivity|discriminate]).
    destruct (bucket (h_array t) i) as [c| |]; cbn [rbind]; try (split; [reflexivity|discriminate]).
    destruct (chain_replace equalb c k v) as [[[old c']|]| |]; cbn [rbind]; try (split; [reflexivity|discriminate]).
    + split; [reflexivity|]. intros t' n H. injection H as <- <-. cbn [h_size h_array]. rewrite set_bucket_zlen. lia.
    + rewrite tame_put by exact Hs. split; [reflexivity|]. intros t' n H.
      destruct (maybe_resize _ _ _) as [arr'| |] eqn:E in H; try discriminate. injection H as <- <-. cbn [h_size h_array]. split; [lia|].
      apply maybe_resize_small in E; [exact E|rewrite set_bucket_zlen; exact Hl|].
      intros m Hm. rewrite <- (tame_put (h_size t + 1)) in Hm by exact Hs. eapply tame_modest. left. exact Hm.
  - destruct (slot hashf (h_array t) k) as [i| |]; cbn [rbind]; try (split; [reflexivity|discriminate]).
    destruct (bucket (h_array t) i) as [c| |]; cbn [rbind]; try (split; [reflexivity|discriminate]).
    destruct (chain_remove equalb c k) as [[[old c']|]| |]; cbn [rbind]; try (split; [reflexivity|discriminate]).
    + rewrite tame_remove by (rewrite set_bucket_zlen; exact Hl). split; [reflexivity|]. intros t' n H.
      destruct (maybe_resize _ _ _) as [arr'| |] eqn:E in H; try discriminate. injection H as <- <-. cbn [h_size h_array]. split; [lia|].
      apply maybe_resize_small in E; [exact E|rewrite set_bucket_zlen; exact Hl|].
      intros m Hm. rewrite <- (tame_remove (h_size t - 1)) in Hm by (rewrite set_bucket_zlen; exact Hl). eapply tame_modest. right. exact Hm.
    + split; [reflexivity|]. intros t' n H. injection H as <- <-. lia.
  - destruct (hash_get equalb hashf t k) as [o| |]; cbn [rbind]; (split; [reflexivity|]); try discriminate. intros t' n H. injection H as <- <-. lia.
Qed.
Lemma tame_play {X V} (equalx : X -> X -> res bool) (hashx : X -> res N) (evs : list (event X V)) : forall w t,
  h_size t + zlen evs < 2 ^ 31 -> zlen (h_array t) < 2 ^ 32 ->
  play (call_hash equalx hashx default_policy) w t evs = play (call_hash equalx hashx (tame default_policy)) w t evs.
Proof.
  assert (Z1 : forall (e : event X V) l, zlen (e :: l) = zlen l + 1) by (intros; unfold zlen; cbn [length]; lia).
  assert (Z0 : forall (l : list (event X V)), 0 <= zlen l) by (intros; unfold zlen; lia).
  induction evs as [|e evs IH]; intros w t Hs Hl; [reflexivity|]. rewrite Z1 in Hs. pose proof (Z0 evs). cbn [play]. destruct e as [x|i x|op]; [apply IH; lia|apply IH; lia|].
  destruct (tame_step (ask2 equalx w) (ask hashx w) t op) as (E & B); [lia|lia|]. unfold call_hash at 1, hm_step at 1. rewrite E. unfold call_hash at 2, hm_step at 1.
  destruct (hash_step (ask2 equalx w) (ask hashx w) (tame default_policy) t op) as [[t' n]| |]; cbn [rbind]; try reflexivity.
  destruct (B t' n eq_refl) as (B1 & B2). rewrite IH by lia. reflexivity.
Qed.

(** ** Keys that are left alone while they are in the map *)
Theorem C106_hash_partial : forall {X V : Type} (equalx : X -> X -> res bool) (hashx : X -> res N) (pol : policy) (c : Z)
    (D : X -> Prop) (eqv : X -> X -> Prop) (evs : list (event X V)),
  hash_keys D eqv equalx hashx -> proper [] evs -> Forall D (contents evs) -> keys_left_alone eqv evs -> modest pol -> c < 2 ^ 32 ->
  exists t vs, play (call_hash equalx hashx pol) [] (new_hash c) evs = Ok (t, vs) /\ right eqv evs vs.
Proof.
  intros X V equalx hashx pol c D eqv evs HX P F K Hp Hc.
  destruct (play_alone eqv D (hk_sym _ _ _ _ HX) (call_hash (V := V) equalx hashx pol) (fun t => concat (h_array t)) (sound_hash eqv hashx)) with (evs := evs) (e1 := @nil (event X V)) (w := @nil X) (t := @new_hash nat (option V) c)
    as (t & vs & es & R & A & E); try assumption.
  - intros w t op I Fw Hk. apply (hash_sound eqv D equalx hashx pol w t op HX (modest_ok _ Hp) I Fw Hk).
  - intros w w' t I O. apply (hash_keep eqv hashx w w' t (hk_sym _ _ _ _ HX) I O).
  - reflexivity.
  - constructor.
  - split; [exists []; apply hash_inv_new|]. now apply new_hash_cap.
  - unfold new_hash. cbn [h_array]. rewrite concat_repeat_nil. intros i v. split; [intros x H; destruct (stored_nil _ _ _ H)|intros []].
  - exists t, vs. split; [exact R|]. exists es. split; assumption.
Qed.
Print Assumptions C106_hash_partial.

Theorem C106_sorted_partial : forall {X V : Type} (equalx : X -> X -> res bool) (comparex : X -> X -> res Z)
    (D : X -> Prop) (eqv lt : X -> X -> Prop) (evs : list (event X V)),
  total_keys D eqv lt equalx comparex -> proper [] evs -> Forall D (contents evs) -> keys_left_alone eqv evs ->
  exists t vs, play (call_sorted equalx comparex) [] new_avl evs = Ok (t, vs) /\ right eqv evs vs.
Proof.
  intros X V equalx comparex D eqv lt evs HX P F K.
  destruct (play_alone eqv D (tk_sym _ _ _ _ _ HX) (call_sorted (V := V) equalx comparex) (fun t => inorder (avl_root t)) (sound_sorted eqv lt)) with (evs := evs) (e1 := @nil (event X V)) (w := @nil X) (t := @new_avl nat (option V))
    as (t & vs & es & R & A & E); try assumption.
  - intros w t op I Fw Hk. apply (sorted_sound eqv lt D equalx comparex w t op HX I Fw Hk).
  - intros w w' t I O. apply (sorted_keep eqv lt w w' t (tk_sym _ _ _ _ _ HX)); [|exact I|exact O]. intros a b L R. exact (tk_irrefl _ _ _ _ _ HX a b R L).
  - reflexivity.
  - constructor.
  - exists []. apply avl_inv_new.
  - intros i v. split; [intros x H; destruct (stored_nil _ _ _ H)|intros []].
  - exists t, vs. split; [exact R|]. exists es. split; assumption.
Qed.
Print Assumptions C106_sorted_partial.

(** ** Any changes *)
(** Whatever is changed, every call returns, and a value is only ever answered for a key object that was put with it and is equal to the key of the
    call at that time. A hash map is moreover right about every content that no key object had when it was changed. *)
Definition honest {X V} (eqv : X -> X -> Prop) (evs : list (event X V)) (vs : list (option V)) : Prop :=
  length vs = length (calls [] evs) /\
  forall e1 op e2 x v, evs = e1 ++ Call op :: e2 -> nth_error (world [] e1) (op_key op) = Some x -> nth_error vs (length (calls [] e1)) = Some (Some v) ->
    exists i y, In (Call (MPut i (Some v))) e1 /\ nth_error (world [] e1) i = Some y /\ eqv x y.

Theorem C106_hash_any : forall {X V : Type} (equalx : X -> X -> res bool) (hashx : X -> res N) (pol : policy) (c : Z)
    (D : X -> Prop) (eqv : X -> X -> Prop) (evs : list (event X V)),
  hash_keys D eqv equalx hashx -> proper [] evs -> Forall D (contents evs) -> modest pol -> c < 2 ^ 32 ->
  exists t vs, play (call_hash equalx hashx pol) [] (new_hash c) evs = Ok (t, vs) /\ honest eqv evs vs /\
    forall e1 op e2 x, evs = e1 ++ Call op :: e2 -> nth_error (world [] e1) (op_key op) = Some x -> ~ disturbed eqv e1 x -> right_at eqv e1 (op_key op) x vs.
Proof.
  intros X V equalx hashx pol c D eqv evs HX P F Hp Hc. pose proof (modest_ok _ Hp) as Hpol.
  assert (Ce : concat (h_array (@new_hash nat (option V) c)) = []) by (unfold new_hash; cbn [h_array]; apply concat_repeat_nil).
  destruct (play_honest eqv D (call_hash (V := V) equalx hashx pol) (fun t => concat (h_array t)) calm) with (evs := evs) (t0 := @new_hash nat (option V) c)
    as (t & vs & R & L & _ & _ & H); try assumption.
  { intros w t op Fw Hk I. apply (calm_step eqv D equalx hashx pol HX Hpol w t op Fw Hk I). }
  { intros w e t I. now apply calm_after. }
  { split; [now apply new_hash_cap|]. rewrite Ce. constructor. }
  exists t, vs. split; [exact R|]. split; [split; assumption|]. intros e1 op e2 x E Ex N.
  rewrite E in P. apply proper_app in P. destruct P as (P1 & (P2 & _)).
  assert (F1 : Forall D (contents e1)) by (rewrite E in F; unfold contents in *; rewrite flat_map_app in F; now apply Forall_app in F).
  assert (Fw : Forall D (world [] e1)).
  { apply Forall_forall. intros y Iy. apply world_from in Iy. destruct Iy as [[]|Iy]. rewrite Forall_forall in F1. auto. }
  assert (Dx : D x) by (rewrite Forall_forall in Fw; apply Fw; eapply nth_error_In; eauto).
  destruct (play_good eqv D equalx hashx pol HX Hpol x Dx e1 (new_hash c) P1 F1 N) as (t1 & vs1 & R1 & L1 & (Ft & _ & A)).
  { split; [|split].
    - split; [now apply new_hash_cap|]. rewrite Ce. split; [constructor|]. split; [|constructor].
      intros j ch Ej. unfold new_hash in Ej. cbn [h_array] in Ej. apply nth_error_In, repeat_spec in Ej. subst ch. constructor.
    - rewrite Ce. intros i v [].
    - rewrite Ce. intros i v. split; [intros z _ Hs; destruct (stored_nil _ _ _ Hs)|intros z _ _ []]. }
  destruct (like_step eqv D equalx hashx pol HX Hpol x Dx _ t1 op Fw P2 Ft) as (t2 & n & S & _ & (_ & _ & C3)).
  assert (Ci : like eqv x (world [] e1) (op_key op)) by (exists x; split; [exact Ex|exact (hk_refl _ _ _ _ HX x Dx)]).
  rewrite E, play_app, R1 in R. cbn [rbind play] in R. rewrite S in R. cbn [rbind] in R.
  destruct (play _ (world [] e1) t2 e2) as [[t3 o3]| |]; try discriminate. cbn [rbind] in R. injection R as _ <-.
  exists (match n with Some (k, v) => match nth_error (world [] e1) k with Some z => Some ((k, z), v) | None => None end | None => None end).
  rewrite nth_error_app2, L1, Nat.sub_diag by lia. cbn [nth_error]. destruct n as [[k v]|].
  - destruct C3 as ((x' & z & E1 & E2 & Rz) & Ik). assert (x' = x) by congruence. subst x'. rewrite E2. split; [|reflexivity].
    cbn [entry_at]. split; [exact Rz|]. apply (proj2 (A k v) z); [now apply (hk_sym _ _ _ _ HX)|exact E2|exact Ik].
  - split; [|reflexivity]. cbn [entry_at]. intros [k z] v Rz Hs. cbn [same snd] in Rz.
    apply (proj1 (A k v) z (hk_sym _ _ _ _ HX _ _ Rz)) in Hs. destruct Hs as (Ez & Ik). apply (C3 Ci k v Ik). exists x, z. auto.
Qed.
Print Assumptions C106_hash_any.

Theorem C106_sorted_any : forall {X V : Type} (equalx : X -> X -> res bool) (comparex : X -> X -> res Z)
    (D : X -> Prop) (eqv lt : X -> X -> Prop) (evs : list (event X V)),
  total_keys D eqv lt equalx comparex -> proper [] evs -> Forall D (contents evs) ->
  exists t vs, play (call_sorted equalx comparex) [] new_avl evs = Ok (t, vs) /\ honest eqv evs vs /\ balanced (avl_root t).
Proof.
  intros X V equalx comparex D eqv lt evs HX P F.
  destruct (play_honest eqv D (call_sorted (V := V) equalx comparex) (fun t => inorder (avl_root t)) steady) with (evs := evs) (t0 := @new_avl nat (option V))
    as (t & vs & R & L & (B & _) & _ & H); try assumption.
  { intros w t op Fw Hk I. apply (steady_step eqv lt D equalx comparex w t op HX Fw Hk I). }
  { intros w e t I. now apply steady_after. }
  { split; [exact Logic.I|constructor]. }
  { reflexivity. }
  exists t, vs. split; [exact R|]. split; [split; assumption|]. now apply bal_balanced.
Qed.
Print Assumptions C106_sorted_any.

(** The same for the default settings of the hash map. *)
Theorem C106_default_hash_any : forall {X V : Type} (equalx : X -> X -> res bool) (hashx : X -> res N)
    (D : X -> Prop) (eqv : X -> X -> Prop) (evs : list (event X V)),
  hash_keys D eqv equalx hashx -> proper [] evs -> Forall D (contents evs) -> zlen evs < 2 ^ 31 ->
  exists t vs, play (call_hash equalx hashx default_policy) [] (new_hash 10) evs = Ok (t, vs) /\ honest eqv evs vs /\
    (keys_left_alone eqv evs -> right eqv evs vs) /\
    forall e1 op e2 x, evs = e1 ++ Call op :: e2 -> nth_error (world [] e1) (op_key op) = Some x -> ~ disturbed eqv e1 x -> right_at eqv e1 (op_key op) x vs.
Proof.
  intros X V equalx hashx D eqv evs HX P F Hn.
  destruct (C106_hash_any equalx hashx (tame default_policy) 10 D eqv evs HX P F (tame_modest _) ltac:(lia)) as (t & vs & R & H1 & H2).
  exists t, vs. split; [|split; [exact H1|split; [|exact H2]]].
  - rewrite tame_play; [exact R|cbn [h_size new_hash]; lia|]. vm_compute. reflexivity.
  - intros K. destruct (C106_hash_partial equalx hashx (tame default_policy) 10 D eqv evs HX P F K (tame_modest _) ltac:(lia)) as (t' & vs' & R' & Hr).
    assert (vs' = vs) by congruence. subst vs'. exact Hr.
Qed.
Print Assumptions C106_default_hash_any.

(** ** A change of a key in the map is felt *)
(** Put a key with the content [a], change the object to [b], ask for [a] with a new object. *)
Definition moved {X V} (a b : X) (v : V) : list (event X V) := [Make a; Call (MPut 0%nat (Some v)); Change 0%nat b; Make a; Call (MGet 1%nat)].
Lemma moved_wrong {X V} (eqv : X -> X -> Prop) (a b : X) (v : V) vs : eqv a a -> ~ eqv a b -> honest eqv (moved a b v) vs ->
  nth_error vs 1 = Some None /\ ~ right eqv (moved a b v) vs.
Proof.
  intros Ra N (L & H). cbn in L. destruct vs as [|o1 [|o2 [|]]]; try discriminate.
  assert (E2 : o2 = None).
  { destruct o2 as [u|]; [|reflexivity]. exfalso.
    destruct (H [Make a; Call (MPut 0%nat (Some v)); Change 0%nat b; Make a] (MGet 1%nat) [] a u eq_refl eq_refl eq_refl) as (i & y & I & Ey & R).
    destruct I as [I|[I|[I|[I|[]]]]]; try discriminate. injection I as <- _. cbn in Ey. injection Ey as <-. contradiction. }
  split; [cbn; congruence|]. intros (es & A & E). cbn in A. inversion A as [|h op ops e1 es1 _ A1]; subst. inversion A1 as [|h op ops e2 es2 En A2]; subst.
  cbn [map value_of] in E. injection E as _ E. cbn [op_key app] in En.
  assert (S : stored (same eqv) [MPut (0%nat, a) (Some v)] (0%nat, a) (Some v)).
  { apply (proj2 (stored_snoc (same eqv) [] (MPut (0%nat, a) (Some v)) (0%nat, a) (Some v))). now left. }
  destruct e2 as [[[j z] u]|]; cbn [entry_at] in En.
  - destruct En as (_ & Su). cbn [value_of] in E. subst u. apply (stored_snoc (same eqv) [] (MPut (0%nat, a) (Some v))) in Su.
    destruct Su as [Su|(_ & Su)]; [discriminate|exact (stored_nil _ _ _ Su)].
  - exact (En (0%nat, a) (Some v) Ra S).
Qed.

(** For every hash function and all settings: the map no longer knows the key it was given. *)
Theorem C106_hash_refuted : forall {X V : Type} (equalx : X -> X -> res bool) (hashx : X -> res N) (pol : policy) (c : Z)
    (D : X -> Prop) (eqv : X -> X -> Prop) (a b : X) (v : V),
  hash_keys D eqv equalx hashx -> modest pol -> c < 2 ^ 32 -> D a -> D b -> ~ eqv a b ->
  exists t vs, play (call_hash equalx hashx pol) [] (new_hash c) (moved a b v) = Ok (t, vs) /\ nth_error vs 1 = Some None /\ ~ right eqv (moved a b v) vs.
Proof.
  intros X V equalx hashx pol c D eqv a b v HX Hp Hc Da Db N.
  destruct (C106_hash_any equalx hashx pol c D eqv (moved a b v) HX) as (t & vs & R & H & _); try assumption.
  - cbn. repeat split; auto; lia.
  - repeat constructor; assumption.
  - exists t, vs. split; [exact R|]. apply moved_wrong; [exact (hk_refl _ _ _ _ HX a Da)|exact N|exact H].
Qed.
Print Assumptions C106_hash_refuted.
Theorem C106_sorted_refuted : forall {X V : Type} (equalx : X -> X -> res bool) (comparex : X -> X -> res Z)
    (D : X -> Prop) (eqv lt : X -> X -> Prop) (a b : X) (v : V),
  total_keys D eqv lt equalx comparex -> D a -> D b -> ~ eqv a b ->
  exists t vs, play (call_sorted equalx comparex) [] new_avl (moved a b v) = Ok (t, vs) /\ nth_error vs 1 = Some None /\ ~ right eqv (moved a b v) vs.
Proof.
  intros X V equalx comparex D eqv lt a b v HX Da Db N.
  destruct (C106_sorted_any equalx comparex D eqv lt (moved a b v) HX) as (t & vs & R & H & _).
  - cbn. repeat split; auto; lia.
  - repeat constructor; assumption.
  - exists t, vs. split; [exact R|]. apply moved_wrong; [exact (tk_refl _ _ _ _ _ HX a Da)|exact N|exact H].
Qed.
Print Assumptions C106_sorted_refuted.

(** A sorted map, unlike a hash map, can also lose keys that were never changed: 3 below the root 2, which is changed to 10. *)
Definition lost_below : list (event Z nat) :=
  [Make 2; Make 1; Make 3; Call (MPut 0%nat (Some 2%nat)); Call (MPut 1%nat (Some 1%nat)); Call (MPut 2%nat (Some 3%nat)); Change 0%nat 10; Call (MGet 2%nat)].
Theorem C106_sorted_others_refuted : exists t,
  ~ disturbed eq (firstn 7 lost_below) 3 /\ play (call_sorted z_equal z_compare) [] new_avl lost_below = Ok (t, [None; None; None; None]) /\
  ~ right_at eq (firstn 7 lost_below) 2 3 [None; None; None; None].
Proof.
  eexists. split; [|split; [vm_compute; reflexivity|]].
  - intros (e1 & i & y & e2 & E & _ & H). unfold lost_below in E. cbn [firstn] in E.
    do 6 (destruct e1 as [|? e1]; [discriminate|]; injection E as <- E). destruct e1 as [|? [|? ?]]; try discriminate. injection E as <- <- _.
    destruct H as [H|(z & Ez & H)]; [discriminate|]. vm_compute in Ez. injection Ez as <-. discriminate.
  - intros (e & En & Ev). change (calls [] (firstn 7 lost_below)) with [MPut (0%nat, 2) (Some 2%nat); MPut (1%nat, 1) (Some 1%nat); MPut (2%nat, 3) (Some 3%nat)] in *.
    cbn [length nth_error] in Ev. injection Ev as Ev.
    assert (S : stored (same eq) [MPut (0%nat, 2) (Some 2%nat); MPut (1%nat, 1) (Some 1%nat); MPut (2%nat, 3) (Some 3%nat)] (2%nat, 3) (Some 3%nat)).
    { apply (proj2 (stored_snoc (same eq) [MPut (0%nat, 2) (Some 2%nat); MPut (1%nat, 1) (Some 1%nat)] _ _ _)). now left. }
    destruct e as [[[j z] u]|]; cbn [entry_at value_of] in *.
    + subst u. destruct En as (_ & (h1 & h2 & Eh & _)).
      destruct h1 as [|? h1]; [discriminate|]. injection Eh as _ Eh. destruct h1 as [|? h1]; [discriminate|]. injection Eh as _ Eh.
      destruct h1 as [|? h1]; [discriminate|]. injection Eh as _ Eh. destruct h1; discriminate.
    + exact (En (2%nat, 3) (Some 3%nat) eq_refl S).
Qed.
Print Assumptions C106_sorted_others_refuted.

(** And a Remove can leave an entry of a sorted map twice, so that a key that was removed is still there: 4 is removed while 2, an inner node, is 9. *)
Definition kept_twice : list (event Z nat) :=
  map Make [4; 2; 6; 1; 3; 5; 7] ++ map (fun i => Call (MPut i (Some i))) [0; 1; 2; 3; 4; 5; 6]%nat ++ [Change 1%nat 9; Call (MRemove 0%nat); Call (MRemove 4%nat); Call (MGet 4%nat)].
Theorem C106_sorted_twice_refuted : exists t1 t2,
  play (call_sorted z_equal z_compare) [] new_avl (firstn 16 kept_twice) = Ok (t1, repeat None 7 ++ [Some 0%nat]) /\
  map fst (inorder (avl_root t1)) = [3; 1; 4; 4; 5; 2; 6]%nat /\ avl_size t1 = 6 /\
  play (call_sorted z_equal z_compare) [] new_avl kept_twice = Ok (t2, repeat None 7 ++ [Some 0%nat; Some 4%nat; Some 4%nat]) /\
  In 4%nat (map fst (inorder (avl_root t2))).
Proof. do 2 eexists. split; [vm_compute; reflexivity|]. split; [vm_compute; reflexivity|]. split; [vm_compute; reflexivity|]. split; [vm_compute; reflexivity|]. vm_compute. tauto. Qed.
Print Assumptions C106_sorted_twice_refuted.

(** A key changed in a hash map is found under neither content, and can then be put a second time; the other keys are unaffected. *)
Definition found_nowhere : list (event Z nat) :=
  [Make 1; Make 2; Call (MPut 0%nat (Some 5%nat)); Call (MPut 1%nat (Some 6%nat)); Change 0%nat 3; Make 1; Make 3;
   Call (MGet 2%nat); Call (MGet 3%nat); Call (MPut 3%nat (Some 7%nat)); Call (MGet 1%nat); Change 0%nat 1; Call (MGet 2%nat)].
Example C106_applies :
  proper [] found_nowhere /\ ~ disturbed eq found_nowhere 2 /\
  (exists t, play (call_hash z_equal z_hash default_policy) [] (new_hash 10) found_nowhere = Ok (t, [None; None; None; None; None; Some 6%nat; Some 5%nat]) /\ h_size t = 3) /\
  keys_left_alone eq [Make 1; Call (MPut 0%nat (Some 5%nat)); Call (MRemove 0%nat); Change 0%nat 2; Call (MGet 0%nat)] /\
  ~ keys_left_alone eq found_nowhere.
Proof.
  split; [cbn; repeat split; auto; lia|]. split; [|split; [eexists; split; [vm_compute; reflexivity|reflexivity]|split]].
  - intros (e1 & i & y & e2 & E & _ & H). unfold found_nowhere in E.
    do 4 (destruct e1 as [|? e1]; [discriminate|]; injection E as <- E). destruct e1 as [|? e1].
    { injection E as <- <- _. destruct H as [H|(z & Ez & H)]; [discriminate|]. vm_compute in Ez. injection Ez as <-. discriminate. }
    injection E as <- E. do 6 (destruct e1 as [|? e1]; [discriminate|]; injection E as <- E). destruct e1 as [|? e1].
    { injection E as <- <- _. destruct H as [H|(z & Ez & H)]; [discriminate|]. vm_compute in Ez. injection Ez as <-. discriminate. }
    injection E as <- E. destruct e1 as [|? [|? ?]]; discriminate.
  - intros e1 i x e2 E (z & v & H). do 3 (destruct e1 as [|? e1]; [discriminate|]; injection E as <- E). destruct e1 as [|? e1].
    + apply (stored_snoc (same eq) [MPut (0%nat, 1) (Some 5%nat)] (MRemove (0%nat, 1))) in H. destruct H as [H|(N & H)]; [discriminate|].
      apply (stored_snoc (same eq) [] (MPut (0%nat, 1) (Some 5%nat))) in H. destruct H as [H|(_ & H)]; [|exact (stored_nil _ _ _ H)].
      injection H as <- <- <-. apply N. reflexivity.
    + injection E as <- E. destruct e1 as [|? [|? ?]]; discriminate.
  - intros K. apply (K [Make 1; Make 2; Call (MPut 0%nat (Some 5%nat)); Call (MPut 1%nat (Some 6%nat))] 0%nat 3 _ eq_refl).
    exists 1, (Some 5%nat). cbn [calls after named nth_error op_key app].
    apply (stored_snoc (same eq) [MPut (0%nat, 1) (Some 5%nat)] (MPut (1%nat, 2) (Some 6%nat))). right. split; [cbn; discriminate|].
    apply (stored_snoc (same eq) [] (MPut (0%nat, 1) (Some 5%nat))). now left.
Qed.
