(** * Final theorems about the hash map and set (C17 - C19, hash part of C14). *)
From Coq Require Import List NArith ZArith Bool Lia.
From Verif Require Import Base BaseProofs AVLModel MapSpec MapProofs AVLProps HashModel HashSpec HashProofs.
Import ListNotations.
Local Open Scope Z_scope.

(** Integer keys with a hash that collides, used to show that the hypotheses below can be met. *)
Definition z_hash (k : Z) : res N := Ok (Z.to_N (k mod 7)).
Lemma z_hash_keys : hash_keys (fun _ => True) eq z_equal z_hash.
Proof.
  constructor; intros; subst; try congruence.
  - eexists. split; [reflexivity|]. apply Z.eqb_eq.
  - eexists. reflexivity.
Qed.

(** The size policy asks only for capacities below 2^32. *)
Definition modest (pol : policy) : Prop :=
  forall size cap n, after_put pol size cap = Some n \/ after_remove pol size cap = Some n -> n < 2 ^ 32.

Lemma modest_ok pol : modest pol -> policy_ok pol.
Proof.
  intros H s c n Hn. apply H in Hn. apply cap_ok_small. unfold clamp, min_capacity.
  destruct (n <? 10) eqn:E; lia.
Qed.

Lemma new_hash_cap {K V} c : c < 2 ^ 32 -> cap_ok (length (h_array (@new_hash K V c))).
Proof.
  intros H. unfold new_hash. cbn [h_array]. rewrite repeat_length. apply cap_ok_small. unfold min_capacity. lia.
Qed.

Lemma default_start {K V} : load_ok (h_size (@new_hash K V 10)) (zlen (h_array (@new_hash K V 10))).
Proof. repeat split; vm_compute; try reflexivity; discriminate. Qed.

Lemma inv_lists {K V} (hashf : K -> res N) (D : K -> Prop) (eqv : K -> K -> Prop) (h : list (mop K V)) t :
  hash_inv hashf D eqv h t -> lists_entries eqv h (concat (h_array t)) /\ h_size t = zlen (concat (h_array t)).
Proof. intros (_ & Hx & _ & Hs & Hh). split; [split; assumption|exact Hs]. Qed.

(** ** C17: a map under every history, for every hash function and every resize policy *)
Theorem C17_table_history : forall {K V : Type} (equalb : K -> K -> res bool) (hashf : K -> res N)
    (pol : policy) (c : Z) (D : K -> Prop) (eqv : K -> K -> Prop) (ops : list (mop K V)),
  hash_keys D eqv equalb hashf -> Forall (fun op => D (op_key op)) ops -> modest pol -> c < 2 ^ 32 ->
  exists t os l, hash_run equalb hashf pol (new_hash c) ops = Ok (t, os) /\ answers eqv [] ops os /\
    lists_entries eqv ops l /\ h_size t = zlen l.
Proof.
  intros K V equalb hashf pol c D eqv ops HK F Hp Hc.
  destruct (hash_run_ok equalb hashf pol D eqv HK ops (modest_ok _ Hp) [] (new_hash c) F (hash_inv_new hashf D eqv c)
    (new_hash_cap c Hc)) as (t & os & H & Hi & Ha).
  cbn [app] in Hi. apply inv_lists in Hi. exists t, os, (concat (h_array t)). tauto.
Qed.
Print Assumptions C17_table_history.

(** The default settings, for fewer than 2^31 calls. *)
Theorem C17_default_history : forall {K V : Type} (equalb : K -> K -> res bool) (hashf : K -> res N)
    (D : K -> Prop) (eqv : K -> K -> Prop) (ops : list (mop K V)),
  hash_keys D eqv equalb hashf -> Forall (fun op => D (op_key op)) ops -> zlen ops < 2 ^ 31 ->
  exists t os l, hash_run equalb hashf default_policy (new_hash 10) ops = Ok (t, os) /\ answers eqv [] ops os /\
    lists_entries eqv ops l /\ h_size t = zlen l.
Proof.
  intros K V equalb hashf D eqv ops HK F Hn.
  destruct (default_run equalb hashf D eqv HK ops [] (new_hash 10) 0 F (hash_inv_new hashf D eqv 10)
      default_start ltac:(vm_compute; discriminate) ltac:(vm_compute; discriminate) ltac:(lia) ltac:(lia))
    as (t & os & H & Hi & Ha & _).
  cbn [app] in Hi. apply inv_lists in Hi. exists t, os, (concat (h_array t)). tauto.
Qed.
Print Assumptions C17_default_history.

(** HashMap: Get, Put and Remove return the value of the entry held before, nil if there is none. *)
Theorem C17_hash_map_history : forall {K V : Type} (equalb : K -> K -> res bool) (hashf : K -> res N)
    (pol : policy) (c : Z) (D : K -> Prop) (eqv : K -> K -> Prop) (ops : list (mop K (option V))),
  hash_keys D eqv equalb hashf -> Forall (fun op => D (op_key op)) ops -> modest pol -> c < 2 ^ 32 ->
  exists t vs es, hm_run equalb hashf pol (new_hash c) ops = Ok (t, vs) /\ answers eqv [] ops es /\
    vs = map (fun e => match e with Some (_, v) => v | None => None end) es.
Proof.
  intros K V equalb hashf pol c D eqv ops HK F Hp Hc.
  destruct (C17_table_history equalb hashf pol c D eqv ops HK F Hp Hc) as (t & os & l & H & Ha & _).
  exists t, (map hm_result os), os. split; [|split; [exact Ha|reflexivity]].
  clear F Ha. revert t os H. generalize (@new_hash K (option V) c).
  induction ops as [|op ops IH]; intros t0 t os H; cbn [hash_run hm_run] in *.
  - injection H as <- <-. reflexivity.
  - unfold hm_step. destruct (hash_step equalb hashf pol t0 op) as [[t1 o]| |]; cbn [rbind] in *; try discriminate.
    destruct (hash_run equalb hashf pol t1 ops) as [[t2 os']| |] eqn:E; cbn [rbind] in H; try discriminate.
    injection H as <- <-. rewrite (IH _ _ _ E). reflexivity.
Qed.
Print Assumptions C17_hash_map_history.

(** HashSet after any history: Put and Remove return the equal key held before, Exist tells whether
    there is one. *)
Theorem C17_hash_set : forall {K : Type} (equalb : K -> K -> res bool) (hashf : K -> res N)
    (pol : policy) (c : Z) (D : K -> Prop) (eqv : K -> K -> Prop) (ops : list (mop K unit)) (k : K),
  hash_keys D eqv equalb hashf -> Forall (fun op => D (op_key op)) ops -> D k -> modest pol -> c < 2 ^ 32 ->
  exists t os, hash_run equalb hashf pol (new_hash c) ops = Ok (t, os) /\
    (exists b, hs_exist equalb hashf t k = Ok b /\ (b = true <-> exists k', eqv k k' /\ stored eqv ops k' tt)) /\
    (exists t' o, hs_put equalb hashf pol t k = Ok (t', o) /\
       entry_at eqv ops k (option_map (fun k' => (k', tt)) o)) /\
    (exists t' o, hs_remove equalb hashf pol t k = Ok (t', o) /\
       entry_at eqv ops k (option_map (fun k' => (k', tt)) o)).
Proof.
  intros K equalb hashf pol c D eqv ops k HK F Dk Hp Hc.
  assert (Hsnoc : forall op, op_key op = k -> exists t os t' o,
    hash_run equalb hashf pol (new_hash c) ops = Ok (t, os) /\ hash_step equalb hashf pol t op = Ok (t', o) /\
    entry_at eqv ops k o).
  { intros op Ek.
    destruct (C17_table_history equalb hashf pol c D eqv (ops ++ [op]) HK) as (t & os & l & H & Ha & _); try assumption.
    { apply Forall_app. split; [exact F|]. constructor; [now rewrite Ek|constructor]. }
    assert (G : forall h t0 t os, hash_run equalb hashf pol t0 (ops ++ [op]) = Ok (t, os) ->
        answers eqv h (ops ++ [op]) os -> exists t1 os1 t2 o, hash_run equalb hashf pol t0 ops = Ok (t1, os1) /\
          hash_step equalb hashf pol t1 op = Ok (t2, o) /\ entry_at eqv (h ++ ops) k o).
    { clear - Ek. induction ops as [|x ops IH]; intros h t0 t os H Ha; cbn [app hash_run] in *.
      - inversion Ha as [|h0 op0 ops0 o0 os0 He Ha' E1 E2 E3]; subst.
        destruct (hash_step equalb hashf pol t0 op) as [[t1 o]| |] eqn:Es; cbn [rbind] in H; try discriminate.
        injection H as _ <- _. rewrite app_nil_r. exists t0, [], t1, o. auto.
      - inversion Ha as [|h0 op0 ops0 o0 os0 He Ha' E1 E2 E3]; subst.
        destruct (hash_step equalb hashf pol t0 x) as [[t1 o]| |] eqn:Es; cbn [rbind] in H; try discriminate.
        destruct (hash_run equalb hashf pol t1 (ops ++ [op])) as [[t2 os2]| |] eqn:Er; cbn [rbind] in H; try discriminate.
        injection H as <- <- <-. destruct (IH _ _ _ _ Er Ha') as (t3 & os3 & t4 & o4 & R1 & R2 & R3).
        rewrite <- app_assoc in R3. cbn [rbind]. rewrite R1. cbn [rbind]. do 4 eexists. split; [reflexivity|]. eauto. }
    destruct (G [] _ _ _ H Ha) as (t1 & os1 & t2 & o & R). cbn [app] in R. exists t1, os1, t2, o. exact R. }
  destruct (Hsnoc (MGet k) eq_refl) as (t & os & t1 & o1 & H & H1 & E1).
  destruct (Hsnoc (MPut k tt) eq_refl) as (t' & os' & t2 & o2 & H' & H2 & E2).
  destruct (Hsnoc (MRemove k) eq_refl) as (t'' & os'' & t3 & o3 & H'' & H3 & E3).
  rewrite H in H', H''. injection H' as <- <-. injection H'' as <- <-.
  exists t, os. split; [exact H|]. unfold hash_step in *. repeat split.
  - unfold hs_exist. destruct (hash_get equalb hashf t k) as [n| |]; cbn [rbind] in *; try discriminate.
    injection H1 as <- <-. eexists. split; [reflexivity|]. destruct n as [[k' []]|]; cbn [entry_at] in E1.
    + split; [|reflexivity]. intros _. exists k'. exact E1.
    + split; [discriminate|]. intros (k' & Ek & Es). exfalso. exact (E1 _ _ Ek Es).
  - unfold hs_put. rewrite H2. cbn [rbind]. do 2 eexists. split; [reflexivity|].
    destruct o2 as [[k' []]|]; exact E2.
  - unfold hs_remove. rewrite H3. cbn [rbind]. do 2 eexists. split; [reflexivity|].
    destruct o3 as [[k' []]|]; exact E3.
Qed.
Print Assumptions C17_hash_set.

(** A history with collisions, replacement, growth (8 entries) and shrinking. *)
Definition hash_demo : list (mop Z (option nat)) :=
  map (fun i => MPut (Z.of_nat i) (Some i)) (seq 0 20) ++ [MPut 14 None; MGet 7; MGet 14; MGet 40] ++
  map (fun i => MRemove (Z.of_nat i)) (seq 0 16) ++ [MGet 3; MGet 17; MRemove 3].
Definition small_policy : policy := {|
  after_put := fun size cap => if (3 * cap <=? 4 * size) && (cap <? 1000) then Some (2 * cap) else None;
  after_remove := fun size cap => None |}.

Example C17_applies :
  modest small_policy /\
  (exists t os, hash_run z_equal z_hash default_policy (new_hash 10) hash_demo = Ok (t, os) /\
     h_size t = 4 /\ zlen (h_array t) = 14 /\
     skipn 20 os = [Some (14, Some 14%nat); Some (7, Some 7%nat); Some (14, None); None] ++
       map (fun i => Some (Z.of_nat i, if Nat.eqb i 14 then None else Some i)) (seq 0 16) ++
       [None; Some (17, Some 17%nat); None]) /\
  (exists t os, hash_run z_equal z_hash default_policy (new_hash 10) (firstn 20 hash_demo) = Ok (t, os) /\
     zlen (h_array t) = 33).
Proof.
  split; [|split].
  - intros s c n [H|H]; [|discriminate H]. unfold small_policy, after_put in H.
    destruct ((3 * c <=? 4 * s) && (c <? 1000)) eqn:E; [|discriminate H]. apply andb_true_iff in E.
    assert (n = 2 * c) by congruence. lia.
  - do 2 eexists. split; [vm_compute; reflexivity|]. vm_compute. auto.
  - do 2 eexists. split; [vm_compute; reflexivity|]. vm_compute. auto.
Qed.

(** ** C18: the load under the default settings *)
Theorem C18_load_bounded : forall {K V : Type} (equalb : K -> K -> res bool) (hashf : K -> res N)
    (D : K -> Prop) (eqv : K -> K -> Prop) (ops : list (mop K V)),
  hash_keys D eqv equalb hashf -> Forall (fun op => D (op_key op)) ops -> zlen ops < 2 ^ 31 ->
  exists t os, hash_run equalb hashf default_policy (new_hash 10) ops = Ok (t, os) /\
    10 <= zlen (h_array t) /\ 4 * h_size t < 3 * zlen (h_array t).
Proof.
  intros K V equalb hashf D eqv ops HK F Hn.
  destruct (default_run equalb hashf D eqv HK ops [] (new_hash 10) 0 F (hash_inv_new hashf D eqv 10)
      default_start ltac:(vm_compute; discriminate) ltac:(vm_compute; discriminate) ltac:(lia) ltac:(lia))
    as (t & os & H & _ & _ & L).
  exists t, os. split; [exact H|]. unfold load_ok in L. lia.
Qed.
Print Assumptions C18_load_bounded.

Example C18_applies : Forall (fun n =>
  exists t os, hash_run z_equal z_hash default_policy (new_hash 10) (firstn n hash_demo) = Ok (t, os) /\
    (h_size t, zlen (h_array t)) = match n with 7%nat => (7, 10) | 8%nat => (8, 15) | 12%nat => (12, 22) | _ => (20, 33) end)
  [7%nat; 8%nat; 12%nat; 20%nat].
Proof. repeat constructor; do 2 eexists; (split; [vm_compute; reflexivity|vm_compute; reflexivity]). Qed.

(** ** C19: iteration *)

(** Exactly: on every table, an iterator behaves as one over no entries at all. *)
Theorem C19_iterator_exact : forall {K V : Type} (arr : list (list (K * V))) (cs : list icall),
  hit_run arr new_hiter cs = list_iter [] cs.
Proof. intros. apply hit_run_empty. Qed.
Print Assumptions C19_iterator_exact.

(** An iterator in any state at all (only states without a current node arise): it shows the rest of its chain, then nothing. *)
Theorem C19_every_state_exact : forall {K V : Type} (arr : list (list (K * V))) pos curr (cs : list icall),
  hit_run arr (mk_hiter pos curr) cs = list_iter (if (pos <? length arr)%nat then curr else []) cs.
Proof.
  intros K V arr pos curr cs. revert pos curr. induction cs as [|c cs IH]; intros pos curr; [reflexivity|].
  destruct curr as [|e curr].
  - replace (if (pos <? length arr)%nat then [] else []) with (@nil (K * V)) by (destruct (pos <? length arr)%nat; reflexivity).
    apply hit_run_empty.
  - cbn [hit_run]. unfold hit_step, hadvance. cbn [hi_pos hi_curr]. destruct (Nat.ltb_spec pos (length arr)) as [H|H].
    + destruct (length arr - pos)%nat eqn:E; [lia|]. cbn [hadvance_loop].
      unfold hi_done. cbn [hi_pos hi_curr]. rewrite (proj2 (Nat.leb_gt _ _) H). cbn [orb negb].
      specialize (IH pos). rewrite (proj2 (Nat.ltb_lt _ _) H) in IH. destruct c; cbn [list_iter hd_error tl]; rewrite IH; reflexivity.
    + replace (length arr - pos)%nat with O by lia. cbn [hadvance_loop]. rewrite (proj2 (nth_error_None _ _) H).
      unfold hi_done. cbn [hi_pos hi_curr]. rewrite (proj2 (Nat.leb_le _ _) H). cbn [orb negb].
      specialize (IH pos (e :: curr)). rewrite (proj2 (Nat.ltb_ge _ _) H) in IH. destruct c; cbn [list_iter hd_error tl]; rewrite IH; reflexivity.
Qed.
Print Assumptions C19_every_state_exact.
Example C19_every_state_applies :
  hit_run [[(1, 10)]; [(2, 20); (3, 30)]] (mk_hiter 1 [(2, 20); (3, 30)]) [CNext; CPeek; CNext; CHasNext; CNext] =
    [ONext (Some (2, 20)); OPeek (Some (3, 30)); ONext (Some (3, 30)); OHas false; ONext None].
Proof. reflexivity. Qed.

(** No entry of any table is ever shown. *)
Theorem C19_no_entry_shown_refuted : forall {K V : Type} (arr : list (list (K * V))) (cs : list icall) (e : K * V),
  ~ In (ONext (Some e)) (hit_run arr new_hiter cs) /\ ~ In (OPeek (Some e)) (hit_run arr new_hiter cs).
Proof.
  intros K V arr cs e. rewrite C19_iterator_exact. induction cs as [|c cs [IH1 IH2]]; [split; intros []|].
  destruct c; cbn [list_iter tl In hd_error]; split; intros [H|H]; try discriminate; auto.
Qed.
Print Assumptions C19_no_entry_shown_refuted.

(** Correct exactly for the histories that leave no entry. *)
Theorem C19_empty_map_partial : forall {K V : Type} (equalb : K -> K -> res bool) (hashf : K -> res N)
    (pol : policy) (c : Z) (D : K -> Prop) (eqv : K -> K -> Prop) (ops : list (mop K V)),
  hash_keys D eqv equalb hashf -> Forall (fun op => D (op_key op)) ops -> modest pol -> c < 2 ^ 32 ->
  exists t os l, hash_run equalb hashf pol (new_hash c) ops = Ok (t, os) /\ lists_entries eqv ops l /\
    (hit_run (h_array t) new_hiter (drain_calls (length l)) = drain_shows l <-> h_size t = 0).
Proof.
  intros K V equalb hashf pol c D eqv ops HK F Hp Hc.
  destruct (C17_table_history equalb hashf pol c D eqv ops HK F Hp Hc) as (t & os & l & H & _ & Hl & Hs).
  exists t, os, l. split; [exact H|]. split; [exact Hl|]. rewrite C19_iterator_exact, Hs. split.
  - destruct l as [|e l]; [reflexivity|]. intros E. cbn in E. discriminate.
  - unfold zlen. destruct l as [|e l]; [reflexivity|]. cbn [length]. lia.
Qed.
Print Assumptions C19_empty_map_partial.

Example C19_applies : exists t os,
  hash_run z_equal z_hash default_policy (new_hash 10) hash_demo = Ok (t, os) /\ h_size t = 4 /\
  hit_run (h_array t) new_hiter [CHasNext; CPeek; CNext] = [OHas false; OPeek None; ONext None].
Proof. do 2 eexists. split; [vm_compute; reflexivity|]. vm_compute. auto. Qed.

(** ** C14 for hash maps and sets: Next and Peek panic in every state *)
Theorem C14_hash_exact : forall {K V : Type} (arr : list (list (K * V))) (cs : list icall),
  hasserted_run arr new_hiter cs = strict_list_iter [] cs.
Proof. intros. apply hasserted_run_empty. Qed.
Print Assumptions C14_hash_exact.

Theorem C14_hash_refuted : forall {K V : Type} (arr : list (list (K * V))) (c : icall) (n : nat),
  c = CNext \/ c = CPeek -> hasserted_run arr new_hiter (repeat CHasNext n ++ [c]) = Panic.
Proof.
  intros K V arr c n Hc. rewrite C14_hash_exact. induction n as [|n IH]; cbn [repeat app strict_list_iter].
  - destruct Hc as [-> | ->]; reflexivity.
  - rewrite IH. reflexivity.
Qed.
Print Assumptions C14_hash_refuted.
