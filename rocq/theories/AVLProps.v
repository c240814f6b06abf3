(** * Final theorems about the sorted map and set (C08 - C16). *)
From Coq Require Import List NArith ZArith Bool Lia.
From Coq Require Import Strings.Byte.
From Verif Require Import Base BaseProofs CmpModel CmpSpec CmpProofs AVLModel MapSpec AVLSpec MapProofs AVLProofs AVLHistory AVLIter.
Import ListNotations.
Local Open Scope Z_scope.

(** Integer keys, used to show that the hypotheses below can be met. *)
Definition z_equal (a b : Z) : res bool := Ok (a =? b).
Definition z_compare (a b : Z) : res Z := Ok (if a <? b then -1 else if b <? a then 1 else 0).
Lemma z_total_keys : total_keys (fun _ => True) eq Z.lt z_equal z_compare.
Proof.
  constructor; intros; subst; try lia; try congruence.
  - eexists. split; [reflexivity|]. apply Z.eqb_eq.
  - eexists. split; [reflexivity|]. destruct (a <? b) eqn:E1, (b <? a) eqn:E2; lia.
Qed.

(** ** C08: a map under every history *)

(** The tree: every call reports the entry held before it. *)
Theorem C08_tree_history : forall {K V : Type} (equalb : K -> K -> res bool) (compare : K -> K -> res Z)
    (D : K -> Prop) (eqv lt : K -> K -> Prop) (ops : list (mop K V)),
  total_keys D eqv lt equalb compare -> Forall (fun op => D (op_key op)) ops ->
  exists t os, avl_run equalb compare new_avl ops = Ok (t, os) /\ answers eqv [] ops os.
Proof.
  intros K V equalb compare D eqv lt ops TK F.
  destruct (avl_history equalb compare D eqv lt TK ops F) as (t & os & H & _ & Ha). eauto.
Qed.
Print Assumptions C08_tree_history.

(** SortedMap: Get, Put and Remove return the value of that entry, nil if there is none. *)
Theorem C08_sorted_map_history : forall {K V : Type} (equalb : K -> K -> res bool) (compare : K -> K -> res Z)
    (D : K -> Prop) (eqv lt : K -> K -> Prop) (ops : list (mop K (option V))),
  total_keys D eqv lt equalb compare -> Forall (fun op => D (op_key op)) ops ->
  exists t vs es, sm_run equalb compare new_avl ops = Ok (t, vs) /\ answers eqv [] ops es /\
    vs = map (fun e => match e with Some (_, v) => v | None => None end) es.
Proof.
  intros K V equalb compare D eqv lt ops TK F.
  destruct (avl_history equalb compare D eqv lt TK ops F) as (t & os & H & _ & Ha).
  exists t, (map sm_result os), os. split; [|split; [exact Ha|reflexivity]].
  clear F Ha. revert t os H. generalize (@new_avl K (option V)).
  induction ops as [|op ops IH]; intros t0 t os H; cbn [avl_run sm_run] in *.
  - injection H as <- <-. reflexivity.
  - unfold sm_step. destruct (avl_step equalb compare t0 op) as [[t1 o]| |]; cbn [rbind] in *; try discriminate.
    destruct (avl_run equalb compare t1 ops) as [[t2 os']| |] eqn:E; cbn [rbind] in H; try discriminate.
    injection H as <- <-. rewrite (IH _ _ _ E). reflexivity.
Qed.
Print Assumptions C08_sorted_map_history.

(** SortedSet after any history [ops] on its tree: Put and Remove return the equal key held before,
    Exist tells whether there is one. *)
Theorem C08_sorted_set : forall {K : Type} (equalb : K -> K -> res bool) (compare : K -> K -> res Z)
    (D : K -> Prop) (eqv lt : K -> K -> Prop) (ops : list (mop K unit)) (k : K),
  total_keys D eqv lt equalb compare -> Forall (fun op => D (op_key op)) ops -> D k ->
  exists t os, avl_run equalb compare new_avl ops = Ok (t, os) /\
    (exists b, ss_exist equalb compare t k = Ok b /\ (b = true <-> exists k', eqv k k' /\ stored eqv ops k' tt)) /\
    (exists t' o, ss_put equalb compare t k = Ok (t', o) /\
       entry_at eqv ops k (option_map (fun k' => (k', tt)) o)) /\
    (exists t' o, ss_remove equalb compare t k = Ok (t', o) /\
       entry_at eqv ops k (option_map (fun k' => (k', tt)) o)).
Proof.
  intros K equalb compare D eqv lt ops k TK F Dk.
  destruct (avl_history equalb compare D eqv lt TK ops F) as (t & os & H & Hi & _).
  exists t, os. split; [exact H|].
  destruct (avl_step_ok equalb compare D eqv lt TK ops t (MGet k) Dk Hi) as (t1 & o1 & H1 & _ & E1).
  destruct (avl_step_ok equalb compare D eqv lt TK ops t (MPut k tt) Dk Hi) as (t2 & o2 & H2 & _ & E2).
  destruct (avl_step_ok equalb compare D eqv lt TK ops t (MRemove k) Dk Hi) as (t3 & o3 & H3 & _ & E3).
  cbn [op_key] in *. unfold avl_step in *. repeat split.
  - unfold ss_exist. destruct (avl_get equalb compare t k) as [n| |]; cbn [rbind] in *; try discriminate.
    injection H1 as <- <-. eexists. split; [reflexivity|]. destruct n as [[k' []]|]; cbn [entry_at] in E1.
    + split; [|reflexivity]. intros _. exists k'. exact E1.
    + split; [discriminate|]. intros (k' & Ek & Es). exfalso. exact (E1 _ _ Ek Es).
  - unfold ss_put. rewrite H2. cbn [rbind]. do 2 eexists. split; [reflexivity|].
    destruct o2 as [[k' []]|]; exact E2.
  - unfold ss_remove. rewrite H3. cbn [rbind]. do 2 eexists. split; [reflexivity|].
    destruct o3 as [[k' []]|]; exact E3.
Qed.
Print Assumptions C08_sorted_set.

(** A nil key panics in Put and Remove. *)
Theorem C08_nil_key : forall {K V : Type} (equalb : K -> K -> res bool) (compare : K -> K -> res Z)
    (t : avl K V) (v : V),
  avl_put equalb compare t None v = Panic /\ avl_remove equalb compare t None = Panic.
Proof. intros. split; reflexivity. Qed.
Print Assumptions C08_nil_key.

(** A history with replacement, rotation and removal of an inner node. *)
Definition demo_ops : list (mop Z (option nat)) :=
  [MPut 1 (Some 10%nat); MPut 2 (Some 20%nat); MPut 3 (Some 30%nat); MPut 2 (Some 21%nat); MPut 4 None; MPut 5 (Some 50%nat);
   MGet 2; MRemove 4; MGet 4; MRemove 9; MGet 5].
Example C08_applies :
  Forall (fun op => (fun _ => True) (op_key op)) demo_ops /\
  exists t, sm_run z_equal z_compare new_avl demo_ops =
    Ok (t, [None; None; None; Some 20%nat; None; None; Some 21%nat; None; None; None; Some 50%nat]).
Proof. split; [repeat constructor|]. eexists. vm_compute. reflexivity. Qed.

(** ** C09: order, balance, height, cost of a lookup *)
Theorem C09_ordered_balanced : forall {K V : Type} (equalb : K -> K -> res bool) (compare : K -> K -> res Z)
    (D : K -> Prop) (eqv lt : K -> K -> Prop) (ops : list (mop K V)),
  total_keys D eqv lt equalb compare -> Forall (fun op => D (op_key op)) ops ->
  exists t os, avl_run equalb compare new_avl ops = Ok (t, os) /\
    search_tree lt (avl_root t) /\ balanced (avl_root t) /\
    (forall l, lists_entries eqv ops l -> (2 ^ height (avl_root t) <= S (length l) * S (length l))%nat).
Proof.
  intros K V equalb compare D eqv lt ops TK F.
  destruct (avl_history equalb compare D eqv lt TK ops F) as (t & os & H & Hi & _).
  exists t, os. pose proof Hi as (Hd & Ha & Hb & Hs & Hh). split; [exact H|]. apply bal_balanced in Hb.
  split; [|split; [exact Hb|]].
  - apply search_tree_ascending; [|exact Ha]. exact (tk_lt_trans _ _ _ _ _ TK).
  - intros l Hl. pose proof (avl_inv_lists equalb compare D eqv lt TK ops t Hi) as Hl2.
    rewrite (lists_entries_length eqv ops l (inorder (avl_root t))); [now apply avl_height_bound| |exact Hl|exact Hl2].
    intros k (v & Hk). apply (tk_refl _ _ _ _ _ TK). apply Hh in Hk.
    unfold in_dom in Hd. rewrite Forall_forall in Hd. apply (Hd _ Hk).
Qed.
Print Assumptions C09_ordered_balanced.

(** A lookup visits at most logarithmically many nodes: if it visits c nodes of n, then
    fib (c + 2) <= n + 1 and 2^c <= (n + 1)^2. *)
Theorem C09_lookup_cost : forall {K V : Type} (equalb : K -> K -> res bool) (compare : K -> K -> res Z)
    (D : K -> Prop) (eqv lt : K -> K -> Prop) (ops : list (mop K V)),
  total_keys D eqv lt equalb compare -> Forall (fun op => D (op_key op)) ops ->
  exists t os, avl_run equalb compare new_avl ops = Ok (t, os) /\
    forall k l c r, lists_entries eqv ops l -> getR_count equalb compare k (avl_root t) = (r, c) ->
      r = avl_get equalb compare t k /\ (fib (S (S c)) <= S (length l))%nat /\
      (2 ^ c <= S (length l) * S (length l))%nat.
Proof.
  intros K V equalb compare D eqv lt ops TK F.
  destruct (avl_history equalb compare D eqv lt TK ops F) as (t & os & H & Hi & _).
  exists t, os. pose proof Hi as (Hd & Ha & Hb & Hs & Hh). split; [exact H|]. apply bal_balanced in Hb.
  intros k l c r Hl Hc.
  pose proof (avl_inv_lists equalb compare D eqv lt TK ops t Hi) as Hl2.
  rewrite (lists_entries_length eqv ops l (inorder (avl_root t))); [| |exact Hl|exact Hl2].
  - pose proof (getR_count_fst equalb compare k (avl_root t)) as E1.
    pose proof (getR_count_height equalb compare k (avl_root t)) as E2. rewrite Hc in E1, E2. cbn [fst snd] in *.
    split; [exact E1|]. split.
    + pose proof (avl_min_nodes _ Hb). pose proof (fib_mono (S (S c)) (S (S (height (avl_root t))))). lia.
    + pose proof (avl_height_bound _ Hb). pose proof (Nat.pow_le_mono_r 2 c (height (avl_root t))). lia.
  - intros k' (v & Hk). apply (tk_refl _ _ _ _ _ TK). apply Hh in Hk.
    unfold in_dom in Hd. rewrite Forall_forall in Hd. apply (Hd _ Hk).
Qed.
Print Assumptions C09_lookup_cost.

Example C09_applies : exists t os,
  avl_run z_equal z_compare new_avl (map (fun n => MPut (Z.of_nat n) n) (seq 1 100)) = Ok (t, os) /\
  height (avl_root t) = 7%nat.
Proof. do 2 eexists. split; vm_compute; reflexivity. Qed.

(** ** C10: size *)
Theorem C10_size_exact : forall {K V : Type} (equalb : K -> K -> res bool) (compare : K -> K -> res Z)
    (D : K -> Prop) (eqv lt : K -> K -> Prop) (ops : list (mop K V)),
  total_keys D eqv lt equalb compare -> Forall (fun op => D (op_key op)) ops ->
  exists t os, avl_run equalb compare new_avl ops = Ok (t, os) /\
    (exists l, lists_entries eqv ops l) /\
    (forall l, lists_entries eqv ops l -> avl_size t = Z.of_nat (length l)).
Proof.
  intros K V equalb compare D eqv lt ops TK F.
  destruct (avl_history equalb compare D eqv lt TK ops F) as (t & os & H & Hi & _).
  exists t, os. pose proof Hi as (Hd & Ha & Hb & Hs & Hh). split; [exact H|].
  pose proof (avl_inv_lists equalb compare D eqv lt TK ops t Hi) as Hl2. split; [eauto|].
  intros l Hl. rewrite Hs. unfold zlen. f_equal. apply (lists_entries_length eqv ops); [|exact Hl2|exact Hl].
  intros k' (v & Hk). apply (tk_refl _ _ _ _ _ TK). apply Hh in Hk.
  unfold in_dom in Hd. rewrite Forall_forall in Hd. apply (Hd _ Hk).
Qed.
Print Assumptions C10_size_exact.

Example C10_applies : exists t os, avl_run z_equal z_compare new_avl demo_ops = Ok (t, os) /\ avl_size t = 4.
Proof. do 2 eexists. split; vm_compute; reflexivity. Qed.

(** ** C11: full iteration *)

(** The loop [for it.HasNext() { it.Next() }] over [n] entries, and what it shows for the entries [l]. *)
Definition drain_calls (n : nat) : list icall := concat (repeat [CHasNext; CNext] n) ++ [CHasNext].
Definition drain_shows {E} (l : list E) : list (iobs E) :=
  flat_map (fun e => [OHas true; ONext (Some e)]) l ++ [OHas false].

Lemma strict_drain {E} (l : list E) : strict_list_iter l (drain_calls (length l)) = Ok (drain_shows l).
Proof.
  induction l as [|e l IH]; [reflexivity|].
  unfold drain_calls, drain_shows in *. cbn [length repeat concat app strict_list_iter flat_map].
  rewrite IH. reflexivity.
Qed.

Theorem C11_iteration_in_order : forall {K V : Type} (equalb : K -> K -> res bool) (compare : K -> K -> res Z)
    (D : K -> Prop) (eqv lt : K -> K -> Prop) (ops : list (mop K V)),
  total_keys D eqv lt equalb compare -> Forall (fun op => D (op_key op)) ops ->
  exists t os l, avl_run equalb compare new_avl ops = Ok (t, os) /\
    lists_entries eqv ops l /\ ascending lt l /\
    (let? i := new_iter compare (avl_root t) None None in asserted_run compare i (drain_calls (length l)))
      = Ok (drain_shows l).
Proof.
  intros K V equalb compare D eqv lt ops TK F.
  destruct (avl_history equalb compare D eqv lt TK ops F) as (t & os & H & Hi & _).
  exists t, os, (inorder (avl_root t)). split; [exact H|]. split; [eapply avl_inv_lists; eauto|].
  split; [apply Hi|]. rewrite strict_full_iteration. apply strict_drain.
Qed.
Print Assumptions C11_iteration_in_order.

Example C11_applies : exists t os, avl_run z_equal z_compare new_avl demo_ops = Ok (t, os) /\
  (let? i := new_iter z_compare (avl_root t) None None in asserted_run z_compare i (drain_calls 4)) =
    Ok (drain_shows [(1, Some 10%nat); (2, Some 21%nat); (3, Some 30%nat); (5, Some 50%nat)]).
Proof. do 2 eexists. split; vm_compute; reflexivity. Qed.

(** ** C12: any interleaving of HasNext, Peek and Next, on any tree whatever *)
Theorem C12_calls_as_on_list : forall {K V : Type} (compare : K -> K -> res Z) (t : tree K V) (cs : list icall),
  (let? i := new_iter compare t None None in it_run compare i cs) = Ok (list_iter (inorder t) cs).
Proof. intros. apply full_iteration. Qed.
Print Assumptions C12_calls_as_on_list.

Example C12_applies :
  (let? i := new_iter z_compare (Node 2 tt 1 Leaf (Node 3 tt 0 Leaf Leaf)) None None in
   it_run z_compare i [CPeek; CPeek; CHasNext; CNext; CHasNext; CHasNext; CPeek; CNext; CHasNext; CPeek; CNext]) =
  Ok [OPeek (Some (2, tt)); OPeek (Some (2, tt)); OHas true; ONext (Some (2, tt)); OHas true; OHas true;
      OPeek (Some (3, tt)); ONext (Some (3, tt)); OHas false; OPeek None; ONext None].
Proof. vm_compute. reflexivity. Qed.

(** ** C13: range iteration *)

(** [k] lies before the optional end. *)
Definition below {K} (lt : K -> K -> Prop) (k : K) (e : option K) : Prop :=
  match e with None => True | Some b => lt k b end.
(** [k] is not before the optional start. *)
Definition from {K} (lt : K -> K -> Prop) (s : option K) (k : K) : Prop :=
  match s with None => True | Some a => ~ lt k a end.
(** A bound is absent or a proper key. *)
Definition bound_ok {K} (D : K -> Prop) (b : option K) : Prop := match b with None => True | Some k => D k end.

(** What the code does: a start above the end panics; otherwise the entries before the end are delivered
    in order, all of them if some stored key is not above the start, none if all are above it. *)
Theorem C13_range_exact : forall {K V : Type} (equalb : K -> K -> res bool) (compare : K -> K -> res Z)
    (D : K -> Prop) (eqv lt : K -> K -> Prop) (ops : list (mop K V)) (s e : option K),
  total_keys D eqv lt equalb compare -> Forall (fun op => D (op_key op)) ops -> bound_ok D s -> bound_ok D e ->
  exists t os, avl_run equalb compare new_avl ops = Ok (t, os) /\
    ((exists a b, s = Some a /\ e = Some b /\ lt b a /\ new_iter compare (avl_root t) s e = Panic) \/
     (exists l, ascending lt l /\
        (forall k v, In (k, v) l <-> stored eqv ops k v /\ below lt k e /\
           (forall a, s = Some a -> exists k' v', stored eqv ops k' v' /\ ~ lt a k')) /\
        (forall cs, (let? i := new_iter compare (avl_root t) s e in it_run compare i cs) = Ok (list_iter l cs)))).
Proof.
  intros K V equalb compare D eqv lt ops s e TK F Ds De.
  destruct (avl_history equalb compare D eqv lt TK ops F) as (t & os & H & Hi & _).
  exists t, os. split; [exact H|]. pose proof Hi as (Hd & Ha & Hb & Hs & Hh).
  set (ltb := fun a b => match compare a b with Ok c => c <? 0 | _ => false end).
  assert (Hltb : forall a b, D a -> D b -> (ltb a b = true <-> lt a b)).
  { intros a b Da Db. unfold ltb. destruct (tk_compare _ _ _ _ _ TK a b Da Db) as (c & -> & Hc & _).
    rewrite <- Hc. apply Z.ltb_lt. }
  set (L := inorder (avl_root t)) in *.
  pose proof (fun cs => range_iteration compare equalb D eqv lt TK ltb Hltb (avl_root t) s e cs Hd Ha Ds De) as R.
  fold L in R.
  assert (Main : (forall a b, s = Some a -> e = Some b -> ltb b a = false) ->
    exists l, ascending lt l /\
        (forall k v, In (k, v) l <-> stored eqv ops k v /\ below lt k e /\
           (forall a, s = Some a -> exists k' v', stored eqv ops k' v' /\ ~ lt a k')) /\
        (forall cs, (let? i := new_iter compare (avl_root t) s e in it_run compare i cs) = Ok (list_iter l cs))).
  { intros Hse. exists (range_list ltb s e L). split; [|split].
    - assert (Af : ascending lt (filter (before_end ltb e) L)).
      { unfold ascending in *. clear - Ha. induction Ha as [|x l Hx Hl IH]; [constructor|].
        cbn [filter]. destruct (before_end ltb e x); [|exact IH]. constructor; [|exact IH].
        rewrite Forall_forall in *. intros y Hy. apply filter_In in Hy. now apply Hx. }
      unfold range_list. destruct s as [a|]; [|exact Af]. destruct L as [|[k v] l]; [exact Af|].
      destruct (ltb a k); [constructor|exact Af].
    - assert (Inf : forall k v, In (k, v) (filter (before_end ltb e) L) <-> stored eqv ops k v /\ below lt k e).
      { intros k v. rewrite filter_In, (Hh k v). split; intros [Hk Hx]; (split; [exact Hk|]).
        - destruct e as [b|]; cbn in *; [|exact I]. apply Hltb; try assumption.
          apply Hh in Hk. unfold in_dom in Hd. rewrite Forall_forall in Hd. apply (Hd _ Hk).
        - destruct e as [b|]; cbn in *; [|reflexivity]. apply Hltb; try assumption.
          apply Hh in Hk. unfold in_dom in Hd. rewrite Forall_forall in Hd. apply (Hd _ Hk). }
      intros k v. unfold range_list. destruct s as [a|].
      + cbn in Ds. destruct L as [|[k0 v0] l] eqn:EL.
        * cbn [filter In]. split; [intros []|]. intros (Hk & _). apply Hh in Hk. destruct Hk.
        * assert (D0 : D k0) by (unfold in_dom in Hd; apply Forall_cons_iff in Hd; apply Hd).
          destruct (ltb a k0) eqn:El.
          -- cbn [In]. split; [intros []|]. intros (_ & _ & Hx). destruct (Hx a eq_refl) as (k' & v' & Hk' & Hn).
             apply Hn. apply Hh in Hk'. apply Hltb in El; try assumption.
             destruct Hk' as [E|Hk']; [congruence|].
             unfold ascending in Ha. rewrite fop_cons in Ha. destruct Ha as [Ha _]. rewrite Forall_forall in Ha.
             eapply (tk_lt_trans _ _ _ _ _ TK); [exact El|]. apply (Ha _ Hk').
          -- rewrite (Inf k v). split; [intros [H1 H2]; repeat split; auto|tauto].
             intros a' Ea. injection Ea as <-. exists k0, v0. split; [apply Hh; now left|].
             intros C. apply Hltb in C; try assumption. congruence.
      + rewrite (Inf k v). split; [intros [H1 H2]; repeat split; auto; discriminate|tauto].
    - intros cs. rewrite (R cs). destruct s as [a|], e as [b|]; try reflexivity.
      now rewrite (Hse a b eq_refl eq_refl). }
  destruct s as [a|], e as [b|]; try (right; apply Main; discriminate).
  destruct (ltb b a) eqn:El.
  - left. exists a, b. repeat split; auto; [now apply Hltb|].
    pose proof (new_iter_range compare equalb D eqv lt TK ltb Hltb (avl_root t) (Some a) (Some b) Hd Ha Ds De) as N.
    cbn beta iota in N. now rewrite El in N.
  - right. apply Main. intros a' b' E1 E2. congruence.
Qed.
Print Assumptions C13_range_exact.

(** Not the requested interval: [2, 4) of {1, 2, 3, 4} delivers 1, 2, 3, and [0, 3) delivers nothing. *)
Theorem C13_range_refuted :
  exists (ops : list (mop Z unit)) t os,
    avl_run z_equal z_compare new_avl ops = Ok (t, os) /\ avl_size t = 4 /\
    (let? i := new_iter z_compare (avl_root t) (Some 2) (Some 4) in it_run z_compare i (drain_calls 3)) =
      Ok (drain_shows [(1, tt); (2, tt); (3, tt)]) /\
    (let? i := new_iter z_compare (avl_root t) (Some 0) (Some 3) in it_run z_compare i (drain_calls 0)) =
      Ok (drain_shows []).
Proof.
  exists (map (fun n => MPut n tt) [1; 2; 3; 4]). do 2 eexists. split; [vm_compute; reflexivity|].
  repeat split; vm_compute; reflexivity.
Qed.
Print Assumptions C13_range_refuted.

(** Correct without a start, and also when the start is the smallest stored key. *)
Theorem C13_range_partial : forall {K V : Type} (equalb : K -> K -> res bool) (compare : K -> K -> res Z)
    (D : K -> Prop) (eqv lt : K -> K -> Prop) (ops : list (mop K V)) (s e : option K),
  total_keys D eqv lt equalb compare -> Forall (fun op => D (op_key op)) ops -> bound_ok D s -> bound_ok D e ->
  (forall a b, s = Some a -> e = Some b -> ~ lt b a) ->
  (forall a, s = Some a -> (exists k v, stored eqv ops k v /\ eqv a k) /\
                           forall k v, stored eqv ops k v -> ~ lt k a) ->
  exists t os l, avl_run equalb compare new_avl ops = Ok (t, os) /\ ascending lt l /\
    (forall k v, In (k, v) l <-> stored eqv ops k v /\ from lt s k /\ below lt k e) /\
    (forall cs, (let? i := new_iter compare (avl_root t) s e in it_run compare i cs) = Ok (list_iter l cs)).
Proof.
  intros K V equalb compare D eqv lt ops s e TK F Ds De Hse Hmin.
  destruct (C13_range_exact equalb compare D eqv lt ops s e TK F Ds De) as (t & os & H & [C|(l & A & I & R)]).
  - destruct C as (a & b & E1 & E2 & C & _). exfalso. exact (Hse a b E1 E2 C).
  - exists t, os, l. split; [exact H|]. split; [exact A|]. split; [|exact R].
    intros k v. rewrite (I k v). split.
    + intros (H1 & H2 & _). split; [exact H1|]. split; [|exact H2].
      destruct s as [a|]; cbn; [|exact Logic.I]. apply (proj2 (Hmin a eq_refl) k v H1).
    + intros (H1 & H2 & H3). repeat split; auto. intros a ->.
      destruct (Hmin a eq_refl) as [(k' & v' & Hs & He) _]. exists k', v'. split; [exact Hs|].
      exact (tk_irrefl _ _ _ _ _ TK _ _ He).
Qed.
Print Assumptions C13_range_partial.

Example C13_applies : exists t os,
  avl_run z_equal z_compare new_avl (map (fun n => MPut n tt) [5; 3; 9; 7]) = Ok (t, os) /\
  (let? i := new_iter z_compare (avl_root t) (Some 3) (Some 7) in it_run z_compare i (drain_calls 2)) =
    Ok (drain_shows [(3, tt); (5, tt)]).
Proof. do 2 eexists. split; vm_compute; reflexivity. Qed.

(** ** C14: exhausted map and set iterators *)

(** Exactly: a sorted-map or sorted-set iterator behaves as a list iterator whose Next and Peek panic at the end. *)
Theorem C14_sorted_exact : forall {K V : Type} (compare : K -> K -> res Z) (t : tree K V) (cs : list icall),
  (let? i := new_iter compare t None None in asserted_run compare i cs) = strict_list_iter (inorder t) cs.
Proof. intros. apply strict_full_iteration. Qed.
Print Assumptions C14_sorted_exact.

(** On every tree, one Next (or a Peek) too many panics. *)
Theorem C14_sorted_refuted : forall {K V : Type} (compare : K -> K -> res Z) (t : tree K V) (c : icall),
  c = CNext \/ c = CPeek ->
  (let? i := new_iter compare t None None in
   asserted_run compare i (repeat CNext (length (inorder t)) ++ [c])) = Panic.
Proof.
  intros K V compare t c Hc. rewrite strict_full_iteration. generalize (inorder t) as l.
  induction l as [|e l IH]; cbn [length repeat app strict_list_iter].
  - destruct Hc as [-> | ->]; reflexivity.
  - rewrite IH. reflexivity.
Qed.
Print Assumptions C14_sorted_refuted.

(** The underlying tree iterator does report the end. *)
Theorem C14_tree_iterator_partial : forall {K V : Type} (compare : K -> K -> res Z) (t : tree K V) (c : icall),
  exists os o, (let? i := new_iter compare t None None in
     it_run compare i (repeat CNext (length (inorder t)) ++ [c])) = Ok (os ++ [o]) /\
   o = match c with CHasNext => OHas false | CPeek => OPeek None | CNext => ONext None end.
Proof.
  intros K V compare t c. rewrite full_iteration. generalize (inorder t) as l.
  induction l as [|e l IH]; cbn [length repeat app list_iter].
  - exists []. eexists. split; [|reflexivity]. destruct c; reflexivity.
  - destruct IH as (os & o & E & Ho). cbn [tl]. injection E as ->.
    exists (ONext (hd_error (e :: l)) :: os), o. split; [reflexivity|exact Ho].
Qed.
Print Assumptions C14_tree_iterator_partial.

(** ** C15: arbitrary byte-slice keys *)
Definition bytes_equal (a b : gslice) : res bool := cbs_equal a (CWrap b).
Definition bytes_compare (a b : gslice) : res Z := cbs_compare a (CWrap b).

(** Every call with a proper prefix of the root's key panics. *)
Theorem C15_prefix_refuted : forall {V : Type} (k q : bytes) (v w : V) b l r n,
  proper_prefix q k ->
  avl_get bytes_equal bytes_compare (mk_avl (Node (Some k) v b l r) n) (Some q) = Panic /\
  avl_put bytes_equal bytes_compare (mk_avl (Node (Some k) v b l r) n) (Some (Some q)) w = Panic /\
  avl_remove bytes_equal bytes_compare (mk_avl (Node (Some k) v b l r) n) (Some (Some q)) = Panic.
Proof.
  intros V k q v w b l r n Hp.
  assert (E : bytes_equal (Some k) (Some q) = Ok false).
  { unfold bytes_equal. rewrite cbs_equal_wrap. f_equal.
    destruct (equal_byte_slice (Some k) (Some q)) eqn:E; [|reflexivity]. exfalso.
    apply equal_byte_slice_exact in E. injection E as ->. destruct Hp as (x & xs & Hp).
    apply (f_equal (@length byte)) in Hp. rewrite app_length in Hp. cbn in Hp. lia. }
  assert (C : direction bytes_compare (Some k) (Some q) = Panic).
  { unfold direction, bytes_compare. rewrite cbs_compare_wrap.
    replace (compare_byte_slice (Some k) (Some q)) with (@Panic Z); [reflexivity|].
    symmetry. apply byte_compare_exact. exists q, k. auto. }
  unfold avl_get, avl_put, avl_remove. cbn [avl_root getR putR removeR]. rewrite E. cbn [rbind]. rewrite C.
  repeat split; reflexivity.
Qed.
Print Assumptions C15_prefix_refuted.

(** Such maps are reachable. *)
Example C15_reachable : exists t os,
  avl_run bytes_equal bytes_compare new_avl [MPut (Some [x61; x62]) tt] = Ok (t, os) /\
  avl_get bytes_equal bytes_compare t (Some [x61]) = Panic.
Proof. do 2 eexists. split; vm_compute; reflexivity. Qed.

(** A nil slice as a key: after Remove of another key it can no longer be removed, and the size is wrong. *)
Theorem C15_nil_slice_refuted : exists t os,
  avl_run bytes_equal bytes_compare new_avl
    [MPut (Some [x62]) 1%nat; MPut None 2%nat; MPut (Some [x63]) 3%nat; MRemove (Some [x62]); MRemove None; MGet None]
  = Ok (t, os) /\ nth_error os 5 = Some (Some (None, 2%nat)) /\ avl_size t = 1 /\
  inorder (avl_root t) = [(None, 2%nat); (None, 2%nat); (Some [x63], 3%nat)].
Proof. do 2 eexists. split; [vm_compute; reflexivity|]. repeat split; vm_compute; reflexivity. Qed.
Print Assumptions C15_nil_slice_refuted.

(** ** C16: prefix-free byte-slice keys *)
Definition prefix_free (P : bytes -> Prop) : Prop := forall a b, P a -> P b -> ~ proper_prefix a b.
(** The non-nil slices with content in [P]. *)
Definition key_in (P : bytes -> Prop) (k : gslice) : Prop := exists l, k = Some l /\ P l.

Lemma lex_lt_trans' (a b c : bytes) : lex_lt byte_lt a b -> lex_lt byte_lt b c -> lex_lt byte_lt a c.
Proof.
  intros H. revert c. induction H as [y ys|x y xs ys Hxy|x xs ys H IH]; intros c H2; inversion H2; subst.
  - constructor.
  - constructor.
  - constructor. eapply byte_lt_trans; eauto.
  - now constructor.
  - now constructor.
  - constructor 3. auto.
Qed.

Lemma prefix_free_keys P : prefix_free P ->
  total_keys (key_in P) eq (slice_lt byte_lt) bytes_equal bytes_compare.
Proof.
  intros HP.
  assert (Np : forall a b, key_in P a -> key_in P b -> ~ slice_proper_prefix b a).
  { intros a b (la & -> & Pa) (lb & -> & Pb) (p & l & E1 & E2 & Hp). injection E1 as <-. injection E2 as <-.
    exact (HP _ _ Pb Pa Hp). }
  constructor; intros.
  - exists (equal_byte_slice a b). unfold bytes_equal. rewrite cbs_equal_wrap. split; [reflexivity|].
    apply equal_byte_slice_exact.
  - destruct (byte_compare_defined a b (Np _ _ H H0)) as (c & Hc & H1 & H2 & H3). exists c.
    unfold bytes_compare. rewrite cbs_compare_wrap. destruct H as (la & -> & Pa). unfold compare_byte_slice. rewrite Hc.
    split; [reflexivity|]. split; [exact H1|]. rewrite <- H3. lia.
  - reflexivity.
  - now symmetry.
  - congruence.
  - subst. apply slice_lt_irrefl. exact byte_lt_irrefl.
  - inversion H; subst; inversion H0; subst; constructor; eauto using lex_lt_trans'.
  - now subst.
  - now subst.
  - destruct (byte_compare_defined a b (Np _ _ H H0)) as (c & Hc & H1 & H2 & H3).
    destruct (Z.lt_trichotomy c 0) as [C|[C|C]].
    + left. apply H1, C.
    + right. left. apply H2, C.
    + right. right. apply H3. lia.
Qed.

Theorem C16_prefix_free_history : forall {V : Type} (P : bytes -> Prop) (ops : list (mop gslice (option V))),
  prefix_free P -> Forall (fun op => key_in P (op_key op)) ops ->
  exists t vs es, sm_run bytes_equal bytes_compare new_avl ops = Ok (t, vs) /\ answers eq [] ops es /\
    vs = map (fun e => match e with Some (_, v) => v | None => None end) es /\
    search_tree (slice_lt byte_lt) (avl_root t) /\ balanced (avl_root t).
Proof.
  intros V P ops HP F.
  destruct (C08_sorted_map_history _ _ _ _ _ ops (prefix_free_keys P HP) F) as (t & vs & es & H & Ha & Hv).
  destruct (avl_history _ _ _ _ _ (prefix_free_keys P HP) ops F) as (t' & os & H' & Hi & _).
  assert (E : t' = t).
  { clear - H H'. revert H H'. generalize (@new_avl gslice (option V)). revert t t' vs os.
    induction ops as [|op ops IH]; intros t t' vs os t0 H H'; cbn [avl_run sm_run] in *; [congruence|].
    unfold sm_step in H. destruct (avl_step bytes_equal bytes_compare t0 op) as [[t1 o]| |]; cbn [rbind] in *; try discriminate.
    destruct (avl_run bytes_equal bytes_compare t1 ops) as [[t2 os']| |] eqn:E1; cbn [rbind] in H'; try discriminate.
    destruct (sm_run bytes_equal bytes_compare t1 ops) as [[t3 os3]| |] eqn:E2; cbn [rbind] in H; try discriminate.
    injection H as <- <-. injection H' as <- <-. eapply IH; eauto. }
  subst t'. exists t, vs, es. repeat split; auto.
  - apply search_tree_ascending; [|apply Hi]. exact (tk_lt_trans _ _ _ _ _ (prefix_free_keys P HP)).
  - apply bal_balanced. apply Hi.
Qed.
Print Assumptions C16_prefix_free_history.

(** Keys of one fixed length are prefix-free. *)
Theorem C16_fixed_length : forall n : nat, prefix_free (fun l => length l = n).
Proof.
  intros n a b Ha Hb (x & xs & E). subst b. rewrite app_length in Hb. cbn in Hb. lia.
Qed.
Print Assumptions C16_fixed_length.

Example C16_applies :
  Forall (fun op => key_in (fun l => length l = 2%nat) (op_key op))
    [MPut (Some [x61; x62]) (Some 1%nat); MPut (Some [x61; x61]) (Some 2%nat); MGet (Some [x61; x62])] /\
  exists t, sm_run bytes_equal bytes_compare new_avl
    [MPut (Some [x61; x62]) (Some 1%nat); MPut (Some [x61; x61]) (Some 2%nat); MGet (Some [x61; x62])] =
    Ok (t, [None; None; Some 1%nat]).
Proof.
  split.
  - repeat constructor; cbn; eexists; split; reflexivity.
  - eexists. vm_compute. reflexivity.
Qed.
