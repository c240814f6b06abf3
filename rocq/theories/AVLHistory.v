(** * Histories of calls on the AVL tree, and the height bound. *)
From Coq Require Import List ZArith Bool Lia Arith.
From Verif Require Import Base BaseProofs AVLModel MapSpec AVLSpec MapProofs AVLProofs.
Import ListNotations.

Section History.
  Context {K V : Type} (equalb : K -> K -> res bool) (compare : K -> K -> res Z).
  Context (D : K -> Prop) (eqv lt : K -> K -> Prop) (TK : total_keys D eqv lt equalb compare).

  (** A tree that is the outcome of history [h]. *)
  Definition avl_inv (h : list (mop K V)) (t : avl K V) : Prop :=
    in_dom D (inorder (avl_root t)) /\ ascending lt (inorder (avl_root t)) /\ bal (avl_root t) /\
    avl_size t = zlen (inorder (avl_root t)) /\ holds eqv h (inorder (avl_root t)).

  Lemma avl_inv_new : avl_inv [] new_avl.
  Proof using Type.
    clear. unfold avl_inv, new_avl. cbn. repeat split; try constructor.
    - intros [].
    - intros H. exfalso. eapply stored_nil; eauto.
  Qed.

  Lemma ascending_middle (l1 l2 : list (K * V)) k v : ascending lt (l1 ++ (k, v) :: l2) ->
    ascending lt (l1 ++ l2) /\ Forall (fun e => lt (fst e) k) l1 /\ Forall (fun e => lt k (fst e)) l2.
  Proof using Type.
    clear. unfold ascending. rewrite !fop_app, fop_cons. intros (H1 & (H2 & H3) & H4). repeat split; auto.
    - intros a b Ha Hb. apply H4; [exact Ha|now right].
    - apply Forall_forall. intros e He. apply (H4 e (k, v) He). now left.
  Qed.

  Lemma ascending_insert (l1 l2 : list (K * V)) k v : ascending lt (l1 ++ l2) ->
    Forall (fun e => lt (fst e) k) l1 -> Forall (fun e => lt k (fst e)) l2 ->
    ascending lt (l1 ++ (k, v) :: l2).
  Proof using Type.
    clear. unfold ascending. rewrite !fop_app, fop_cons. intros (H1 & H2 & H3) F1 F2. repeat split; auto.
    intros a b Ha [<-|Hb]; [|auto]. rewrite Forall_forall in F1. apply (F1 a Ha).
  Qed.

  Lemma dom_middle (l1 l2 : list (K * V)) k v : in_dom D (l1 ++ (k, v) :: l2) <-> D k /\ in_dom D (l1 ++ l2).
  Proof using Type.
    clear. unfold in_dom. rewrite !Forall_app, Forall_cons_iff. cbn. tauto.
  Qed.

  Lemma others_ne (l1 l2 : list (K * V)) k :
    Forall (fun e => lt (fst e) k) l1 -> Forall (fun e => lt k (fst e)) l2 ->
    Forall (fun e => ~ eqv (fst e) k) (l1 ++ l2).
  Proof.
    intros F1 F2. rewrite Forall_app. split.
    - eapply Forall_impl; [|exact F1]. intros e He. cbn beta in He. now apply (lt_not_eqv equalb compare D eqv lt TK).
    - eapply Forall_impl; [|exact F2]. intros e He. cbn beta in He. now apply (lt_not_eqv' equalb compare D eqv lt TK).
  Qed.

  Lemma zlen_middle {E} (l1 l2 : list E) x : zlen (l1 ++ x :: l2) = (zlen (l1 ++ l2) + 1)%Z.
  Proof using Type. clear. unfold zlen. rewrite !app_length. cbn [length]. lia. Qed.

  Lemma avl_put_root (t : avl K V) k v :
    avl_put equalb compare t (Some k) v =
    (let? (root', node, _) := putR equalb compare k v (avl_root t) in
     Ok (mk_avl root' (match node with None => avl_size t + 1 | Some _ => avl_size t end)%Z, node)).
  Proof using Type. clear. unfold avl_put. destruct (avl_root t); reflexivity. Qed.

  Lemma avl_step_ok h t op : D (op_key op) -> avl_inv h t ->
    exists t' o, avl_step equalb compare t op = Ok (t', o) /\
      avl_inv (h ++ [op]) t' /\ entry_at eqv h (op_key op) o.
  Proof.
    intros Dk (Hd & Ha & Hb & Hs & Hh).
    pose proof (tk_sym _ _ _ _ _ TK) as sym. pose proof (tk_trans _ _ _ _ _ TK) as trans.
    destruct op as [k v|k|k]; cbn [op_key] in Dk; unfold avl_step.
    - rewrite avl_put_root.
      destruct (putR_ok equalb compare D eqv lt TK k v _ Dk Hd Ha Hb) as (t' & o & done & -> & Hc & Bt & _).
      cbn [rbind]. do 2 eexists. split; [reflexivity|]. unfold avl_inv. cbn [avl_root avl_size op_key].
      destruct Hc as (l1 & l2 & E' & Hc). rewrite E'.
      destruct o as [[k0 v0]|].
      + destruct Hc as (He & E). rewrite E in *.
        apply dom_middle in Hd. destruct Hd as [Dk0 Hd].
        apply ascending_middle in Ha. destruct Ha as (Ha & F1 & F2).
        pose proof (others_ne _ _ _ F1 F2) as Hn.
        split; [|].
        * repeat split.
          -- apply dom_middle. auto.
          -- apply ascending_insert; [exact Ha| |].
             ++ eapply Forall_impl; [|exact F1]. intros e Hx. cbn beta in *.
                eapply (tk_lt_r _ _ _ _ _ TK); eassumption.
             ++ eapply Forall_impl; [|exact F2]. intros e Hx. cbn beta in *.
                eapply (tk_lt_l _ _ _ _ _ TK); [apply sym; eassumption|eassumption].
          -- exact Bt.
          -- rewrite Hs, !zlen_middle. reflexivity.
          -- apply (holds_put_old eqv sym trans h l1 l2 k0 v0 k v Hh He Hn).
          -- apply (holds_put_old eqv sym trans h l1 l2 k0 v0 k v Hh He Hn).
        * eapply holds_entry; [exact sym|exact Hh|]. split; [exact He|]. apply in_app_iff. right. now left.
      + destruct Hc as (E & F1 & F2). rewrite E in *. pose proof (others_ne _ _ _ F1 F2) as Hn.
        split; [|].
        * repeat split.
          -- apply dom_middle. auto.
          -- apply ascending_insert; assumption.
          -- exact Bt.
          -- rewrite Hs, !zlen_middle. reflexivity.
          -- apply (holds_put_new eqv h l1 l2 k v Hh Hn).
          -- apply (holds_put_new eqv h l1 l2 k v Hh Hn).
        * eapply holds_entry; [exact sym|exact Hh|]. exact Hn.
    - unfold avl_remove.
      destruct (removeR_ok equalb compare D eqv lt TK k _ Dk Hd Ha Hb) as (t' & o & done & -> & Hc & Bt & _).
      cbn [rbind]. do 2 eexists. split; [reflexivity|]. unfold avl_inv. cbn [avl_root avl_size op_key].
      destruct o as [[k0 v0]|]; cbn [remove_contents] in Hc.
      + destruct Hc as (He & l1 & l2 & E & E'). rewrite E' in *. rewrite E in *.
        apply dom_middle in Hd. destruct Hd as [Dk0 Hd].
        apply ascending_middle in Ha. destruct Ha as (Ha & F1 & F2).
        pose proof (others_ne _ _ _ F1 F2) as Hn.
        split; [|].
        * repeat split; try assumption.
          -- rewrite Hs, !zlen_middle. lia.
          -- apply (holds_remove_old eqv sym trans h l1 l2 k0 v0 k Hh He Hn).
          -- apply (holds_remove_old eqv sym trans h l1 l2 k0 v0 k Hh He Hn).
        * eapply holds_entry; [exact sym|exact Hh|]. split; [exact He|]. apply in_app_iff. right. now left.
      + destruct Hc as (E & Hn). rewrite E in *. split; [|].
        * repeat split; try assumption; apply (holds_remove_new eqv h _ k Hh Hn).
        * eapply holds_entry; [exact sym|exact Hh|]. exact Hn.
    - unfold avl_get.
      destruct (getR_ok equalb compare D eqv lt TK k _ Dk Hd Ha) as (o & -> & Hg). cbn [rbind].
      do 2 eexists. split; [reflexivity|]. split.
      + repeat split; try assumption; apply (holds_get eqv h _ k Hh).
      + cbn [op_key]. eapply holds_entry; [exact sym|exact Hh|]. exact Hg.
  Qed.

  Lemma avl_run_ok ops : forall h t, Forall (fun op => D (op_key op)) ops -> avl_inv h t ->
    exists t' os, avl_run equalb compare t ops = Ok (t', os) /\ avl_inv (h ++ ops) t' /\ answers eqv h ops os.
  Proof.
    induction ops as [|op ops IH]; intros h t F Hi.
    - exists t, []. rewrite app_nil_r. repeat split; try apply Hi. constructor.
    - inversion F as [|x l Dk F' E]; subst.
      destruct (avl_step_ok h t op Dk Hi) as (t1 & o & H1 & Hi1 & He).
      destruct (IH (h ++ [op]) t1 F' Hi1) as (t2 & os & H2 & Hi2 & Hos).
      exists t2, (o :: os). cbn [avl_run]. rewrite H1. cbn [rbind]. rewrite H2. cbn [rbind].
      rewrite <- app_assoc in Hi2. repeat split; try apply Hi2. now constructor.
  Qed.

  Lemma avl_history ops : Forall (fun op => D (op_key op)) ops ->
    exists t os, avl_run equalb compare new_avl ops = Ok (t, os) /\ avl_inv ops t /\ answers eqv [] ops os.
  Proof. intros F. apply (avl_run_ok ops [] new_avl F). exact avl_inv_new. Qed.

  Lemma avl_inv_lists h t : avl_inv h t -> lists_entries eqv h (inorder (avl_root t)).
  Proof.
    intros (Hd & Ha & Hb & Hs & Hh). split; [exact Hh|].
    unfold ascending in Ha. induction Ha as [|x l Hx Hl IH]; constructor; [|].
    - eapply Forall_impl; [|exact Hx]. intros e He. cbn beta in He. now apply (lt_not_eqv equalb compare D eqv lt TK).
    - clear - Hl TK. induction Hl as [|y l' Hy Hl' IH']; constructor; [|exact IH'].
      eapply Forall_impl; [|exact Hy]. intros e He. cbn beta in He. now apply (lt_not_eqv equalb compare D eqv lt TK).
  Qed.

  (** The counting lookup is the lookup. *)
  Lemma getR_count_fst k (t : tree K V) : fst (getR_count equalb compare k t) = getR equalb compare k t.
  Proof using Type.
    clear. induction t as [|rk rv b l IHl r IHr]; [reflexivity|].
    cbn [getR_count getR]. destruct (equalb rk k) as [[]| |]; cbn [rbind]; try reflexivity.
    destruct (direction compare rk k) as [[]| |]; cbn [rbind]; try reflexivity.
    - rewrite <- IHr. destruct (getR_count equalb compare k r). reflexivity.
    - rewrite <- IHl. destruct (getR_count equalb compare k l). reflexivity.
  Qed.

  Lemma getR_count_height k (t : tree K V) : snd (getR_count equalb compare k t) <= height t.
  Proof using Type.
    clear. induction t as [|rk rv b l IHl r IHr]; [cbn; lia|].
    cbn [getR_count height]. destruct (equalb rk k) as [[]| |]; cbn [snd]; try lia.
    destruct (direction compare rk k) as [[]| |]; cbn [snd]; try lia.
    - destruct (getR_count equalb compare k r). cbn [snd] in *. lia.
    - destruct (getR_count equalb compare k l). cbn [snd] in *. lia.
  Qed.
End History.

(** ** Height *)
Fixpoint fib (n : nat) : nat :=
  match n with 0 => 0 | S n' => match n' with 0 => 1 | S n'' => fib n' + fib n'' end end.

Lemma fib_SS n : fib (S (S n)) = fib (S n) + fib n.
Proof. reflexivity. Qed.

Lemma fib_mono n m : n <= m -> fib n <= fib m.
Proof.
  induction 1 as [|m H IH]; [lia|]. destruct m; [assert (n = 0) by lia; subst; cbn; lia|].
  rewrite fib_SS. lia.
Qed.

Lemma fib_double n : 2 ^ n <= fib (S (S n)) * fib (S (S n)).
Proof.
  assert (H : forall n, 2 ^ n <= fib (S (S n)) * fib (S (S n)) /\ 2 ^ S n <= fib (S (S (S n))) * fib (S (S (S n)))).
  { clear n. intros n. induction n as [|n [I1 I2]]; [cbn; lia|]. split; [exact I2|].
    assert (E : 2 * fib (S (S n)) <= fib (S (S (S (S n))))).
    { rewrite (fib_SS (S (S n))), (fib_SS (S n)). lia. }
    change (2 ^ S (S n)) with (2 * (2 * 2 ^ n)).
    - assert (E2 : 2 ^ S (S n) = 4 * 2 ^ n) by (cbn [Nat.pow]; lia).
      remember (fib (S (S (S (S n))))) as a. remember (fib (S (S n))) as b. clear - I1 E E2. nia. }
  apply H.
Qed.

Lemma avl_min_nodes {K V} (t : tree K V) : balanced t -> fib (S (S (height t))) <= S (length (inorder t)).
Proof.
  induction t as [|k v b l IHl r IHr]; [cbn; lia|].
  cbn [balanced height inorder]. intros (Eb & Rb & Bl & Br). specialize (IHl Bl). specialize (IHr Br).
  rewrite app_length. cbn [length]. rewrite fib_SS.
  assert (C : height r = height l \/ height r = S (height l) \/ height l = S (height r)) by lia.
  destruct C as [C|[C|C]].
  - rewrite C, Nat.max_id. rewrite <- C in IHl at 1.
    pose proof (fib_mono (S (height l)) (S (S (height l)))). rewrite C in *. lia.
  - rewrite C in *. rewrite Nat.max_r by lia. lia.
  - rewrite C in *. rewrite Nat.max_l by lia. lia.
Qed.

Lemma avl_height_bound {K V} (t : tree K V) : balanced t ->
  2 ^ height t <= S (length (inorder t)) * S (length (inorder t)).
Proof.
  intros H. apply avl_min_nodes in H. pose proof (fib_double (height t)).
  remember (fib (S (S (height t)))) as a. nia.
Qed.
