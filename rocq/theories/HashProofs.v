(** * Lemmas on the hash table. *)
From Coq Require Import List NArith ZArith Bool Lia Permutation.
From Verif Require Import Base BaseProofs AVLModel MapSpec MapProofs HashModel HashSpec.
Import ListNotations.

Section HashProofs.
  Context {K V : Type} (equalb : K -> K -> res bool) (hashf : K -> res N) (pol : policy).
  Context (D : K -> Prop) (eqv : K -> K -> Prop) (HK : hash_keys D eqv equalb hashf).
  Notation chain := (list (K * V)).

  Definition dom (l : chain) : Prop := Forall (fun e => D (fst e)) l.
  Definition distinct (l : chain) : Prop := ForallOrdPairs (fun a b => ~ eqv (fst a) (fst b)) l.

  Lemma heq_dec a b : D a -> D b ->
    (equalb a b = Ok true /\ eqv a b) \/ (equalb a b = Ok false /\ ~ eqv a b).
  Proof.
    intros Ha Hb. destruct (hk_equal _ _ _ _ HK a b Ha Hb) as (e & -> & He).
    destruct e; [left|right]; split; auto; [now apply He|]. intros H. apply He in H. discriminate.
  Qed.

  Lemma distinct_perm l l' : Permutation l l' -> distinct l -> distinct l'.
  Proof.
    unfold distinct. induction 1 as [|x l l' P IH|x y l|l l' l'' P1 IH1 P2 IH2]; intros H.
    - constructor.
    - inversion H as [|x0 l0 Hx Hl E]; subst. constructor; [|auto].
      rewrite Forall_forall in *. intros e He. apply Hx. eapply Permutation_in; [apply Permutation_sym, P|exact He].
    - inversion H as [|x0 l0 Hx Hl E]; subst. inversion Hl as [|x1 l1 Hx1 Hl1 E1]; subst.
      inversion Hx as [|x2 l2 Hxy Hx2 E2]; subst. constructor.
      + constructor; [|exact Hx1]. intros C. apply Hxy. now apply (hk_sym _ _ _ _ HK).
      + constructor; assumption.
    - auto.
  Qed.

  Lemma distinct_middle l1 x l2 : distinct (l1 ++ x :: l2) ->
    distinct (l1 ++ l2) /\ Forall (fun e => ~ eqv (fst e) (fst x)) (l1 ++ l2).
  Proof.
    intros H. assert (P : Permutation (l1 ++ x :: l2) (x :: l1 ++ l2)) by (apply Permutation_sym, Permutation_middle).
    apply (distinct_perm _ _ P) in H. inversion H as [|x0 l0 Hx Hl E]; subst. split; [exact Hl|].
    eapply Forall_impl; [|exact Hx]. cbn beta. intros e He C. apply He. now apply (hk_sym _ _ _ _ HK).
  Qed.

  Lemma distinct_insert l1 x l2 : distinct (l1 ++ l2) -> Forall (fun e => ~ eqv (fst e) (fst x)) (l1 ++ l2) ->
    distinct (l1 ++ x :: l2).
  Proof.
    intros H F. apply (distinct_perm (x :: l1 ++ l2)); [apply Permutation_middle|]. constructor; [|exact H].
    eapply Forall_impl; [|exact F]. cbn beta. intros e He C. apply He. now apply (hk_sym _ _ _ _ HK).
  Qed.

  Lemma dom_mid (l1 : chain) x l2 : dom (l1 ++ x :: l2) <-> D (fst x) /\ dom (l1 ++ l2).
  Proof using Type. clear. unfold dom. rewrite !Forall_app, Forall_cons_iff. tauto. Qed.

  (** *** Slots *)
  Definition cap_ok (n : nat) : Prop := (N.of_nat n mod two32 <> 0)%N.
  Definition home (n : nat) (k : K) : nat :=
    match hashf k with Ok h => N.to_nat (h mod (N.of_nat n mod two32)) | _ => 0 end.

  Lemma slot_home (arr : list chain) k : D k -> cap_ok (length arr) ->
    slot hashf arr k = Ok (home (length arr) k) /\ home (length arr) k < length arr.
  Proof.
    intros Dk Hc. unfold slot, home. destruct (hk_hash _ _ _ _ HK k Dk) as (h & ->). cbn [rbind].
    apply N.eqb_neq in Hc. rewrite Hc. apply N.eqb_neq in Hc. split; [reflexivity|].
    pose proof (N.mod_lt h _ Hc). pose proof (N.mod_le (N.of_nat (length arr)) two32). 
    assert (two32 <> 0)%N by discriminate. lia.
  Qed.

  Lemma home_eqv n a b : D a -> D b -> eqv a b -> home n a = home n b.
  Proof. intros Da Db E. unfold home. now rewrite (hk_same _ _ _ _ HK a b Da Db E). Qed.

  (** Every node sits in its home bucket. *)
  Definition placed (arr : list chain) : Prop :=
    forall i c, nth_error arr i = Some c -> Forall (fun e => home (length arr) (fst e) = i) c.

  Lemma bucket_split (arr : list chain) i c : nth_error arr i = Some c ->
    exists a1 a2, arr = a1 ++ c :: a2 /\ length a1 = i.
  Proof using Type. clear. apply nth_error_split. Qed.

  Lemma set_bucket_split (a1 : list chain) c a2 c' : set_bucket (a1 ++ c :: a2) (length a1) c' = a1 ++ c' :: a2.
  Proof using Type. clear. induction a1 as [|x a1 IH]; [reflexivity|]. cbn. now rewrite IH. Qed.

  Lemma set_bucket_length (arr : list chain) i c : length (set_bucket arr i c) = length arr.
  Proof using Type. clear. revert i. induction arr as [|x arr IH]; intros [|i]; cbn; auto. Qed.

  Lemma placed_set a1 c a2 c' : placed (a1 ++ c :: a2) ->
    Forall (fun e => home (length (a1 ++ c :: a2)) (fst e) = length a1) c' -> placed (a1 ++ c' :: a2).
  Proof using Type.
    clear. intros P F i d. assert (L : length (a1 ++ c' :: a2) = length (a1 ++ c :: a2)) by (rewrite !app_length; reflexivity).
    rewrite L. intros E. destruct (Nat.lt_trichotomy i (length a1)) as [H|[->|H]].
    - apply P. rewrite nth_error_app1 in * by lia. exact E.
    - rewrite nth_error_app2, Nat.sub_diag in E by lia. cbn in E. injection E as <-. exact F.
    - apply P. rewrite nth_error_app2 in * by lia.
      destruct (i - length a1) as [|j] eqn:Ej; [lia|]. cbn in *. exact E.
  Qed.

  (** An equal key can only be in the home bucket. *)
  Lemma elsewhere arr k i c : placed arr -> D k -> dom (concat arr) -> nth_error arr i = Some c ->
    i <> home (length arr) k -> Forall (fun e => ~ eqv (fst e) k) c.
  Proof.
    intros P Dk Hd E Hi. specialize (P i c E). rewrite Forall_forall in *. intros e He C. apply Hi.
    rewrite <- (P e He). apply home_eqv; auto.
    unfold dom in Hd. rewrite Forall_forall in Hd. apply Hd. apply in_concat. exists c. split; [|exact He].
    eapply nth_error_In; eauto.
  Qed.

  Lemma others_elsewhere a1 c a2 k : placed (a1 ++ c :: a2) -> D k -> dom (concat (a1 ++ c :: a2)) ->
    length a1 = home (length (a1 ++ c :: a2)) k ->
    Forall (fun e => ~ eqv (fst e) k) (concat a1) /\ Forall (fun e => ~ eqv (fst e) k) (concat a2).
  Proof.
    intros P Dk Hd Hh. split; apply Forall_forall; intros e He; apply in_concat in He; destruct He as (d & Hin & He);
      apply In_nth_error in Hin; destruct Hin as (j & Hj).
    - assert (Hlt : j < length a1) by (apply nth_error_Some; congruence).
      assert (E : nth_error (a1 ++ c :: a2) j = Some d) by (rewrite nth_error_app1; assumption).
      pose proof (elsewhere _ k j d P Dk Hd E) as F. rewrite Forall_forall in F. apply F; [lia|exact He].
    - assert (E : nth_error (a1 ++ c :: a2) (length a1 + S j) = Some d).
      { rewrite nth_error_app2 by lia. replace (length a1 + S j - length a1) with (S j) by lia. exact Hj. }
      pose proof (elsewhere _ k _ d P Dk Hd E) as F. rewrite Forall_forall in F. apply F; [lia|exact He].
  Qed.

  (** *** Chains *)
  Lemma chain_get_ok k c : D k -> dom c ->
    exists o, chain_get equalb c k = Ok o /\
      match o with
      | Some (k0, v0) => eqv k0 k /\ In (k0, v0) c
      | None => Forall (fun e => ~ eqv (fst e) k) c
      end.
  Proof.
    intros Dk. induction c as [|[k0 v0] c IH]; intros Hd; cbn [chain_get].
    - exists None. split; [reflexivity|constructor].
    - apply Forall_cons_iff in Hd. destruct Hd as [D0 Hd]. cbn in D0.
      destruct (heq_dec k0 k D0 Dk) as [[-> He]|[-> He]]; cbn [rbind].
      + eexists. split; [reflexivity|]. split; [exact He|now left].
      + destruct (IH Hd) as (o & -> & Ho). exists o. split; [reflexivity|].
        destruct o as [[k1 v1]|]; [split; [tauto|right; tauto]|]. constructor; assumption.
  Qed.

  Lemma chain_replace_ok k v c : D k -> dom c ->
    exists o, chain_replace equalb c k v = Ok o /\
      match o with
      | Some ((k0, v0), c') => exists c1 c2, eqv k0 k /\ c = c1 ++ (k0, v0) :: c2 /\ c' = c1 ++ (k, v) :: c2
      | None => Forall (fun e => ~ eqv (fst e) k) c
      end.
  Proof.
    intros Dk. induction c as [|[k0 v0] c IH]; intros Hd; cbn [chain_replace].
    - exists None. split; [reflexivity|constructor].
    - apply Forall_cons_iff in Hd. destruct Hd as [D0 Hd]. cbn in D0.
      destruct (heq_dec k0 k D0 Dk) as [[-> He]|[-> He]]; cbn [rbind].
      + eexists. split; [reflexivity|]. exists [], c. auto.
      + destruct (IH Hd) as (o & -> & Ho). cbn [rbind]. eexists. split; [reflexivity|].
        destruct o as [[[k1 v1] c']|].
        * destruct Ho as (c1 & c2 & E1 & -> & ->). exists ((k0, v0) :: c1), c2. auto.
        * constructor; assumption.
  Qed.

  Lemma chain_remove_ok k c : D k -> dom c ->
    exists o, chain_remove equalb c k = Ok o /\
      match o with
      | Some ((k0, v0), c') => exists c1 c2, eqv k0 k /\ c = c1 ++ (k0, v0) :: c2 /\ c' = c1 ++ c2
      | None => Forall (fun e => ~ eqv (fst e) k) c
      end.
  Proof.
    intros Dk. induction c as [|[k0 v0] c IH]; intros Hd; cbn [chain_remove].
    - exists None. split; [reflexivity|constructor].
    - apply Forall_cons_iff in Hd. destruct Hd as [D0 Hd]. cbn in D0.
      destruct (heq_dec k0 k D0 Dk) as [[-> He]|[-> He]]; cbn [rbind].
      + eexists. split; [reflexivity|]. exists [], c. auto.
      + destruct (IH Hd) as (o & -> & Ho). cbn [rbind]. eexists. split; [reflexivity|].
        destruct o as [[[k1 v1] c']|].
        * destruct Ho as (c1 & c2 & E1 & -> & ->). exists ((k0, v0) :: c1), c2. auto.
        * constructor; assumption.
  Qed.

  (** *** Resizing *)
  Lemma rehash_ok nodes : forall arr, dom nodes -> cap_ok (length arr) -> placed arr ->
    exists arr', rehash hashf nodes arr = Ok arr' /\ length arr' = length arr /\ placed arr' /\
      Permutation (concat arr') (nodes ++ concat arr).
  Proof.
    induction nodes as [|[k v] nodes IH]; intros arr Hd Hc P; cbn [rehash].
    - exists arr. auto.
    - apply Forall_cons_iff in Hd. destruct Hd as [Dk Hd]. cbn in Dk.
      destruct (slot_home arr k Dk Hc) as [-> Hlt]. cbn [rbind]. unfold bucket.
      destruct (nth_error arr (home (length arr) k)) as [c|] eqn:E;
        [|exfalso; apply nth_error_None in E; lia]. cbn [rbind].
      destruct (bucket_split arr _ c E) as (a1 & a2 & Ea & El).
      assert (P' : placed (set_bucket arr (home (length arr) k) ((k, v) :: c))).
      { rewrite <- El. rewrite Ea in *. rewrite set_bucket_split. eapply placed_set; [exact P|].
        constructor; [cbn; congruence|]. rewrite El. apply (P _ _ E). }
      destruct (IH (set_bucket arr (home (length arr) k) ((k, v) :: c)) Hd) as (arr' & -> & L & P2 & Pm).
      + now rewrite set_bucket_length.
      + exact P'.
      + exists arr'. split; [reflexivity|]. split; [now rewrite L, set_bucket_length|]. split; [exact P2|].
        rewrite Pm. rewrite <- El. rewrite Ea at 1. rewrite set_bucket_split. rewrite Ea.
        rewrite !concat_app. cbn [concat app].
        rewrite app_comm_cons. apply Permutation_trans with (nodes ++ (k, v) :: concat a1 ++ c ++ concat a2).
        * apply Permutation_app_head. apply Permutation_sym, Permutation_middle.
        * apply Permutation_sym, Permutation_middle.
  Qed.

  Lemma concat_repeat_nil {A} n : concat (repeat (@nil A) n) = [].
  Proof using Type. clear. induction n; auto. Qed.

  Lemma placed_empty n : placed (repeat [] n).
  Proof using Type.
    clear. intros i c E. apply nth_error_In in E. apply repeat_spec in E. subst. constructor.
  Qed.

  Definition clamp (n : Z) : Z := if (n <? min_capacity)%Z then min_capacity else n.

  Lemma resize_ok arr n : dom (concat arr) -> placed arr -> cap_ok (Z.to_nat (clamp n)) ->
    exists arr', resize hashf arr n = Ok arr' /\ zlen arr' = clamp n /\ placed arr' /\
      Permutation (concat arr') (concat arr).
  Proof.
    intros Hd P Hc. unfold resize. fold (clamp n).
    destruct (zlen arr =? clamp n)%Z eqn:E.
    - exists arr. split; [reflexivity|]. split; [lia|]. auto.
    - destruct (rehash_ok (concat arr) (repeat [] (Z.to_nat (clamp n))) Hd) as (arr' & -> & L & P' & Pm).
      + now rewrite repeat_length.
      + apply placed_empty.
      + exists arr'. split; [reflexivity|]. rewrite repeat_length in L. split.
        * unfold zlen. rewrite L. unfold clamp, min_capacity. destruct (n <? 10)%Z eqn:En; lia.
        * split; [exact P'|]. rewrite concat_repeat_nil, app_nil_r in Pm. exact Pm.
  Qed.

  (** *** One call *)
  Definition hash_inv (h : list (mop K V)) (t : hash K V) : Prop :=
    dom (concat (h_array t)) /\ distinct (concat (h_array t)) /\ placed (h_array t) /\
    h_size t = zlen (concat (h_array t)) /\ holds eqv h (concat (h_array t)).

  (** The policy asks only for capacities that a uint32 can divide by. *)
  Definition policy_ok : Prop := forall s c n, 
    after_put pol s c = Some n \/ after_remove pol s c = Some n -> cap_ok (Z.to_nat (clamp n)).

  (** The capacity after the call. *)
  Definition next_cap (d : option Z) (cap : Z) : Z := match d with None => cap | Some n => clamp n end.

  Lemma holds_perm h l l' : Permutation l l' -> holds eqv h l -> @holds K V eqv h l'.
  Proof using Type.
    clear. intros P H k v. rewrite <- (H k v). split; intros Hi.
    - eapply Permutation_in; [apply Permutation_sym, P|exact Hi].
    - eapply Permutation_in; [exact P|exact Hi].
  Qed.
  Lemma dom_perm (l l' : chain) : Permutation l l' -> dom l -> dom l'.
  Proof using Type.
    clear. unfold dom. intros P H. rewrite Forall_forall in *. intros e He. apply H.
    eapply Permutation_in; [apply Permutation_sym, P|exact He].
  Qed.

  Lemma maybe_resize_ok d arr : dom (concat arr) -> placed arr ->
    (forall n, d = Some n -> cap_ok (Z.to_nat (clamp n))) ->
    exists arr', maybe_resize hashf d arr = Ok arr' /\ zlen arr' = next_cap d (zlen arr) /\ placed arr' /\
      Permutation (concat arr') (concat arr).
  Proof.
    intros Hd P Hc. destruct d as [n|]; cbn [maybe_resize next_cap].
    - apply resize_ok; auto.
    - exists arr. auto.
  Qed.

  Lemma zlen_mid {E} (l1 l2 : list E) x : zlen (l1 ++ x :: l2) = (zlen (l1 ++ l2) + 1)%Z.
  Proof using Type. clear. unfold zlen. rewrite !app_length. cbn [length]. lia. Qed.
  Lemma zlen_perm {E} (l l' : list E) : Permutation l l' -> zlen l = zlen l'.
  Proof using Type. clear. intros P. unfold zlen. now rewrite (Permutation_length P). Qed.

  Lemma hash_step_ok h t op : D (op_key op) -> hash_inv h t -> cap_ok (length (h_array t)) ->
    (forall n, after_put pol (h_size t + 1) (zlen (h_array t)) = Some n \/
               after_remove pol (h_size t - 1) (zlen (h_array t)) = Some n -> cap_ok (Z.to_nat (clamp n))) ->
    exists t' o, hash_step equalb hashf pol t op = Ok (t', o) /\
      hash_inv (h ++ [op]) t' /\ entry_at eqv h (op_key op) o /\
      (h_size t', zlen (h_array t')) =
        match op, o with
        | MPut _ _, None => (h_size t + 1, next_cap (after_put pol (h_size t + 1) (zlen (h_array t))) (zlen (h_array t)))%Z
        | MRemove _, Some _ => (h_size t - 1, next_cap (after_remove pol (h_size t - 1) (zlen (h_array t))) (zlen (h_array t)))%Z
        | _, _ => (h_size t, zlen (h_array t))
        end.
  Proof.
    intros Dk (Hd & Hx & P & Hs & Hh) Hc Hpol. destruct t as [arr size]. cbn [h_array h_size] in *.
    pose proof (hk_sym _ _ _ _ HK) as sym. pose proof (hk_trans _ _ _ _ HK) as trans.
    assert (K0 : exists k, op_key op = k) by eauto. destruct K0 as [k Ek]. rewrite Ek in Dk.
    destruct (slot_home arr k Dk Hc) as [Hslot Hlt].
    destruct (nth_error arr (home (length arr) k)) as [c|] eqn:E; [|exfalso; apply nth_error_None in E; lia].
    destruct (bucket_split arr _ c E) as (a1 & a2 & Ea & El).
    assert (Ec : concat arr = concat a1 ++ c ++ concat a2) by (rewrite Ea, concat_app; reflexivity).
    assert (Dc : dom c). { unfold dom in *. rewrite Ec, !Forall_app in Hd. tauto. }
    destruct (others_elsewhere a1 c a2 k) as [N1 N2]; [now rewrite <- Ea|exact Dk|now rewrite <- Ea|rewrite <- Ea; exact El|].
    assert (Hset : forall c', set_bucket arr (home (length arr) k) c' = a1 ++ c' :: a2).
    { intros c'. rewrite <- El. rewrite Ea at 1. apply set_bucket_split. }
    assert (Len : forall c', zlen (a1 ++ c' :: a2) = zlen arr).
    { intros c'. rewrite Ea. unfold zlen. rewrite !app_length. reflexivity. }
    destruct op as [k' v|k'|k']; cbn [op_key] in Ek; subst k'; cbn [op_key]; unfold hash_step.
    - unfold hash_put. cbn [h_array h_size]. rewrite Hslot. cbn [rbind]. unfold bucket. rewrite E. cbn [rbind].
      destruct (chain_replace_ok k v c Dk Dc) as (r & -> & Hr). cbn [rbind].
      destruct r as [[[k0 v0] c']|].
      + destruct Hr as (c1 & c2 & He & Hc1 & Hc2). do 2 eexists. split; [reflexivity|].
        rewrite Hset. cbn [h_array h_size]. unfold hash_inv. cbn [h_array h_size].
        assert (E1 : concat arr = (concat a1 ++ c1) ++ (k0, v0) :: c2 ++ concat a2).
        { rewrite Ec, Hc1, <- !app_assoc. reflexivity. }
        assert (E2 : concat (a1 ++ c' :: a2) = (concat a1 ++ c1) ++ (k, v) :: c2 ++ concat a2).
        { rewrite concat_app. cbn [concat]. rewrite Hc2, <- !app_assoc. reflexivity. }
        rewrite E2. rewrite E1 in *. apply distinct_middle in Hx. destruct Hx as [Hx Hn]. cbn [fst] in Hn.
        apply dom_mid in Hd. destruct Hd as [D0 Hd]. cbn in D0.
        split; [|split].
        * repeat split.
          -- apply dom_mid. split; assumption.
          -- apply distinct_insert; [exact Hx|]. eapply Forall_impl; [|exact Hn]. cbn [fst]. intros e Hne C. apply Hne.
             eapply trans; [exact C|]. now apply sym.
          -- rewrite Ea in P. eapply placed_set; [exact P|]. rewrite <- Ea, El.
             rewrite <- Ea in P. specialize (P _ _ E).
             rewrite Hc1 in P. rewrite Hc2. rewrite Forall_app, Forall_cons_iff in *.
             split; [tauto|]. split; [|tauto]. cbn [fst] in *. reflexivity.
          -- rewrite Hs, !zlen_mid. reflexivity.
          -- apply (holds_put_old eqv sym trans h _ _ k0 v0 k v Hh He Hn).
          -- apply (holds_put_old eqv sym trans h _ _ k0 v0 k v Hh He Hn).
        * eapply holds_entry; [exact sym|exact Hh|]. split; [exact He|]. apply in_app_iff. right. now left.
        * f_equal. apply Len.
      + assert (Hn : Forall (fun e => ~ eqv (fst e) k) (concat a1 ++ c ++ concat a2)) by (rewrite !Forall_app; auto).
        rewrite Hset, Len.
        assert (E2 : concat (a1 ++ ((k, v) :: c) :: a2) = concat a1 ++ (k, v) :: c ++ concat a2).
        { rewrite concat_app. reflexivity. }
        rewrite Ec in *.
        assert (Dn : dom (concat (a1 ++ ((k, v) :: c) :: a2))) by (rewrite E2; apply dom_mid; auto).
        assert (Pn : placed (a1 ++ ((k, v) :: c) :: a2)).
        { rewrite Ea in P. eapply placed_set; [exact P|]. rewrite <- Ea, El. constructor; [reflexivity|].
          rewrite <- Ea in P. apply (P _ _ E). }
        destruct (maybe_resize_ok (after_put pol (size + 1) (zlen arr)) _ Dn Pn) as (arr' & -> & L & P' & Pm).
        { intros n Hn'. apply Hpol. now left. }
        cbn [rbind]. do 2 eexists. split; [reflexivity|]. unfold hash_inv. cbn [h_array h_size].
        assert (Dx : distinct (concat (a1 ++ ((k, v) :: c) :: a2))) by (rewrite E2; apply distinct_insert; auto).
        split; [|split].
        * repeat split.
          -- eapply dom_perm; [apply Permutation_sym, Pm|exact Dn].
          -- eapply distinct_perm; [apply Permutation_sym, Pm|exact Dx].
          -- exact P'.
          -- rewrite (zlen_perm _ _ Pm), E2, zlen_mid. lia.
          -- eapply holds_perm; [apply Permutation_sym, Pm|]. rewrite E2. apply (holds_put_new eqv h _ _ k v Hh Hn).
          -- eapply holds_perm; [apply Permutation_sym, Pm|]. rewrite E2. apply (holds_put_new eqv h _ _ k v Hh Hn).
        * eapply holds_entry; [exact sym|exact Hh|]. exact Hn.
        * f_equal. rewrite L. now rewrite Len.
    - unfold hash_remove. cbn [h_array h_size]. rewrite Hslot. cbn [rbind]. unfold bucket. rewrite E. cbn [rbind].
      destruct (chain_remove_ok k c Dk Dc) as (r & -> & Hr). cbn [rbind].
      destruct r as [[[k0 v0] c']|].
      + destruct Hr as (c1 & c2 & He & Hc1 & Hc2). rewrite Hset, Len.
        assert (E1 : concat arr = (concat a1 ++ c1) ++ (k0, v0) :: c2 ++ concat a2).
        { rewrite Ec, Hc1, <- !app_assoc. reflexivity. }
        assert (E2 : concat (a1 ++ c' :: a2) = (concat a1 ++ c1) ++ c2 ++ concat a2).
        { rewrite concat_app. cbn [concat]. rewrite Hc2, <- !app_assoc. reflexivity. }
        rewrite E1 in *. apply distinct_middle in Hx. destruct Hx as [Hx Hn]. cbn [fst] in Hn.
        apply dom_mid in Hd. destruct Hd as [D0 Hd]. cbn in D0.
        assert (Dn : dom (concat (a1 ++ c' :: a2))) by (rewrite E2; exact Hd).
        assert (Pn : placed (a1 ++ c' :: a2)).
        { rewrite Ea in P. eapply placed_set; [exact P|]. rewrite <- Ea, El.
          rewrite <- Ea in P. specialize (P _ _ E). rewrite Hc1 in P. rewrite Hc2.
          rewrite Forall_app, Forall_cons_iff in *. tauto. }
        destruct (maybe_resize_ok (after_remove pol (size - 1) (zlen arr)) _ Dn Pn) as (arr' & -> & L & P' & Pm).
        { intros n Hn'. apply Hpol. now right. }
        cbn [rbind]. do 2 eexists. split; [reflexivity|]. unfold hash_inv. cbn [h_array h_size].
        split; [|split].
        * repeat split.
          -- eapply dom_perm; [apply Permutation_sym, Pm|exact Dn].
          -- eapply distinct_perm; [apply Permutation_sym, Pm|]. rewrite E2. exact Hx.
          -- exact P'.
          -- rewrite (zlen_perm _ _ Pm), E2. rewrite zlen_mid in Hs. lia.
          -- eapply holds_perm; [apply Permutation_sym, Pm|]. rewrite E2.
             apply (holds_remove_old eqv sym trans h _ _ k0 v0 k Hh He Hn).
          -- eapply holds_perm; [apply Permutation_sym, Pm|]. rewrite E2.
             apply (holds_remove_old eqv sym trans h _ _ k0 v0 k Hh He Hn).
        * eapply holds_entry; [exact sym|exact Hh|]. split; [exact He|]. apply in_app_iff. right. now left.
        * f_equal. rewrite L. now rewrite Len.
      + assert (Hn : Forall (fun e => ~ eqv (fst e) k) (concat arr)) by (rewrite Ec, !Forall_app; auto).
        do 2 eexists. split; [reflexivity|]. unfold hash_inv. cbn [h_array h_size]. split; [|split].
        * repeat split; try assumption; apply (holds_remove_new eqv h _ k Hh Hn).
        * eapply holds_entry; [exact sym|exact Hh|]. exact Hn.
        * reflexivity.
    - unfold hash_get. cbn [h_array h_size]. rewrite Hslot. cbn [rbind]. unfold bucket. rewrite E. cbn [rbind].
      destruct (chain_get_ok k c Dk Dc) as (o & -> & Ho). cbn [rbind].
      do 2 eexists. split; [reflexivity|]. unfold hash_inv. cbn [h_array h_size]. split; [|split].
      + repeat split; try assumption; apply (holds_get eqv h _ k Hh).
      + eapply holds_entry; [exact sym|exact Hh|]. rewrite Ec. destruct o as [[k0 v0]|].
        * destruct Ho as [He Hi]. split; [exact He|]. apply in_app_iff. right. apply in_app_iff. now left.
        * rewrite !Forall_app. auto.
      + destruct o; reflexivity.
  Qed.

  Lemma hash_inv_new n : hash_inv [] (new_hash n).
  Proof using Type.
    clear. unfold hash_inv, new_hash. cbn [h_array h_size]. rewrite concat_repeat_nil.
    repeat split; try constructor; try apply placed_empty.
    - intros [].
    - intros H. exfalso. eapply stored_nil; eauto.
  Qed.

  Lemma hash_run_ok ops : policy_ok -> forall h t, Forall (fun op => D (op_key op)) ops -> hash_inv h t ->
    cap_ok (length (h_array t)) ->
    exists t' os, hash_run equalb hashf pol t ops = Ok (t', os) /\ hash_inv (h ++ ops) t' /\ answers eqv h ops os.
  Proof.
    intros Hpol. induction ops as [|op ops IH]; intros h t F Hi Hc.
    - exists t, []. rewrite app_nil_r. split; [reflexivity|]. split; [exact Hi|constructor].
    - inversion F as [|x l Dk F' E]; subst.
      destruct (hash_step_ok h t op Dk Hi Hc) as (t1 & o & H1 & Hi1 & He & Hcap).
      { intros n [Hn|Hn]; eapply Hpol; [left|right]; exact Hn. }
      assert (Hc1 : cap_ok (length (h_array t1))).
      { assert (L : zlen (h_array t1) = zlen (h_array t) \/ exists n s c,
            (after_put pol s c = Some n \/ after_remove pol s c = Some n) /\ zlen (h_array t1) = clamp n).
        { destruct op as [k v|k|k], o as [e|]; injection Hcap as Hsz Hcap; rewrite Hcap; auto; unfold next_cap.
          - destruct (after_put pol _ _) eqn:Ep; [right|now left]. do 3 eexists. split; [left; exact Ep|reflexivity].
          - destruct (after_remove pol _ _) eqn:Ep; [right|now left]. do 3 eexists. split; [right; exact Ep|reflexivity]. }
        destruct L as [L|(n & s & c & Hn & L)].
        - replace (length (h_array t1)) with (length (h_array t)) by (unfold zlen in L; lia). exact Hc.
        - replace (length (h_array t1)) with (Z.to_nat (clamp n)) by (unfold zlen in L; lia). eapply Hpol, Hn. }
      destruct (IH (h ++ [op]) t1 F' Hi1 Hc1) as (t2 & os & H2 & Hi2 & Hos).
      exists t2, (o :: os). cbn [hash_run]. rewrite H1. cbn [rbind]. rewrite H2. cbn [rbind].
      rewrite <- app_assoc in Hi2. split; [reflexivity|]. split; [exact Hi2|]. now constructor.
  Qed.

  (** *** Iterators *)
  Lemma hadvance_loop_nil n pos : hadvance_loop n pos (@nil (K * V)) = (pos + n, false).
  Proof using Type.
    clear. revert pos. induction n as [|n IH]; intros pos; cbn [hadvance_loop]; [f_equal; lia|].
    rewrite IH. f_equal. lia.
  Qed.

  Lemma hadvance_nil (arr : list chain) pos :
    hadvance arr (mk_hiter pos []) = mk_hiter (Nat.max (length arr) pos) [].
  Proof using Type.
    clear. unfold hadvance. cbn [hi_pos hi_curr]. rewrite hadvance_loop_nil.
    replace (pos + (length arr - pos)) with (Nat.max (length arr) pos) by lia.
    replace (nth_error arr (Nat.max (length arr) pos)) with (@None chain); [reflexivity|].
    symmetry. apply nth_error_None. lia.
  Qed.

  Lemma hit_run_empty (arr : list chain) cs : forall pos, hit_run arr (mk_hiter pos []) cs = list_iter [] cs.
  Proof using Type.
    clear. induction cs as [|c cs IH]; intros pos; [reflexivity|].
    cbn [hit_run]. unfold hit_step. rewrite hadvance_nil.
    replace (hi_done arr (mk_hiter (Nat.max (length arr) pos) [])) with true
      by (unfold hi_done; cbn; now rewrite orb_true_r).
    destruct c; cbn [negb list_iter hd_error tl]; now rewrite IH.
  Qed.

  Lemma hasserted_run_empty (arr : list chain) cs : forall pos, hasserted_run arr (mk_hiter pos []) cs = strict_list_iter [] cs.
  Proof using Type.
    clear. induction cs as [|c cs IH]; intros pos; [reflexivity|].
    cbn [hasserted_run]. unfold hit_step. rewrite hadvance_nil.
    replace (hi_done arr (mk_hiter (Nat.max (length arr) pos) [])) with true
      by (unfold hi_done; cbn; now rewrite orb_true_r).
    destruct c; cbn [negb strict_list_iter]; try reflexivity. now rewrite IH.
  Qed.
End HashProofs.

(** *** The default policy keeps the load below 3/4 *)
Section DefaultLoad.
  Context {K V : Type} (equalb : K -> K -> res bool) (hashf : K -> res N).
  Context (D : K -> Prop) (eqv : K -> K -> Prop) (HK : hash_keys D eqv equalb hashf).
  Local Open Scope Z_scope.

  Definition load_ok (size cap : Z) : Prop := 10 <= cap /\ 0 <= size /\ 4 * size < 3 * cap.

  Lemma default_grow size cap : load_ok size cap ->
    load_ok (size + 1) (next_cap (after_put default_policy (size + 1) cap) cap) /\
    next_cap (after_put default_policy (size + 1) cap) cap <= Z.max cap (2 * (size + 1)).
  Proof using Type.
    clear. unfold load_ok, next_cap, clamp, min_capacity. cbn [after_put default_policy]. intros (H1 & H2 & H3).
    destruct (3 * cap <=? 4 * (size + 1)) eqn:E; [|lia].
    assert (Hq : 3 * cap = 2 * (3 * cap / 2) + (3 * cap) mod 2) by (apply Z.div_mod; lia).
    pose proof (Z.mod_pos_bound (3 * cap) 2 ltac:(lia)).
    destruct (3 * cap / 2 <? 10) eqn:E2; lia.
  Qed.

  Lemma default_shrink size cap : load_ok size cap -> 1 <= size ->
    load_ok (size - 1) (next_cap (after_remove default_policy (size - 1) cap) cap) /\
    next_cap (after_remove default_policy (size - 1) cap) cap <= cap.
  Proof using Type.
    clear. unfold load_ok, next_cap, clamp, min_capacity. cbn [after_remove default_policy]. intros (H1 & H2 & H3) Hp.
    destruct (27 * (size - 1) <? 4 * cap) eqn:E; [|lia].
    assert (Hq : 4 * cap = 9 * (4 * cap / 9) + (4 * cap) mod 9) by (apply Z.div_mod; lia).
    pose proof (Z.mod_pos_bound (4 * cap) 9 ltac:(lia)).
    destruct (4 * cap / 9 <? 10) eqn:E2; lia.
  Qed.

  Lemma cap_ok_small n : 0 < n < 2 ^ 32 -> cap_ok (Z.to_nat n).
  Proof using Type.
    clear. intros H. unfold cap_ok. rewrite N.mod_small; unfold two32; lia.
  Qed.

  Lemma default_run (ops : list (mop K V)) : forall h (t : hash K V) bound, Forall (fun op => D (op_key op)) ops -> hash_inv hashf D eqv h t ->
    load_ok (h_size t) (zlen (h_array t)) -> zlen (h_array t) <= Z.max 10 (2 * bound) -> h_size t <= bound ->
    bound + zlen ops < 2 ^ 31 -> 0 <= bound ->
    exists t' os, hash_run equalb hashf default_policy t ops = Ok (t', os) /\ hash_inv hashf D eqv (h ++ ops) t' /\
      answers eqv h ops os /\ load_ok (h_size t') (zlen (h_array t')).
  Proof.
    induction ops as [|op ops IH]; intros h t bound F Hi Hl Hc Hb Hn H0.
    - exists t, []. rewrite app_nil_r. split; [reflexivity|]. split; [exact Hi|]. split; [constructor|exact Hl].
    - assert (Ez : zlen (op :: ops) = 1 + zlen ops) by (unfold zlen; cbn [length]; lia).
      assert (Zp : 0 <= zlen ops) by (unfold zlen; lia). 
      inversion F as [|x l Dk F' E]; subst.
      pose proof Hl as (L1 & L2 & L3).
      destruct (hash_step_ok equalb hashf default_policy D eqv HK h t op Dk Hi) as (t1 & o & H1 & Hi1 & He & Hcap).
      { replace (length (h_array t)) with (Z.to_nat (zlen (h_array t))) by (unfold zlen; lia).
        apply cap_ok_small. lia. }
      { intros n [Hp|Hp]; apply cap_ok_small.
        - pose proof (default_grow _ _ Hl) as [G1 G2]. rewrite Hp in G1, G2. cbn [next_cap] in *. unfold load_ok in G1. lia.
        - change (after_remove default_policy (h_size t - 1) (zlen (h_array t))) with
            (if 27 * (h_size t - 1) <? 4 * zlen (h_array t) then Some (4 * zlen (h_array t) / 9) else None) in Hp.
          destruct (27 * (h_size t - 1) <? 4 * zlen (h_array t)) eqn:Es; [|discriminate].
          assert (En : n = 4 * zlen (h_array t) / 9) by congruence. rewrite En. clear Hp En.
          unfold clamp, min_capacity.
          pose proof (Z.div_le_upper_bound (4 * zlen (h_array t)) 9 (zlen (h_array t)) ltac:(lia) ltac:(lia)).
          set (q := 4 * zlen (h_array t) / 9) in *. clearbody q.
          destruct (q <? 10) eqn:E2; [lia|]. apply Z.ltb_ge in E2. split; lia. }
      assert (S1 : load_ok (h_size t1) (zlen (h_array t1)) /\ zlen (h_array t1) <= Z.max 10 (2 * (bound + 1)) /\
                   h_size t1 <= bound + 1).
      { destruct op as [k v|k|k], o as [e|]; apply pair_equal_spec in Hcap; destruct Hcap as [Hsz Hcap]; rewrite Hsz, Hcap;
          try (split; [exact Hl|lia]).
        - pose proof (default_grow _ _ Hl) as [G1 G2]. split; [exact G1|lia].
        - assert (1 <= h_size t).
          { destruct e as [k0 v0]. cbn [entry_at op_key] in He. destruct He as [_ He].
            destruct Hi as (_ & _ & _ & Hs & Hh). apply Hh in He.
            rewrite Hs. destruct (concat (h_array t)); [destruct He|unfold zlen; cbn [length]; lia]. }
          pose proof (default_shrink _ _ Hl H) as [G1 G2]. split; [exact G1|lia]. }
      destruct S1 as (Hl1 & Hc1 & Hb1).
      destruct (IH (h ++ [op]) t1 (bound + 1) F' Hi1 Hl1 Hc1 Hb1) as (t2 & os & H2 & Hi2 & Hos & Hl2); [lia|lia|].
      exists t2, (o :: os). cbn [hash_run]. rewrite H1. cbn [rbind]. rewrite H2. cbn [rbind].
      rewrite <- app_assoc in Hi2. split; [reflexivity|]. split; [exact Hi2|]. split; [now constructor|exact Hl2].
  Qed.
End DefaultLoad.
