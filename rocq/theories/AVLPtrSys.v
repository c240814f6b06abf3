(** * All maps and iterators of a client together. *)
From Coq Require Import List ZArith Bool Lia Arith.
From Verif Require Import Base BaseProofs AVLModel MapSpec AVLSpec MapProofs AVLProofs AVLHistory AVLPtrModel AVLPtrProofs AVLPtrOps AVLPtrPut
  AVLPtrRemove AVLPtrCalls AVLPtrMono AVLPtrSpec AVLPtrIter.
Import ListNotations.
Local Open Scope Z_scope.

(** ** Histories, one call at a time *)
Section Snoc.
  Context {K V : Type}.
  Implicit Types (pre : list (pop K V)) (op : pop K V).

  Lemma maps_snoc pre op : maps (pre ++ [op]) = if is_new op then S (maps pre) else maps pre.
  Proof using Type.
    unfold maps. rewrite filter_app, app_length. cbn [filter]. destruct (is_new op); cbn [length]; lia.
  Qed.

  Lemma hist_from_snoc pre op : forall made m, hist_from made m (pre ++ [op]) =
    hist_from made m pre ++ (if (m <? made + maps pre)%nat then call_on m op else []).
  Proof using Type.
    unfold maps. induction pre as [|x pre IH]; intros made m; cbn [app hist_from filter length].
    - rewrite Nat.add_0_r, app_nil_r. reflexivity.
    - rewrite IH, app_assoc. destruct (is_new x); cbn [length]; [|reflexivity].
      now rewrite Nat.add_succ_l, Nat.add_succ_r.
  Qed.
  Lemma hist_snoc pre op m : hist m (pre ++ [op]) = hist m pre ++ (if (m <? maps pre)%nat then call_on m op else []).
  Proof using Type. apply hist_from_snoc. Qed.

  Lemma hist_none pre m : (maps pre <= m)%nat -> hist m pre = [].
  Proof using Type.
    induction pre as [|op pre IH] using rev_ind; intros H; [reflexivity|].
    rewrite hist_snoc, maps_snoc in *. rewrite IH by (destruct (is_new op); lia).
    destruct (Nat.ltb_spec m (maps pre)); [destruct (is_new op); lia|reflexivity].
  Qed.

  Lemma iters_from_snoc pre op os (o : res (pobs K V)) : length pre = length os -> forall j,
    iters_from j (pre ++ [op]) (os ++ [o]) = iters_from j pre os ++
      match op, o with PIter m _ _, Ok _ => [(m, j + length pre)%nat] | _, _ => [] end.
  Proof using Type.
    revert os. induction pre as [|x pre IH]; intros [|y os] L j; try discriminate.
    - cbn [app length]. rewrite Nat.add_0_r. destruct op, o; reflexivity.
    - cbn [length] in *. injection L as L.
      cbn [app]. specialize (IH os L (S j)). cbn [Nat.add] in IH. rewrite Nat.add_succ_r.
      destruct x; cbn [iters_from]; try exact IH. destruct y; cbn [app]; try exact IH. f_equal. exact IH.
  Qed.
  Lemma iters_snoc pre op os (o : res (pobs K V)) : length pre = length os ->
    iters (pre ++ [op]) (os ++ [o]) = iters pre os ++ match op, o with PIter m _ _, Ok _ => [(m, length pre)] | _, _ => [] end.
  Proof using Type. intros L. apply (iters_from_snoc pre op os o L 0). Qed.

  Lemma hist_in pre m x : In x (hist m pre) -> exists op, In op pre /\ In x (call_on m op).
  Proof using Type.
    induction pre as [|op pre IH] using rev_ind; [intros []|]. rewrite hist_snoc, in_app_iff. intros [H|H].
    - destruct (IH H) as (y & Hy & Hx). exists y. rewrite in_app_iff. auto.
    - destruct (m <? maps pre)%nat; [|destruct H]. exists op. rewrite in_app_iff. cbn [In]. auto.
  Qed.
End Snoc.

Lemma upd_nth {A} (l : list A) i j x y : nth_error (upd l i x) j = Some y ->
  (j = i /\ y = x /\ (i < length l)%nat) \/ (j <> i /\ nth_error l j = Some y).
Proof.
  intros H. destruct (Nat.eq_dec i j) as [<-|Hn].
  - left. pose proof (nth_lt _ _ _ H) as L. rewrite upd_length in L. rewrite upd_eq in H by exact L. inv H. auto.
  - right. rewrite upd_ne in H by exact Hn. auto.
Qed.

Section Sys.
  Context {K V : Type} (equalb : K -> K -> res bool) (compare : K -> K -> res Z).
  Notation tree := (tree K V).
  Notation heap := (@heap K V).
  Notation sys := (@sys K V).

  (** The trees in memory are the trees [ts] with the cells given, share no cell, and there is no infinite descent. *)
  Record sinv (h : heap) (trees : list ptree) (ts : list (tree * list nat)) : Prop := {
    si_len : length ts = length trees;
    si_tree : forall m p z t fp, nth_error trees m = Some (p, z) -> nth_error ts m = Some (t, fp) ->
      rep h p t fp /\ NoDup fp /\ bal t;
    si_disj : forall m1 m2 t1 f1 t2 f2 x, m1 <> m2 -> nth_error ts m1 = Some (t1, f1) -> nth_error ts m2 = Some (t2, f2) ->
      In x f1 -> In x f2 -> False;
    si_ground : grounded h
  }.

  Lemma sinv_get h trees ts m p z : sinv h trees ts -> nth_error trees m = Some (p, z) ->
    exists t fp, nth_error ts m = Some (t, fp) /\ rep h p t fp /\ NoDup fp /\ bal t.
  Proof using Type.
    clear. intros S H. destruct (nth_error ts m) as [[t fp]|] eqn:E.
    - exists t, fp. split; [reflexivity|]. eapply si_tree; eauto.
    - exfalso. apply nth_error_None in E. pose proof (nth_lt _ _ _ H). rewrite (si_len _ _ _ S) in E. lia.
  Qed.

  Lemma sinv_lt h trees ts m t fp x : sinv h trees ts -> nth_error ts m = Some (t, fp) -> In x fp -> (x < length h)%nat.
  Proof using Type.
    clear. intros S H Hx. destruct (nth_error trees m) as [[p z]|] eqn:E.
    - destruct (si_tree _ _ _ S _ _ _ _ _ E H) as (R & _). eapply rep_lt; eauto.
    - exfalso. apply nth_error_None in E. pose proof (nth_lt _ _ _ H). rewrite (si_len _ _ _ S) in *. lia.
  Qed.

  Lemma sinv_update h h' trees ts m p z t fp p' z' t' fp' :
    sinv h trees ts -> nth_error trees m = Some (p, z) -> nth_error ts m = Some (t, fp) ->
    rep h' p' t' fp' -> NoDup fp' -> bal t' -> change h h' fp fp' ->
    sinv h' (upd trees m (p', z')) (upd ts m (t', fp')).
  Proof using Type.
    clear. intros S Hp Ht R N B C. constructor.
    - rewrite !upd_length. exact (si_len _ _ _ S).
    - intros m' q y u f H1 H2. apply upd_nth in H1. apply upd_nth in H2.
      destruct H1 as [(-> & E1 & _)|(Hne & H1)]; destruct H2 as [(E0 & E2 & _)|(Hne' & H2)]; try congruence.
      + inv E1. inv E2. auto.
      + destruct (si_tree _ _ _ S _ _ _ _ _ H1 H2) as (R' & N' & B'). split; [|auto].
        apply (rep_frame h); [exact R'|]. intros x Hx. apply (proj2 (ch_keeps _ _ _ _ C)); [eapply rep_lt; eauto|].
        intros Hf. exact (si_disj _ _ _ S _ _ _ _ _ _ x Hne H2 Ht Hx Hf).
    - assert (X : forall m2 t2 f2 x, m2 <> m -> nth_error ts m2 = Some (t2, f2) -> In x fp' -> In x f2 -> False).
      { intros m2 t2 f2 x Hne H2 Hx Hx2. destruct (ch_new _ _ _ _ C x Hx) as [Hf|Hl].
        - exact (si_disj _ _ _ S _ _ _ _ _ _ x Hne H2 Ht Hx2 Hf).
        - pose proof (sinv_lt _ _ _ _ _ _ x S H2 Hx2). lia. }
      intros m1 m2 t1 f1 t2 f2 x Hne H1 H2 Hx1 Hx2. apply upd_nth in H1. apply upd_nth in H2.
      destruct H1 as [(-> & E1 & _)|(Hne1 & H1)]; destruct H2 as [(-> & E2 & _)|(Hne2 & H2)]; try congruence.
      + inv E1. eapply X; eauto.
      + inv E2. eapply X; eauto.
      + exact (si_disj _ _ _ S _ _ _ _ _ _ x Hne H1 H2 Hx1 Hx2).
    - eapply grounded_change; eauto. exact (si_ground _ _ _ S).
  Qed.

  Lemma sinv_new h trees ts : sinv h trees ts -> sinv h (trees ++ [(None, 0)]) (ts ++ [(Leaf, [])]).
  Proof using Type.
    clear. intros S. pose proof (si_len _ _ _ S) as L. constructor.
    - rewrite !app_length. cbn [length]. lia.
    - intros m p z t fp H1 H2. destruct (lt_dec m (length trees)) as [Hl|Hl].
      + rewrite nth_error_app1 in H1 by lia. rewrite nth_error_app1 in H2 by lia. eapply si_tree; eauto.
      + rewrite nth_error_app2 in H1 by lia. rewrite nth_error_app2 in H2 by lia. rewrite L in H2.
        destruct (m - length trees)%nat as [|[|]]; inv H1. inv H2. split; [apply rep_leaf|]. split; [constructor|exact I].
    - assert (X : forall m t f x, nth_error (ts ++ [(Leaf, [])]) m = Some (t, f) -> In x f -> nth_error ts m = Some (t, f)).
      { intros m t f x H Hx. destruct (lt_dec m (length ts)) as [Hl|Hl]; [now rewrite nth_error_app1 in H by lia|].
        rewrite nth_error_app2 in H by lia. destruct (m - length ts)%nat as [|[|]]; inv H. destruct Hx. }
      intros m1 m2 t1 f1 t2 f2 x Hne H1 H2 Hx1 Hx2. eapply (si_disj _ _ _ S m1 m2); eauto.
    - exact (si_ground _ _ _ S).
  Qed.

  (** ** Iterators *)
  Section Iters.
    Context (D : K -> Prop) (eqv lt : K -> K -> Prop).

    (** What map [m] held at some moment after the first [c] calls. *)
    Definition window (pre : list (pop K V)) (c m : nat) (e : K * V) : Prop :=
      exists j, (c <= j <= length pre)%nat /\ held eqv (firstn j pre) m (fst e) (snd e).

    Lemma window_mono pre op c m e : window pre c m e -> window (pre ++ [op]) c m e.
    Proof using Type.
      clear. intros (j & Hj & H). exists j. rewrite app_length. split; [cbn [length]; lia|].
      rewrite firstn_app. replace (j - length pre)%nat with O by lia. cbn [firstn]. now rewrite app_nil_r.
    Qed.

    Lemma window_now pre c m k v : (c <= length pre)%nat -> stored eqv (hist m pre) k v -> window pre c m (k, v).
    Proof using Type. clear. intros Hc H. exists (length pre). rewrite firstn_all. split; [lia|exact H]. Qed.

    Lemma window_dom pre c m e : Forall (keys_in D) pre -> window pre c m e -> D (fst e).
    Proof using Type.
      clear. intros F (j & _ & h1 & h2 & E & _).
      assert (Hin : In (MPut (fst e) (snd e)) (hist m (firstn j pre))) by (rewrite E; apply in_mid).
      apply hist_in in Hin. destruct Hin as (op & Hop & Hx).
      assert (Hop' : In op pre).
      { rewrite <- (firstn_skipn j pre). apply in_or_app. now left. }
      rewrite Forall_forall in F. specialize (F op Hop').
      destruct op as [|m' [k|] v|m' [k|]|m' k|m'|m' s0 e0|i|i|i]; cbn [call_on] in Hx; try contradiction;
        destruct (m' =? m)%nat; cbn [In] in Hx; try contradiction; destruct Hx as [Hx|Hx]; try contradiction; try discriminate.
      inv Hx. exact F.
    Qed.

    (** An iterator over map [m] made after [c] calls; [G] are the cells the map has used since. *)
    Record ginv (pre : list (pop K V)) (h : heap) (ts : list (tree * list nat)) (it : @piter K) (m c : nat) (G : nat -> Prop) : Prop := {
      gi_ok : it_ok D G it;
      gi_now : exists t fp, nth_error ts m = Some (t, fp) /\ forall x, In x fp -> G x;
      gi_closed : forall x, G x -> closed_cell h G (window pre c m) x;
      gi_apart : forall m' t fp x, m' <> m -> nth_error ts m' = Some (t, fp) -> In x fp -> ~ G x;
      gi_start : (c <= length pre)%nat
    }.

    Lemma it_ok_incl (G G' : nat -> Prop) (it : @piter K) : (forall x, G x -> G' x) -> it_ok D G it -> it_ok D G' it.
    Proof using Type.
      clear. intros H (H1 & H2 & H3 & H4 & H5).
      assert (P : forall p, points G p -> points G' p) by (intros p (a & Ha & Hg); exists a; auto).
      split; [destruct H1; auto|]. split; [eapply Forall_impl; [|exact H2]; exact P|]. auto.
    Qed.

    Lemma closed_cell_mono h (G G' : nat -> Prop) (E E' : K * V -> Prop) x :
      (forall y, G y -> G' y) -> (forall e, E e -> E' e) -> closed_cell h G E x -> closed_cell h G' E' x.
    Proof using Type. clear. intros HG HE (c & H1 & H2 & H3 & H4). exists c. split; [exact H1|]. split; auto. Qed.

    (** The iterator after a call that leaves the heap and the trees alone. *)
    Lemma ginv_same pre op h ts it it' m c G : ginv pre h ts it m c G -> it_ok D G it' -> ginv (pre ++ [op]) h ts it' m c G.
    Proof using Type.
      clear. intros [H1 H2 H3 H4 H5] H1'. constructor; auto.
      - intros x Hx. eapply closed_cell_mono; [| |exact (H3 x Hx)]; auto. intros e. apply window_mono.
      - rewrite app_length. lia.
    Qed.

    Lemma rep_closed h p (t : tree) fp (G : nat -> Prop) (E : K * V -> Prop) : rep h p t fp ->
      (forall x, In x fp -> G x) -> (forall e, In e (inorder t) -> E e) -> forall x, In x fp -> closed_cell h G E x.
    Proof using Type.
      clear. induction 1 as [|a k v b pl pr l r fl fr Ea Hl IHl Hr IHr]; intros HG HE x Hx; [destruct Hx|].
      cbn [inorder] in HE.
      apply in_app_or in Hx. destruct Hx as [Hx|[<-|Hx]].
      - apply IHl; [intros y Hy; apply HG|intros e He; apply HE|exact Hx]; apply in_or_app; auto.
      - exists (Cell k v b pl pr). split; [exact Ea|]. cbn [c_key c_val c_l c_r]. split; [apply HE, in_mid|].
        split; intros y ->; apply HG; apply in_or_app.
        + left. inv Hl. apply in_mid.
        + right. right. inv Hr. apply in_mid.
      - apply IHr; [intros y Hy; apply HG|intros e He; apply HE|exact Hx]; apply in_or_app; right; now right.
    Qed.

    (** The iterator after a call on map [m0]. *)
    Lemma ginv_change pre op h h' trees ts m0 p z t fp p' t' fp' it m c G :
      sinv h trees ts -> nth_error trees m0 = Some (p, z) -> nth_error ts m0 = Some (t, fp) ->
      rep h' p' t' fp' -> change h h' fp fp' ->
      (forall e, In e (inorder t') -> stored eqv (hist m0 (pre ++ [op])) (fst e) (snd e)) ->
      ginv pre h ts it m c G ->
      ginv (pre ++ [op]) h' (upd ts m0 (t', fp')) it m c (fun x => G x \/ (m = m0 /\ In x fp')).
    Proof using Type.
      clear. intros S Hp Ht R C Hst [H1 (u & f & Hu & Hf) H3 H4 H5].
      assert (Hlt : forall x, G x -> (x < length h)%nat).
      { intros x Hx. destruct (H3 x Hx) as (cx & Hc & _). eapply nth_lt; eauto. }
      constructor.
      - eapply it_ok_incl; [|exact H1]. auto.
      - destruct (Nat.eq_dec m m0) as [->|Hne].
        + exists t', fp'. split; [apply upd_eq; eapply nth_lt; eauto|auto].
        + exists u, f. split; [rewrite upd_ne by congruence; exact Hu|auto].
      - intros x Hx.
        destruct (Nat.eq_dec m m0) as [->|Hne].
        + rewrite Ht in Hu. inv Hu.
          destruct (in_dec Nat.eq_dec x fp') as [Hi|Hn].
          * eapply rep_closed; [exact R|auto| |exact Hi].
            intros [k v] He. apply window_now; [rewrite app_length; lia|]. apply (Hst _ He).
          * destruct Hx as [Hx|(_ & Hx)]; [|contradiction].
            assert (E : nth_error h' x = nth_error h x).
            { destruct (in_dec Nat.eq_dec x f) as [Hi2|Hn2]; [apply (ch_dead _ _ _ _ C); auto|].
              apply (proj2 (ch_keeps _ _ _ _ C)); auto. }
            destruct (H3 x Hx) as (cx & Hc & Hw & Hl & Hr). exists cx. rewrite E. split; [exact Hc|].
            split; [apply window_mono; exact Hw|]. split; intros y Hy; left; auto.
        + destruct Hx as [Hx|(Hx & _)]; [|contradiction].
          assert (E : nth_error h' x = nth_error h x).
          { apply (proj2 (ch_keeps _ _ _ _ C)); [auto|]. intros Hi. eapply H4; [|exact Ht|exact Hi|exact Hx]. congruence. }
          destruct (H3 x Hx) as (cx & Hc & Hw & Hl & Hr). exists cx. rewrite E. split; [exact Hc|].
          split; [apply window_mono; exact Hw|]. split; intros y Hy; left; auto.
      - intros m' t2 f2 x Hne H2 Hx. apply upd_nth in H2. destruct H2 as [(-> & E2 & _)|(Hne2 & H2)].
        + inv E2. intros [Hg|(-> & _)]; [|congruence]. destruct (ch_new _ _ _ _ C x Hx) as [Hi|Hl].
          * eapply H4; [exact Hne|exact Ht|exact Hi|exact Hg].
          * pose proof (Hlt x Hg). lia.
        + intros [Hg|(-> & Hg)].
          * eapply H4; [exact Hne|exact H2|exact Hx|exact Hg].
          * destruct (ch_new _ _ _ _ C x Hg) as [Hi|Hl].
            -- exact (si_disj _ _ _ S _ _ _ _ _ _ x Hne2 H2 Ht Hx Hi).
            -- pose proof (sinv_lt _ _ _ _ _ _ x S H2 Hx). lia.
      - rewrite app_length. lia.
    Qed.
  End Iters.
End Sys.
