(** * Put, Remove and Get on linked nodes do what AVLModel says, also when Equal or Compare panics. *)
From Coq Require Import List ZArith Bool Lia Arith.
From Verif Require Import Base BaseProofs AVLModel AVLSpec AVLProofs AVLPtrModel AVLPtrProofs AVLPtrRot.
Import ListNotations.
Local Open Scope Z_scope.

Section Ops.
  Context {K V : Type} (equalb : K -> K -> res bool) (compare : K -> K -> res Z).
  Notation tree := (tree K V).
  Notation heap := (@heap K V).

  (** Writing the cell of a node whose subtrees are in place. *)
  Lemma rep_write (h : heap) a c k v b pl pr (l r : tree) fl fr :
    nth_error h a = Some c -> rep h pl l fl -> rep h pr r fr -> NoDup (fl ++ a :: fr) ->
    rep (upd h a (Cell k v b pl pr)) (Some a) (Node k v b l r) (fl ++ a :: fr).
  Proof using Type.
    clear. intros E Rl Rr N. apply nodup_mid in N. destruct N as (_ & _ & N1 & N2 & _).
    eapply rep_node; [eapply upd_get; exact E| |].
    - apply (rep_frame h); [exact Rl|]. intros x Hx. apply upd_ne. intros ->. auto.
    - apply (rep_frame h); [exact Rr|]. intros x Hx. apply upd_ne. intros ->. auto.
  Qed.

  Lemma in_mid {A} (l1 l2 : list A) a : In a (l1 ++ a :: l2).
  Proof using Type. clear. apply in_or_app. right. now left. Qed.

  Lemma put_balance_ref (h : heap) p (t : tree) fp dir t' :
    rep h p t fp -> NoDup fp -> put_balance t dir = Ok t' ->
    exists h' p', p_put_balance p dir h = Some (h', Ok p') /\ rep h' p' t' fp /\ keeps fp h h' /\ length h' = length h.
  Proof using Type.
    clear. intros R N E. destruct t as [|k v b l r]; [destruct dir; discriminate|].
    destruct (rep_node_ptr _ _ _ _ _ _ _ _ R) as (a & pl & pr & fl & fr & -> & -> & Ea & Rl & Rr).
    pose proof (proj1 (nodup_mid _ _ _) N) as (Nl & Nr & Al & Ar & _).
    unfold put_balance in E. unfold p_put_balance.
    destruct dir; cbn [get_link rbind] in E.
    - destruct r as [|k2 v2 b2 l2 r2]; [discriminate|]. cbn [get_balance rbind set_balance set_link] in E.
      destruct (rep_node_ptr _ _ _ _ _ _ _ _ Rr) as (s & pl2 & pr2 & fl2 & fr2 & -> & -> & Es & Rl2 & Rr2).
      assert (a <> s) by (intros ->; apply Ar, in_mid).
      destruct (b2 =? dirbal true) eqn:Eb.
      + set (h1 := upd (upd h a (Cell k v 0 pl (Some s))) s (Cell k2 v2 0 pl2 pr2)).
        assert (R1 : rep h1 (Some a) (Node k v 0 l (Node k2 v2 0 l2 r2)) (fl ++ a :: fl2 ++ s :: fr2)).
        { assert (Rs : rep (upd h s (Cell k2 v2 0 pl2 pr2)) (Some s) (Node k2 v2 0 l2 r2) (fl2 ++ s :: fr2))
            by (eapply rep_write; eauto).
          eapply rep_node; [unfold h1; cells| |].
          - apply (rep_frame h); [exact Rl|]. intros x Hx. unfold h1. 
            assert (a <> x) by (intros ->; auto).
            assert (s <> x) by (intros ->; apply nodup_mid in N; destruct N as (_ & _ & _ & _ & N); eapply N; [exact Hx|apply in_mid]).
            now rewrite !upd_ne by assumption.
          - apply (rep_frame _ _ _ _ _ Rs). intros x Hx. unfold h1.
            destruct (Nat.eq_dec x s) as [->|Hn].
            + rewrite (upd_get _ _ _ _ Es). eapply upd_get. rewrite upd_ne by congruence. exact Es.
            + rewrite !upd_ne; auto. intros ->. auto. }
        destruct (single_ref h1 _ _ _ (opp true) t' R1 N E) as (h' & p' & HS & R' & K' & L').
        exists h', p'. split; [run; rewrite Eb; run; exact HS|]. split; [exact R'|]. split.
        * eapply keeps_trans; [|exact K']. unfold h1. eapply keeps_trans; apply keeps_upd; [apply in_mid|].
          apply in_or_app. right. right. apply in_mid.
        * rewrite L'. unfold h1. now rewrite !upd_length.
      + destruct (adjust_balance (Node k v b l (Node k2 v2 b2 l2 r2)) true (dirbal true)) as [t1| |] eqn:E1; try discriminate.
        cbn [rbind] in E.
        destruct (adjust_ref h _ _ _ _ _ t1 R N E1) as (h1 & H1 & R1 & K1 & L1).
        destruct (double_ref h1 _ _ _ (opp true) t' R1 N E) as (h' & p' & HS & R' & K' & L').
        exists h', p'. split; [run; rewrite Eb, (bind_ok _ _ _ _ _ H1); exact HS|]. split; [exact R'|]. split; [eapply keeps_trans; eauto|congruence].
    - destruct l as [|k2 v2 b2 l2 r2]; [discriminate|]. cbn [get_balance rbind set_balance set_link] in E.
      destruct (rep_node_ptr _ _ _ _ _ _ _ _ Rl) as (s & pl2 & pr2 & fl2 & fr2 & -> & -> & Es & Rl2 & Rr2).
      assert (a <> s) by (intros ->; apply Al, in_mid).
      destruct (b2 =? dirbal false) eqn:Eb.
      + set (h1 := upd (upd h a (Cell k v 0 (Some s) pr)) s (Cell k2 v2 0 pl2 pr2)).
        assert (R1 : rep h1 (Some a) (Node k v 0 (Node k2 v2 0 l2 r2) r) ((fl2 ++ s :: fr2) ++ a :: fr)).
        { assert (Rs : rep (upd h s (Cell k2 v2 0 pl2 pr2)) (Some s) (Node k2 v2 0 l2 r2) (fl2 ++ s :: fr2))
            by (eapply rep_write; eauto).
          eapply rep_node; [unfold h1; cells| |].
          - apply (rep_frame _ _ _ _ _ Rs). intros x Hx. unfold h1.
            destruct (Nat.eq_dec x s) as [->|Hn].
            + rewrite (upd_get _ _ _ _ Es). eapply upd_get. rewrite upd_ne by congruence. exact Es.
            + rewrite !upd_ne; auto. intros ->. auto.
          - apply (rep_frame h); [exact Rr|]. intros x Hx. unfold h1. 
            assert (a <> x) by (intros ->; auto).
            assert (s <> x) by (intros ->; apply nodup_mid in N; destruct N as (_ & _ & _ & _ & N); eapply N; [apply in_mid|exact Hx]).
            now rewrite !upd_ne by assumption. }
        destruct (single_ref h1 _ _ _ (opp false) t' R1 N E) as (h' & p' & HS & R' & K' & L').
        exists h', p'. split; [run; rewrite Eb; run; exact HS|]. split; [exact R'|]. split.
        * eapply keeps_trans; [|exact K']. unfold h1. eapply keeps_trans; apply keeps_upd; [apply in_mid|].
          apply in_or_app. left. apply in_mid.
        * rewrite L'. unfold h1. now rewrite !upd_length.
      + destruct (adjust_balance (Node k v b (Node k2 v2 b2 l2 r2) r) false (dirbal false)) as [t1| |] eqn:E1; try discriminate.
        cbn [rbind] in E.
        destruct (adjust_ref h _ _ _ _ _ t1 R N E1) as (h1 & H1 & R1 & K1 & L1).
        destruct (double_ref h1 _ _ _ (opp false) t' R1 N E) as (h' & p' & HS & R' & K' & L').
        exists h', p'. split; [run; rewrite Eb, (bind_ok _ _ _ _ _ H1); exact HS|]. split; [exact R'|]. split; [eapply keeps_trans; eauto|congruence].
  Qed.

  (** Setting the balance of a node and of its child on side [dir]. *)
  Lemma two_bal (h : heap) p (t : tree) fp dir x y n n' t1 t2 :
    rep h p t fp -> NoDup fp -> get_link t dir = Ok n -> set_balance n y = Ok n' -> set_balance t x = Ok t1 ->
    set_link t1 dir n' = Ok t2 ->
    exists a s ca cs, p = Some a /\ nth_error h a = Some ca /\ c_link ca dir = Some s /\ nth_error h s = Some cs /\ a <> s /\
      get_balance n = Ok (c_bal cs) /\ In s fp /\ In a fp /\
      rep (upd (upd h a (with_bal x ca)) s (with_bal y cs)) (Some a) t2 fp.
  Proof using Type.
    clear. intros R N E1 E2 E3 E4. destruct t as [|k v b l r]; [discriminate|]. inv E3.
    destruct (rep_node_ptr _ _ _ _ _ _ _ _ R) as (a & pl & pr & fl & fr & -> & -> & Ea & Rl & Rr).
    pose proof (proj1 (nodup_mid _ _ _) N) as (Nl & Nr & Al & Ar & Dj).
    cbn [get_link] in E1. inv E1. destruct dir.
    - destruct r as [|k2 v2 b2 l2 r2]; [discriminate|]. inv E2. inv E4.
      destruct (rep_node_ptr _ _ _ _ _ _ _ _ Rr) as (s & pl2 & pr2 & fl2 & fr2 & -> & -> & Es & Rl2 & Rr2).
      assert (a <> s) by (intros ->; apply Ar, in_mid).
      exists a, s. do 2 eexists. split; [reflexivity|]. split; [exact Ea|]. split; [reflexivity|]. split; [exact Es|].
      split; [assumption|]. split; [reflexivity|]. split; [|split; [apply in_mid|]].
      { apply in_or_app. right. right. apply in_mid. }
      cbn [with_bal c_key c_val c_l c_r].
      assert (Rs : rep (upd h s (Cell k2 v2 y pl2 pr2)) (Some s) (Node k2 v2 y l2 r2) (fl2 ++ s :: fr2))
        by (eapply rep_write; eauto).
      eapply rep_node; [cells| |].
      + apply (rep_frame h); [exact Rl|]. intros z Hz.
        assert (a <> z) by (intros ->; auto). assert (s <> z) by (intros ->; eapply Dj; [exact Hz|apply in_mid]).
        now rewrite !upd_ne by assumption.
      + apply (rep_frame _ _ _ _ _ Rs). intros z Hz. destruct (Nat.eq_dec s z) as [<-|Hn].
        * rewrite (upd_get _ _ _ _ Es). eapply upd_get. rewrite upd_ne by congruence. exact Es.
        * assert (a <> z) by (intros ->; auto). now rewrite !upd_ne by assumption.
    - destruct l as [|k2 v2 b2 l2 r2]; [discriminate|]. inv E2. inv E4.
      destruct (rep_node_ptr _ _ _ _ _ _ _ _ Rl) as (s & pl2 & pr2 & fl2 & fr2 & -> & -> & Es & Rl2 & Rr2).
      assert (a <> s) by (intros ->; apply Al, in_mid).
      exists a, s. do 2 eexists. split; [reflexivity|]. split; [exact Ea|]. split; [reflexivity|]. split; [exact Es|].
      split; [assumption|]. split; [reflexivity|]. split; [|split; [apply in_mid|]].
      { apply in_or_app. left. apply in_mid. }
      cbn [with_bal c_key c_val c_l c_r].
      assert (Rs : rep (upd h s (Cell k2 v2 y pl2 pr2)) (Some s) (Node k2 v2 y l2 r2) (fl2 ++ s :: fr2))
        by (eapply rep_write; eauto).
      eapply rep_node; [cells| |].
      + apply (rep_frame _ _ _ _ _ Rs). intros z Hz. destruct (Nat.eq_dec s z) as [<-|Hn].
        * rewrite (upd_get _ _ _ _ Es). eapply upd_get. rewrite upd_ne by congruence. exact Es.
        * assert (a <> z) by (intros ->; auto). now rewrite !upd_ne by assumption.
      + apply (rep_frame h); [exact Rr|]. intros z Hz.
        assert (a <> z) by (intros ->; auto). assert (s <> z) by (intros ->; eapply Dj; [apply in_mid|exact Hz]).
        now rewrite !upd_ne by assumption.
  Qed.

  Lemma remove_balance_ref (h : heap) p (t : tree) fp dir t' done :
    rep h p t fp -> NoDup fp -> remove_balance t dir = Ok (t', done) ->
    exists h' p', p_remove_balance p dir h = Some (h', Ok (p', done)) /\ rep h' p' t' fp /\ keeps fp h h' /\ length h' = length h.
  Proof using Type.
    clear. intros R N E. unfold remove_balance in E.
    destruct (get_link t (opp dir)) as [n| |] eqn:En; try discriminate. cbn [rbind] in E.
    destruct (get_balance n) as [nb| |] eqn:Enb; try discriminate. cbn [rbind] in E.
    assert (TB : forall x y, exists n' t1 t2, set_balance n y = Ok n' /\ set_balance t x = Ok t1 /\ set_link t1 (opp dir) n' = Ok t2).
    { intros x y. destruct t; [discriminate|]. destruct n; [discriminate|]. do 3 eexists. repeat split. }
    assert (ST : forall x y d, (let? root1 := set_balance t x in let? n' := set_balance n y in
        let? root2 := set_link root1 (opp dir) n' in let? root3 := single root2 dir in Ok (root3, d)) = Ok (t', done) ->
      exists h' p' a s ca cs, p = Some a /\ nth_error h a = Some ca /\ c_link ca (opp dir) = Some s /\ nth_error h s = Some cs /\
        a <> s /\ c_bal cs = nb /\ d = done /\
        p_single p dir (upd (upd h a (with_bal x ca)) s (with_bal y cs)) = Some (h', Ok p') /\
        rep h' p' t' fp /\ keeps fp h h' /\ length h' = length h).
    { intros x y d H. destruct (TB x y) as (n' & t1 & t2 & H1 & H2 & H3). rewrite H1, H2 in H. cbn [rbind] in H.
      rewrite H3 in H. cbn [rbind] in H. destruct (single t2 dir) as [t3| |] eqn:E3; try discriminate. inv H.
      destruct (two_bal h p t fp (opp dir) x y n n' t1 t2 R N En H1 H2 H3) as (a & s & ca & cs & -> & Ea & El & Es & Hne & Hb & Is & Ia & R2).
      destruct (single_ref _ _ _ _ dir t' R2 N E3) as (h' & p' & HS & R' & K' & L').
      exists h', p', a, s, ca, cs. split; [reflexivity|]. split; [exact Ea|]. split; [exact El|]. split; [exact Es|].
      split; [exact Hne|]. split; [congruence|]. split; [reflexivity|]. split; [exact HS|]. split; [exact R'|]. split.
      - eapply keeps_trans; [|exact K']. eapply keeps_trans; apply keeps_upd; assumption.
      - rewrite L'. now rewrite !upd_length. }
    unfold p_remove_balance. destruct (nb =? - dirbal dir) eqn:E1; [|destruct (nb =? dirbal dir) eqn:E2].
    - destruct (ST _ _ _ E) as (h' & p' & a & s & ca & cs & -> & Ea & El & Es & Hne & Hb & Hd & HS & R' & K' & L').
      exists h', p'. split; [|auto]. run1. rewrite El. run1. rewrite Hb, E1. run1. run1.
      rewrite (bind_ok _ _ _ _ _ HS). now subst done.
    - destruct (adjust_balance t (opp dir) (- dirbal dir)) as [t1| |] eqn:E3; try discriminate. cbn [rbind] in E.
      destruct (double t1 dir) as [t2| |] eqn:E4; try discriminate. inv E.
      destruct (TB 0 0) as (n' & t3 & t4 & H1 & H2 & H3).
      destruct (two_bal h p t fp (opp dir) 0 0 n n' t3 t4 R N En H1 H2 H3) as (a & s & ca & cs & -> & Ea & El & Es & Hne & Hb & Is & Ia & _).
      destruct (adjust_ref h _ _ _ _ _ t1 R N E3) as (h1 & HA & R1 & K1 & L1).
      destruct (double_ref h1 _ _ _ dir t' R1 N E4) as (h' & p' & HD & R' & K' & L').
      exists h', p'. split; [|split; [exact R'|split; [eapply keeps_trans; eauto|congruence]]].
      run1. rewrite El. run1. assert (Hc : c_bal cs = nb) by congruence. rewrite Hc, E1, E2.
      rewrite (bind_ok _ _ _ _ _ HA), (bind_ok _ _ _ _ _ HD). reflexivity.
    - destruct (ST _ _ _ E) as (h' & p' & a & s & ca & cs & -> & Ea & El & Es & Hne & Hb & Hd & HS & R' & K' & L').
      exists h', p'. split; [|auto]. run1. rewrite El. run1. rewrite Hb, E1, E2. run1. run1.
      rewrite (bind_ok _ _ _ _ _ HS). now subst done.
  Qed.
End Ops.
