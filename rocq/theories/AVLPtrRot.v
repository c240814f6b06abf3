(** * Rotations and balance updates on linked nodes. *)
From Coq Require Import List ZArith Bool Lia Arith.
From Verif Require Import Base BaseProofs AVLModel AVLSpec AVLProofs AVLPtrModel AVLPtrProofs.
Import ListNotations.
Local Open Scope Z_scope.

Section Rot.
  Context {K V : Type}.
  Notation tree := (tree K V).
  Notation heap := (@heap K V).

  (** Facts about the pieces of a footprint without repetitions, at the address [y]. *)
  Ltac nd y :=
    repeat match goal with
      | H : NoDup (_ ++ _ :: _) |- _ => apply (proj1 (nodup_mid _ _ _)) in H; destruct H as (? & ? & ? & ? & ?)
      end;
    repeat match goal with F : forall x, In x _ -> In x _ -> False |- _ => specialize (F y) end;
    repeat (progress (repeat rewrite in_app_iff in *; cbn [In] in * )); tauto.
  Ltac differ a b := assert (a <> b) by (let E := fresh in intros E; subst; first [nd a | nd b]).
  Ltac framed H :=
    apply (rep_frame _ _ _ _ _ H); let x := fresh in let Hx := fresh in
    intros x Hx; rewrite !upd_ne; [reflexivity|..]; let E := fresh in intros E; subst; nd x.
  Ltac kept := repeat (first [apply keeps_refl | eapply keeps_trans; [|apply keeps_upd; repeat (rewrite in_app_iff; cbn [In]); tauto]]).
  Ltac node R a pl pr fl fr Es Rl Rr :=
    destruct (rep_node_ptr _ _ _ _ _ _ _ _ R) as (a & pl & pr & fl & fr & -> & -> & Es & Rl & Rr); clear R.

  Lemma single_ref h p (t : tree) fp dir t' :
    rep h p t fp -> NoDup fp -> single t dir = Ok t' ->
    exists h' p', p_single p dir h = Some (h', Ok p') /\ rep h' p' t' fp /\ keeps fp h h' /\ length h' = length h.
  Proof using Type.
    intros R N E. destruct t as [|k v b l r]; [destruct dir; discriminate|].
    node R a pl pr fl fr Ea Rl Rr. destruct dir.
    - destruct l as [|k2 v2 b2 l2 r2]; [discriminate|]. inv E.
      node Rl s pl2 pr2 fl2 fr2 Es Rl2 Rr2. differ a s.
      eexists _, _. split; [|split; [|split]].
      + unfold p_single. cbn [opp negb]. run. reflexivity.
      + rewrite <- app_assoc. cbn [app]. eapply rep_node; [cells| |eapply rep_node; [cells| |]].
        * framed Rl2.
        * framed Rr2.
        * framed Rr.
      + kept.
      + rewrite !upd_length. reflexivity.
    - destruct r as [|k2 v2 b2 l2 r2]; [discriminate|]. inv E.
      node Rr s pl2 pr2 fl2 fr2 Es Rl2 Rr2. differ a s.
      eexists _, _. split; [|split; [|split]].
      + unfold p_single. cbn [opp negb]. run. reflexivity.
      + change (fl ++ a :: fl2 ++ s :: fr2) with (fl ++ (a :: fl2) ++ s :: fr2). rewrite app_assoc.
        eapply rep_node; [cells|eapply rep_node; [cells| |]|].
        * framed Rl.
        * framed Rl2.
        * framed Rr2.
      + kept.
      + rewrite !upd_length. reflexivity.
  Qed.

  Lemma double_ref h p (t : tree) fp dir t' :
    rep h p t fp -> NoDup fp -> double t dir = Ok t' ->
    exists h' p', p_double p dir h = Some (h', Ok p') /\ rep h' p' t' fp /\ keeps fp h h' /\ length h' = length h.
  Proof using Type.
    intros R N E. destruct t as [|k v b l r]; [destruct dir; discriminate|].
    node R a pl pr fl fr Ea Rl Rr. destruct dir.
    - destruct l as [|k2 v2 b2 l2 r2]; [discriminate|]. destruct r2 as [|k3 v3 b3 l3 r3]; [discriminate|]. inv E.
      node Rl s pl2 pr2 fl2 fr2 Es Rl2 Rr2. node Rr2 c pl3 pr3 fl3 fr3 Ec Rl3 Rr3. differ a s. differ a c. differ s c.
      eexists _, _. split; [|split; [|split]].
      + unfold p_double. cbn [opp negb]. run. reflexivity.
      + replace ((fl2 ++ s :: fl3 ++ c :: fr3) ++ a :: fr) with ((fl2 ++ s :: fl3) ++ c :: (fr3 ++ a :: fr))
          by (repeat (rewrite <- app_assoc; cbn [app]); reflexivity).
        eapply rep_node; [cells|eapply rep_node; [cells| |]|eapply rep_node; [cells| |]].
        * framed Rl2.
        * framed Rl3.
        * framed Rr3.
        * framed Rr.
      + kept.
      + rewrite !upd_length. reflexivity.
    - destruct r as [|k2 v2 b2 l2 r2]; [discriminate|]. destruct l2 as [|k3 v3 b3 l3 r3]; [discriminate|]. inv E.
      node Rr s pl2 pr2 fl2 fr2 Es Rl2 Rr2. node Rl2 c pl3 pr3 fl3 fr3 Ec Rl3 Rr3. differ a s. differ a c. differ s c.
      eexists _, _. split; [|split; [|split]].
      + unfold p_double. cbn [opp negb]. run. reflexivity.
      + replace (fl ++ a :: (fl3 ++ c :: fr3) ++ s :: fr2) with ((fl ++ a :: fl3) ++ c :: (fr3 ++ s :: fr2))
          by (repeat (rewrite <- app_assoc; cbn [app]); reflexivity).
        eapply rep_node; [cells|eapply rep_node; [cells| |]|eapply rep_node; [cells| |]].
        * framed Rl.
        * framed Rl3.
        * framed Rr3.
        * framed Rr2.
      + kept.
      + rewrite !upd_length. reflexivity.
  Qed.

  Lemma adjust_ref h p (t : tree) fp dir bal t' :
    rep h p t fp -> NoDup fp -> adjust_balance t dir bal = Ok t' ->
    exists h', p_adjust_balance p dir bal h = Some (h', Ok tt) /\ rep h' p t' fp /\ keeps fp h h' /\ length h' = length h.
  Proof using Type.
    intros R N E. destruct t as [|k v b l r]; [destruct dir; discriminate|].
    node R a pl pr fl fr Ea Rl Rr. destruct dir.
    - destruct r as [|k2 v2 b2 l2 r2]; [discriminate|]. destruct l2 as [|k3 v3 b3 l3 r3]; [discriminate|].
      node Rr s pl2 pr2 fl2 fr2 Es Rl2 Rr2. node Rl2 c pl3 pr3 fl3 fr3 Ec Rl3 Rr3. differ a s. differ a c. differ s c.
      unfold adjust_balance in E. cbn [rbind get_link get_balance set_balance set_link opp negb] in E.
      unfold p_adjust_balance. cbn [opp negb].
      assert (G : exists rb nb, t' = Node k v rb l (Node k2 v2 nb (Node k3 v3 0 l3 r3) r2) /\
        (if b3 =? 0 then (0, 0) else if b3 =? bal then (- bal, 0) else (0, bal)) = (rb, nb)).
      { destruct (if b3 =? 0 then _ else _) as [rb nb]. inv E. eauto. }
      destruct G as (rb & nb & -> & G). clear E.
      exists (upd (upd (upd h a (Cell k v rb pl (Some s))) s (Cell k2 v2 nb (Some c) pr2)) c (Cell k3 v3 0 pl3 pr3)).
      split; [|split; [|split]].
      + run. erewrite (bind_ok _ _ _ (upd (upd h a (Cell k v rb pl (Some s))) s (Cell k2 v2 nb (Some c) pr2)) tt).
        * erewrite store_some by cells. reflexivity.
        * destruct (b3 =? 0); [|destruct (b3 =? bal)]; inv G; run; erewrite store_some by cells; reflexivity.
      + eapply rep_node; [cells| |eapply rep_node; [cells|eapply rep_node; [cells| |]|]].
        * framed Rl.
        * framed Rl3.
        * framed Rr3.
        * framed Rr2.
      + kept.
      + rewrite !upd_length. reflexivity.
    - destruct l as [|k2 v2 b2 l2 r2]; [discriminate|]. destruct r2 as [|k3 v3 b3 l3 r3]; [discriminate|].
      node Rl s pl2 pr2 fl2 fr2 Es Rl2 Rr2. node Rr2 c pl3 pr3 fl3 fr3 Ec Rl3 Rr3. differ a s. differ a c. differ s c.
      unfold adjust_balance in E. cbn [rbind get_link get_balance set_balance set_link opp negb] in E.
      unfold p_adjust_balance. cbn [opp negb].
      assert (G : exists rb nb, t' = Node k v rb (Node k2 v2 nb l2 (Node k3 v3 0 l3 r3)) r /\
        (if b3 =? 0 then (0, 0) else if b3 =? bal then (- bal, 0) else (0, bal)) = (rb, nb)).
      { destruct (if b3 =? 0 then _ else _) as [rb nb]. inv E. eauto. }
      destruct G as (rb & nb & -> & G). clear E.
      exists (upd (upd (upd h a (Cell k v rb (Some s) pr)) s (Cell k2 v2 nb pl2 (Some c))) c (Cell k3 v3 0 pl3 pr3)).
      split; [|split; [|split]].
      + run. erewrite (bind_ok _ _ _ (upd (upd h a (Cell k v rb (Some s) pr)) s (Cell k2 v2 nb pl2 (Some c))) tt).
        * erewrite store_some by cells. reflexivity.
        * destruct (b3 =? 0); [|destruct (b3 =? bal)]; inv G; run; erewrite store_some by cells; reflexivity.
      + eapply rep_node; [cells|eapply rep_node; [cells| |eapply rep_node; [cells| |]]|].
        * framed Rl2.
        * framed Rl3.
        * framed Rr3.
        * framed Rr.
      + kept.
      + rewrite !upd_length. reflexivity.
  Qed.
End Rot.
