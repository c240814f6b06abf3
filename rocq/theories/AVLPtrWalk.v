(** * Iterators over a map whose keys do not change. *)
From Coq Require Import List ZArith Bool Lia Arith.
From Verif Require Import Base BaseProofs AVLModel MapSpec AVLSpec MapProofs AVLProofs AVLHistory AVLPtrModel AVLPtrProofs AVLPtrOps AVLPtrPut
  AVLPtrRemove AVLPtrCalls AVLPtrMono AVLPtrSpec AVLPtrIter AVLPtrSys AVLPtrHistory.
Import ListNotations.
Local Open Scope Z_scope.

Section Shape.
  Context {K V : Type} (compare : K -> K -> res Z).
  Notation tree := (tree K V).
  Notation heap := (@heap K V).

  (** The cells below [p] from left to right. *)
  Inductive shape (h : heap) : ptr -> list nat -> Prop :=
  | shape_nil : shape h None []
  | shape_node : forall a c fl fr, nth_error h a = Some c -> shape h (c_l c) fl -> shape h (c_r c) fr ->
      shape h (Some a) (fl ++ a :: fr).
  (** The cells still to come for the stack [ps]. *)
  Inductive after (h : heap) : list ptr -> list nat -> Prop :=
  | after_nil : after h [] []
  | after_cons : forall a c fr ps rest, nth_error h a = Some c -> shape h (c_r c) fr -> after h ps rest ->
      after h (Some a :: ps) (a :: fr ++ rest).

  (** An iterator without bounds that has the cells [rest] before it. *)
  Definition at_pos (h : heap) (i : @piter K) (rest : list nat) : Prop :=
    hi_start i = None /\ hi_end i = None /\
    ((hi_curr i = None /\ hi_paths i = [] /\ rest = []) \/
     (hi_pos i = 0 /\ hi_curr i <> None /\ after h (hi_curr i :: hi_paths i) rest) \/
     (hi_pos i = 1 /\ exists a c fr rest', hi_curr i = Some a /\ nth_error h a = Some c /\ shape h (c_r c) fr /\
        after h (hi_paths i) rest' /\ rest = fr ++ rest')).
  (** The same after advance. *)
  Definition at_front (h : heap) (i : @piter K) (rest : list nat) : Prop :=
    hi_start i = None /\ hi_end i = None /\
    ((hi_curr i = None /\ hi_paths i = [] /\ rest = []) \/
     (hi_pos i = 0 /\ hi_curr i <> None /\ after h (hi_curr i :: hi_paths i) rest)).

  Lemma rep_shape h p (t : tree) fp : rep h p t fp -> shape h p fp.
  Proof using Type. clear. induction 1; [constructor|]. econstructor; eauto. Qed.

  (** Only the links of the cells in [fp] matter. *)
  Lemma shape_frame h h' p fp : shape h p fp -> 
    (forall x c, In x fp -> nth_error h x = Some c -> exists c', nth_error h' x = Some c' /\ c_l c' = c_l c /\ c_r c' = c_r c) ->
    shape h' p fp.
  Proof using Type.
    clear. induction 1 as [|a c fl fr Ha Hl IHl Hr IHr]; intros F; [constructor|].
    destruct (F a c (in_mid _ _ _) Ha) as (c' & Hc & El & Er). econstructor; [exact Hc| |].
    - rewrite El. apply IHl. intros x cx Hx. apply F. apply in_or_app. auto.
    - rewrite Er. apply IHr. intros x cx Hx. apply F. apply in_or_app. right. now right.
  Qed.
  Lemma after_frame h h' ps rest : after h ps rest -> 
    (forall x c, In x rest -> nth_error h x = Some c -> exists c', nth_error h' x = Some c' /\ c_l c' = c_l c /\ c_r c' = c_r c) ->
    after h' ps rest.
  Proof using Type.
    clear. induction 1 as [|a c fr ps rest Ha Hr Hp IH]; intros F; [constructor|].
    destruct (F a c (or_introl eq_refl) Ha) as (c' & Hc & El & Er). econstructor; [exact Hc| |].
    - rewrite Er. eapply shape_frame; [exact Hr|]. intros x cx Hx. apply F. right. apply in_or_app. auto.
    - apply IH. intros x cx Hx. apply F. right. apply in_or_app. auto.
  Qed.
  (** [a], the current cell of an iterator that stands behind it, lies in [fp] as well. *)
  Lemma at_pos_frame h h' i rest fp : at_pos h i rest -> incl rest fp ->
    (hi_pos i = 1 -> forall a, hi_curr i = Some a -> In a fp) ->
    (forall x c, In x fp -> nth_error h x = Some c -> exists c', nth_error h' x = Some c' /\ c_l c' = c_l c /\ c_r c' = c_r c) ->
    at_pos h' i rest.
  Proof using Type.
    clear. intros (H1 & H2 & H3) HI Hcur F. split; [exact H1|]. split; [exact H2|].
    destruct H3 as [H3|[(P & C & A)|(P & a & c & fr & rest' & C & Ha & S & A & E)]]; [auto| |].
    - right. left. split; [exact P|]. split; [exact C|]. eapply after_frame; [exact A|]. intros x cx Hx. apply F. auto.
    - right. right. split; [exact P|]. destruct (F a c (Hcur P a C) Ha) as (c' & Hc & El & Er).
      exists a, c', fr, rest'. split; [exact C|]. split; [exact Hc|]. subst rest. split; [|split; [|reflexivity]].
      + rewrite Er. eapply shape_frame; [exact S|]. intros x cx Hx. apply F. apply HI, in_or_app. auto.
      + eapply after_frame; [exact A|]. intros x cx Hx. apply F. apply HI, in_or_app. auto.
  Qed.

  Lemma walk_to h a fl : shape h (Some a) fl -> forall i rest, hi_curr i = Some a -> hi_pos i = 0 -> after h (hi_paths i) rest ->
    exists i', runs i_walk_left h i i' (Ok tt) /\ hi_start i' = hi_start i /\ hi_end i' = hi_end i /\ hi_pos i' = 0 /\
      hi_curr i' <> None /\ after h (hi_curr i' :: hi_paths i') (fl ++ rest).
  Proof using Type.
    clear. intros S. remember (Some a) as p eqn:Ep. revert a Ep.
    induction S as [|a c fl fr Ha Hl IHl Hr _]; intros a0 Ep i rest Hi Hp A; [discriminate|]. inv Ep.
    destruct (c_l c) as [y|] eqn:El.
    - set (i1 := move (hi_curr i :: hi_paths i) (Some y) i).
      destruct (IHl y eq_refl i1 (a0 :: fr ++ rest)) as (i' & (n0 & Hr') & H1 & H2 & H3 & H4 & H5); [reflexivity|reflexivity| |].
      { unfold i1. cbn [move hi_paths]. rewrite Hi. econstructor; eauto. }
      exists i'. split; [|split; [exact H1|split; [exact H2|split; [exact H3|split; [exact H4|]]]]].
      + exists (S n0). intros [|n] Hn; [lia|]. cbn [i_walk_left]. unfold ibind at 1. cbn [iget]. unfold ibind at 1, iload.
        rewrite Hi, Ha, El. unfold ibind at 1. cbn [iset]. rewrite <- Hi. apply Hr'. lia.
      + rewrite <- app_assoc. exact H5.
    - inv Hl. exists i. split; [|split; [auto|split; [auto|split; [auto|split; [congruence|]]]]].
      + exists 1%nat. intros [|n] Hn; [lia|]. cbn [i_walk_left]. unfold ibind at 1. cbn [iget]. unfold ibind at 1, iload.
        rewrite Hi, Ha, El. reflexivity.
      + rewrite Hi. cbn [app]. econstructor; eauto.
  Qed.

  Lemma advance_to h i rest : at_pos h i rest -> exists i', runs (i_advance compare) h i i' (Ok tt) /\ at_front h i' rest.
  Proof using Type.
    intros (H1 & H2 & H3). destruct H3 as [(C & P & E)|[(P & C & A)|(P & a & c & fr & rest' & C & Ha & S & A & E)]].
    - exists i. split; [|split; [exact H1|split; [exact H2|auto]]]. exists O. intros n _. unfold i_advance, ibind. cbn [iget].
      rewrite C, P. reflexivity.
    - exists i. split; [|split; [exact H1|split; [exact H2|auto]]]. exists O. intros n _. unfold i_advance, ibind at 1. cbn [iget].
      destruct (hi_curr i) as [a|]; [|congruence]. unfold i_switch, ibind at 1. cbn [iget]. rewrite P. cbv iota. change (0 =? 0) with true. cbv iota.
      unfold i_filters, ibind at 1. cbn [iget]. rewrite H1. unfold ibind at 1. cbn [iret]. unfold ibind at 1. cbn [iget].
      rewrite H2. reflexivity.
    - assert (SW : forall n, i_advance compare n h i = match c_r c with
        | Some _ => (ibind (iset (move (hi_paths i) (c_r c) i)) (fun _ => ibind (i_walk_left n) (fun _ => i_filters compare n))) h i
        | None => match hi_paths i with
            | p :: ps => (ibind (iset (move ps p i)) (fun _ => i_filters compare n)) h i
            | [] => Some (PIt [] None (hi_pos i) None None, Ok tt)
            end
        end).
      { intros n. unfold i_advance, ibind at 1. cbn [iget]. rewrite C. unfold i_switch, ibind at 1. cbn [iget]. rewrite P.
        change (1 =? 0) with false. change (1 =? 1) with true. cbv iota. unfold ibind at 1, iload. rewrite C, Ha.
        destruct (c_r c); [reflexivity|]. destruct (hi_paths i); [|reflexivity]. reflexivity. }
      assert (FI : forall n i1, hi_start i1 = None -> hi_end i1 = None -> i_filters compare n h i1 = Some (i1, Ok tt)).
      { intros n i1 S1 E1. unfold i_filters, ibind at 1. cbn [iget]. rewrite S1. unfold ibind at 1. cbn [iret]. unfold ibind at 1. cbn [iget].
        now rewrite E1. }
      destruct (c_r c) as [y|] eqn:Er.
      + set (i1 := move (hi_paths i) (Some y) i).
        destruct (walk_to h y fr S i1 rest') as (i2 & (n0 & Hr) & W1 & W2 & W3 & W4 & W5); [reflexivity|reflexivity|exact A|].
        exists i2. split.
        * exists n0. intros n Hn. rewrite SW. unfold ibind at 1. cbn [iset]. fold i1. unfold ibind. rewrite Hr by exact Hn. apply FI.
          -- rewrite W1. exact H1.
          -- rewrite W2. exact H2.
        * split; [rewrite W1; exact H1|]. split; [rewrite W2; exact H2|]. right. subst rest. auto.
      + inv S. cbn [app]. inversion A as [Ep Erest|b cb fb ps r2 Hb Sb Ab Ep Erest].
        * rewrite <- Ep in SW. exists (PIt [] None (hi_pos i) None None). split; [exists O; intros n _; apply SW|].
          split; [reflexivity|]. split; [reflexivity|]. auto.
        * rewrite <- Ep in SW. exists (move ps (Some b) i). split.
          -- exists O. intros n _. rewrite SW. unfold ibind. cbn [iset]. apply FI; assumption.
          -- split; [exact H1|]. split; [exact H2|]. right. cbn [move hi_pos hi_curr hi_paths]. split; [reflexivity|]. split; [discriminate|].
             econstructor; eauto.
  Qed.

  (** What the three calls show: the first of the cells to come. *)
  Definition shown (h : heap) (rest : list nat) : option (K * V) :=
    match rest with
    | [] => None
    | x :: _ => match nth_error h x with Some c => Some (c_key c, c_val c) | None => None end
    end.

  Lemma front_pos h i rest : at_front h i rest -> at_pos h i rest.
  Proof using Type. clear. intros (H1 & H2 & [H3|H3]); split; auto. Qed.
  Lemma front_cur h i rest : at_front h i rest -> hi_pos i = 1 -> forall a, hi_curr i = Some a -> False.
  Proof using Type. clear. intros (_ & _ & [(H & _)|(H & _)]) P a E; congruence. Qed.

  Lemma has_next_to h i rest : at_pos h i rest ->
    exists i', runs (i_has_next compare) h i i' (Ok (negb (length rest =? 0)%nat)) /\ at_front h i' rest.
  Proof using Type.
    intros H. destruct (advance_to h i rest H) as (i' & (n0 & Hr) & F). exists i'. split; [|exact F].
    exists n0. intros n Hn. unfold i_has_next, ibind. rewrite Hr by exact Hn. cbn [iget iret].
    destruct F as (_ & _ & [(C & P & ->)|(_ & C & A)]); unfold i_is_empty.
    - rewrite C, P. reflexivity.
    - destruct (hi_curr i') as [a|]; [|congruence]. inv A. destruct (hi_paths i'); reflexivity.
  Qed.

  Lemma peek_to h i rest : at_pos h i rest ->
    exists i', runs (i_peek compare) h i i' (Ok (shown h rest)) /\ at_front h i' rest.
  Proof using Type.
    intros H. destruct (advance_to h i rest H) as (i' & (n0 & Hr) & F). exists i'. split; [|exact F].
    exists n0. intros n Hn. unfold i_peek, ibind at 1. rewrite Hr by exact Hn. unfold ibind at 1. cbn [iget].
    destruct F as (_ & _ & [(C & P & ->)|(_ & C & A)]); unfold i_is_empty.
    - rewrite C, P. reflexivity.
    - destruct (hi_curr i') as [a|] eqn:E; [|congruence]. inv A. destruct (hi_paths i'); unfold ibind, iload; cbn [shown];
        match goal with H : nth_error h a = Some _ |- _ => rewrite H end; reflexivity.
  Qed.

  Lemma next_to h i rest : at_pos h i rest ->
    exists i', runs (i_next compare) h i i' (Ok (shown h rest)) /\ at_pos h i' (tl rest) /\
      (hi_pos i' = 1 -> forall a, hi_curr i' = Some a -> rest = a :: tl rest).
  Proof using Type.
    intros H. destruct (advance_to h i rest H) as (i' & (n0 & Hr) & F).
    destruct F as (S1 & E1 & [(C & P & ->)|(P & C & A)]).
    - exists i'. split; [|split; [split; [exact S1|split; [exact E1|auto]]|congruence]].
      exists n0. intros n Hn. unfold i_next, ibind at 1. rewrite Hr by exact Hn. unfold ibind at 1. cbn [iget]. unfold i_is_empty.
      rewrite C, P. reflexivity.
    - destruct (hi_curr i') as [a|] eqn:E; [|congruence]. inversion A as [|a' ca fr ps r2 Ha Sa Aa Ea Erest]. subst a' ps.
      exists (PIt (hi_paths i') (hi_curr i') 1 (hi_start i') (hi_end i')). split; [|split].
      + exists n0. intros n Hn. unfold i_next, ibind at 1. rewrite Hr by exact Hn. unfold ibind at 1. cbn [iget]. unfold i_is_empty.
        rewrite E. assert (Hb : match hi_paths i' with [] => false | _ => false end = false) by (destruct (hi_paths i'); reflexivity).
        rewrite Hb. unfold ibind at 1, iload. rewrite Ha. unfold ibind. cbn [iset iret shown]. rewrite Ha. reflexivity.
      + cbn [tl]. split; [exact S1|]. split; [exact E1|]. right. right. cbn [hi_pos hi_curr hi_paths]. split; [reflexivity|].
        exists a, ca, fr, r2. auto.
      + cbn [hi_pos hi_curr]. rewrite E. intros _ x Hx. inv Hx. reflexivity.
  Qed.

  Lemma new_to h p (t : tree) fp : rep h p t fp -> exists i, (exists n0, forall n, (n0 <= n)%nat -> i_new compare n p None None h = Some (Ok i)) /\
    at_pos h i fp /\ hi_pos i = 0.
  Proof using Type.
    intros R. pose proof (rep_shape _ _ _ _ R) as S. destruct p as [a|].
    - destruct (walk_to h a fp S (PIt [] (Some a) 0 None None) []) as (i' & (n0 & Hr) & H1 & H2 & H3 & H4 & H5);
        [reflexivity|reflexivity|constructor|].
      rewrite app_nil_r in H5. exists i'. split; [|split; [|exact H3]].
      + exists n0. intros n Hn. unfold i_new. rewrite Hr by exact Hn. reflexivity.
      + split; [exact H1|]. split; [exact H2|]. auto.
    - inv S. exists (PIt [] None 0 None None). split; [exists O; reflexivity|]. split; [|reflexivity].
      split; [reflexivity|]. split; [reflexivity|]. auto.
  Qed.
End Shape.
