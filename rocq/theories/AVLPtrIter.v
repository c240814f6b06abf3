(** * Iterators over a heap that may have changed since they were made. *)
From Coq Require Import List ZArith Bool Lia Arith.
From Verif Require Import Base BaseProofs AVLModel AVLSpec AVLProofs AVLPtrModel AVLPtrProofs AVLPtrOps AVLPtrPut AVLPtrRemove
  AVLPtrCalls AVLPtrSpec.
Import ListNotations.
Local Open Scope Z_scope.

Section Iter.
  Context {K V : Type} (compare : K -> K -> res Z).
  Notation tree := (tree K V).
  Notation heap := (@heap K V).

  (** [y] is a child of [x]. *)
  Definition child (h : heap) (y x : nat) : Prop :=
    exists c, nth_error h x = Some c /\ (c_l c = Some y \/ c_r c = Some y).
  (** No infinite descent. *)
  Definition grounded (h : heap) : Prop := forall x, Acc (child h) x.

  Lemma rep_acc h p (t : tree) fp : rep h p t fp -> forall x, In x fp -> Acc (child h) x.
  Proof using Type.
    clear. induction 1 as [|a k v b pl pr l r fl fr E Hl IHl Hr IHr]; intros x Hx; [destruct Hx|].
    apply in_app_or in Hx. destruct Hx as [Hx|[<-|Hx]]; auto. constructor. intros y (c & Hc & Hy). rewrite E in Hc. inv Hc.
    cbn [c_l c_r] in Hy. destruct Hy as [-> | ->].
    - apply IHl. inv Hl. apply in_mid.
    - apply IHr. inv Hr. apply in_mid.
  Qed.

  Lemma grounded_change h h' p' (t' : tree) fp fp' :
    grounded h -> change h h' fp fp' -> rep h' p' t' fp' -> grounded h'.
  Proof using Type.
    clear. intros G C R x. pose proof (G x) as A. induction A as [x _ IH].
    destruct (in_dec Nat.eq_dec x fp') as [Hi|Hn]; [eapply rep_acc; eauto|].
    constructor. intros y (c & Hc & Hy). apply IH.
    destruct (le_lt_dec (length h) x) as [L|L].
    - exfalso. destruct (ch_blank _ _ _ _ C x c L Hc) as [Hi|(H1 & H2)]; [contradiction|]. rewrite H1, H2 in Hy. destruct Hy; discriminate.
    - exists c. split; [|exact Hy]. destruct (in_dec Nat.eq_dec x fp) as [Hi|Hn2].
      + now rewrite <- (ch_dead _ _ _ _ C x Hi Hn).
      + now rewrite <- (proj2 (ch_keeps _ _ _ _ C) x L Hn2).
  Qed.

  (** [m] with enough fuel ends in [i'] with result [r]. *)
  Definition runs {A} (m : nat -> @iprog K V A) (h : heap) (i i' : piter) (r : res A) : Prop :=
    exists n0, forall n, (n0 <= n)%nat -> m n h i = Some (i', r).

  Lemma runs_const {A} (m : @iprog K V A) h i i' r : m h i = Some (i', r) -> runs (fun _ => m) h i i' r.
  Proof using Type. clear. intros H. exists O. auto. Qed.
  Lemma runs_bind {A B} (m : nat -> @iprog K V A) (f : nat -> A -> @iprog K V B) h i i1 i2 a r :
    runs m h i i1 (Ok a) -> runs (fun n => f n a) h i1 i2 r -> runs (fun n => ibind (m n) (f n)) h i i2 r.
  Proof using Type.
    clear. intros (n1 & H1) (n2 & H2). exists (Nat.max n1 n2). intros n Hn. unfold ibind.
    rewrite H1 by lia. apply H2. lia.
  Qed.
  Lemma runs_S {A} (m m' : nat -> @iprog K V A) h i i1 i' r :
    (forall n, m (S n) h i = m' n h i1) -> runs m' h i1 i' r -> runs m h i i' r.
  Proof using Type.
    clear. intros E (n0 & H). exists (S n0). intros n Hn. destruct n as [|n]; [lia|]. rewrite E. apply H. lia.
  Qed.
  Lemma runs_eq {A} (m m' : nat -> @iprog K V A) h i i1 i' r :
    (forall n, m n h i = m' n h i1) -> runs m' h i1 i' r -> runs m h i i' r.
  Proof using Type. clear. intros E (n0 & H). exists n0. intros n Hn. rewrite E. auto. Qed.

  Section Safe.
    (** [G] is a set of cells closed under links; [E] contains what they hold; on the keys in [D] Compare is defined. *)
    Context (D : K -> Prop) (h : heap) (G : nat -> Prop) (E : K * V -> Prop).
    Context (HC : forall a b, D a -> D b -> exists c, compare a b = Ok c).
    Context (HE : forall e, E e -> D (fst e)).
    Context (HA : grounded h).

    Definition closed_cell (x : nat) : Prop :=
      exists c, nth_error h x = Some c /\ E (c_key c, c_val c) /\
        (forall y, c_l c = Some y -> G y) /\ (forall y, c_r c = Some y -> G y).
    Context (HG : forall x, G x -> closed_cell x).

    Definition opt_in (k : option K) : Prop := match k with None => True | Some k => D k end.
    Definition points (p : ptr) : Prop := exists a, p = Some a /\ G a.
    Definition it_ok (i : @piter K) : Prop :=
      (hi_curr i = None \/ points (hi_curr i)) /\ Forall points (hi_paths i) /\ (hi_pos i = 0 \/ hi_pos i = 1) /\
      opt_in (hi_start i) /\ opt_in (hi_end i).
    (** After advance: exhausted, or on a node. *)
    Definition settled (i : @piter K) : Prop := it_ok i /\ (i_is_empty i = true \/ points (hi_curr i)).

    Lemma iload_ok p i : points p -> exists c, iload p h i = Some (i, Ok c) /\ E (c_key c, c_val c) /\
      (forall y, c_l c = Some y -> G y) /\ (forall y, c_r c = Some y -> G y) /\ (exists a, p = Some a /\ nth_error h a = Some c).
    Proof using HG.
      intros (a & -> & Ha). destruct (HG a Ha) as (c & Hc & H1 & H2 & H3). exists c. unfold iload. rewrite Hc. eauto 10.
    Qed.

    Lemma walk_ok : forall a i, hi_curr i = Some a -> it_ok i ->
      exists i', runs i_walk_left h i i' (Ok tt) /\ it_ok i' /\ points (hi_curr i') /\
        hi_start i' = hi_start i /\ hi_end i' = hi_end i /\ (hi_pos i = 0 -> hi_pos i' = 0).
    Proof using HG HA.
      intros a. pose proof (HA a) as A. induction A as [a _ IH]. intros i Hi Hok.
      pose proof Hok as ([Hn|Hp] & Hps & Hpos & Hs & He); [congruence|].
      destruct (iload_ok (hi_curr i) i Hp) as (c & Hl & Ec & Gl & Gr & a' & Ea' & Hc).
      rewrite Hi in Ea'. inv Ea'.
      destruct (c_l c) as [y|] eqn:El.
      - set (i1 := move (hi_curr i :: hi_paths i) (Some y) i).
        assert (Hok1 : it_ok i1).
        { unfold it_ok, i1, move. cbn [hi_curr hi_paths hi_pos hi_start hi_end]. split; [right; exists y; auto|].
          split; [constructor; [exact Hp|exact Hps]|]. auto. }
        destruct (IH y) with (i := i1) as (i' & Hr & H1 & H2 & H3 & H4 & H5); [exists c; auto|reflexivity|exact Hok1|].
        exists i'. split; [|split; [exact H1|split; [exact H2|split; [exact H3|split; [exact H4|intros _; apply H5; reflexivity]]]]].
        eapply runs_S; [|exact Hr]. intros n. cbn [i_walk_left]. unfold ibind at 1. cbn [iget]. unfold ibind at 1.
        rewrite Hl, El. unfold ibind at 1. cbn [iset]. reflexivity.
      - exists i. split; [|auto 10]. eapply runs_S with (i1 := i) (m' := fun _ => iret tt); [|exists O; auto].
        intros n. cbn [i_walk_left]. unfold ibind at 1. cbn [iget]. unfold ibind at 1. rewrite Hl, El. reflexivity.
    Qed.

    Lemma start_loop_ok s : D s -> forall ps a i, hi_paths i = ps -> hi_curr i = Some a -> it_ok i ->
      exists i' (b : bool), runs (fun n => i_start_loop compare n s) h i i' (Ok b) /\ it_ok i' /\ hi_start i' = hi_start i /\
        (b = false -> points (hi_curr i')) /\ (b = true -> i_is_empty i' = true).
    Proof using HG HA HC HE.
      intros Ds ps. induction ps as [|p ps IHps]; intros a; pose proof (HA a) as A; induction A as [a _ IH]; intros i Hp Hi Hok;
        pose proof Hok as ([Hn|Hpt] & Hps & Hpos & Hs & He); try congruence;
        destruct (iload_ok (hi_curr i) i Hpt) as (c & Hl & Ec & Gl & Gr & a' & Ea' & Hc); rewrite Hi in Ea'; inv Ea';
        destruct (HC s (c_key c) Ds (HE _ Ec)) as (comp & Hcmp);
        (destruct (comp <? 0) eqn:Elt; [|
          exists i, false; split; [|split; [exact Hok|split; [reflexivity|split; [auto|discriminate]]]];
          eapply runs_S with (i1 := i) (m' := fun _ => iret false); [|exists O; auto];
          intros n; cbn [i_start_loop]; unfold ibind at 1; cbn [iget]; unfold ibind at 1; rewrite Hl; unfold ibind at 1, ilift;
          rewrite Hcmp, Elt; reflexivity]);
        destruct (c_r c) as [y|] eqn:Er.
      - set (i1 := PIt (hi_paths i) (Some y) (hi_pos i) (hi_start i) (hi_end i)).
        destruct (IH y) with (i := i1) as (i' & b & Hr & H1 & H2 & H3 & H4); [exists c; auto|exact Hp|reflexivity| |].
        { unfold it_ok, i1. cbn [hi_curr hi_paths hi_pos hi_start hi_end]. split; [right; exists y; auto|auto]. }
        exists i', b. split; [|auto]. eapply runs_S; [|exact Hr]. intros n. cbn [i_start_loop].
        unfold ibind at 1. cbn [iget]. unfold ibind at 1. rewrite Hl. unfold ibind at 1, ilift. rewrite Hcmp, Elt, Er.
        unfold ibind at 1. cbn [iset]. reflexivity.
      - exists (PIt [] None (hi_pos i) (hi_start i) (hi_end i)), true. split; [|split; [|split; [reflexivity|split; [discriminate|reflexivity]]]].
        + eapply runs_S with (i1 := i) (m' := fun _ _ _ => Some (PIt [] None (hi_pos i) (hi_start i) (hi_end i), Ok true)); [|exists O; auto].
          intros n. cbn [i_start_loop]. unfold ibind at 1. cbn [iget]. unfold ibind at 1. rewrite Hl. unfold ibind at 1, ilift.
          rewrite Hcmp, Elt, Er, Hp. reflexivity.
        + unfold it_ok. cbn [hi_curr hi_paths hi_pos hi_start hi_end]. auto.
      - set (i1 := PIt (hi_paths i) (Some y) (hi_pos i) (hi_start i) (hi_end i)).
        destruct (IH y) with (i := i1) as (i' & b & Hr & H1 & H2 & H3 & H4); [exists c; auto|exact Hp|reflexivity| |].
        { unfold it_ok, i1. cbn [hi_curr hi_paths hi_pos hi_start hi_end]. split; [right; exists y; auto|auto]. }
        exists i', b. split; [|auto]. eapply runs_S; [|exact Hr]. intros n. cbn [i_start_loop].
        unfold ibind at 1. cbn [iget]. unfold ibind at 1. rewrite Hl. unfold ibind at 1, ilift. rewrite Hcmp, Elt, Er.
        unfold ibind at 1. cbn [iset]. reflexivity.
      - rewrite Hp in Hps. inv Hps. match goal with H : points p |- _ => destruct H as (y & -> & Gy) end.
        set (i1 := move ps (Some y) i).
        destruct (IHps y i1) as (i' & b & Hr & H1' & H2' & H3' & H4'); [reflexivity|reflexivity| |].
        { unfold it_ok, i1, move. cbn [hi_curr hi_paths hi_pos hi_start hi_end]. split; [right; exists y; auto|auto]. }
        exists i', b. split; [|auto]. eapply runs_S; [|exact Hr]. intros n. cbn [i_start_loop].
        unfold ibind at 1. cbn [iget]. unfold ibind at 1. rewrite Hl. unfold ibind at 1, ilift. rewrite Hcmp, Elt, Er, Hp.
        unfold ibind at 1. cbn [iset]. reflexivity.
    Qed.

    Lemma end_loop_ok e : D e -> forall ps i, hi_paths i = ps -> points (hi_curr i) -> it_ok i ->
      exists i', runs (fun n => i_end_loop compare n e) h i i' (Ok tt) /\ settled i'.
    Proof using HG HC HE.
      intros De ps. induction ps as [|p ps IH]; intros i Hp Hpt Hok;
        pose proof Hok as (_ & Hps & Hpos & Hs & He);
        destruct (iload_ok (hi_curr i) i Hpt) as (c & Hl & Ec & _);
        destruct (HC (c_key c) e (HE _ Ec) De) as (comp & Hcmp);
        (destruct (0 <=? comp) eqn:Elt; [|
          exists i; split; [|split; [exact Hok|auto]];
          eapply runs_S with (i1 := i) (m' := fun _ => iret tt); [|exists O; auto];
          intros n; cbn [i_end_loop]; unfold ibind at 1; cbn [iget]; unfold ibind at 1; rewrite Hl; unfold ibind at 1, ilift;
          rewrite Hcmp, Elt; reflexivity]).
      - exists (PIt [] None (hi_pos i) (hi_start i) None). split.
        + eapply runs_S with (i1 := i) (m' := fun _ => iset (PIt [] None (hi_pos i) (hi_start i) None)); [|exists O; auto].
          intros n. cbn [i_end_loop]. unfold ibind at 1. cbn [iget]. unfold ibind at 1. rewrite Hl. unfold ibind at 1, ilift.
          rewrite Hcmp, Elt, Hp. reflexivity.
        + split; [|left; reflexivity]. unfold it_ok. cbn [hi_curr hi_paths hi_pos hi_start hi_end]. cbn [opt_in]. auto.
      - rewrite Hp in Hps. inv Hps. set (i1 := move ps p i).
        destruct (IH i1) as (i' & Hr & Hst); [reflexivity|assumption| |].
        { unfold it_ok, i1, move. cbn [hi_curr hi_paths hi_pos hi_start hi_end]. auto. }
        exists i'. split; [|exact Hst]. eapply runs_S; [|exact Hr]. intros n. cbn [i_end_loop].
        unfold ibind at 1. cbn [iget]. unfold ibind at 1. rewrite Hl. unfold ibind at 1, ilift. rewrite Hcmp, Elt, Hp.
        unfold ibind at 1. cbn [iset]. reflexivity.
    Qed.

    Lemma filters_ok i : points (hi_curr i) -> it_ok i -> exists i', runs (i_filters compare) h i i' (Ok tt) /\ settled i'.
    Proof using HG HA HC HE.
      intros Hpt Hok.
      assert (END : forall i1, points (hi_curr i1) -> it_ok i1 -> exists i', runs (fun n => ibind iget (fun i1 =>
          match hi_end i1 with None => iret tt | Some e => i_end_loop compare n e end)) h i1 i' (Ok tt) /\ settled i').
      { intros i1 Hpt1 Hok1. pose proof Hok1 as (_ & _ & _ & _ & He). destruct (hi_end i1) as [e|] eqn:Ee.
        - destruct (end_loop_ok e He _ i1 eq_refl Hpt1 Hok1) as (i' & Hr & Hst). exists i'. split; [|exact Hst].
          eapply runs_eq; [|exact Hr]. intros n. unfold ibind. cbn [iget]. now rewrite Ee.
        - exists i1. split; [|split; [exact Hok1|auto]]. exists O. intros n _. unfold ibind. cbn [iget]. now rewrite Ee. }
      pose proof Hok as (_ & _ & _ & Hs & _).
      destruct (hi_start i) as [s|] eqn:Es.
      - destruct Hpt as (a & Ha & Ga).
        destruct (start_loop_ok s Hs _ a i eq_refl Ha Hok) as (i1 & b & Hr & Hok1 & _ & Hf & Ht). destruct b.
        + exists i1. split; [|split; [exact Hok1|left; auto]]. destruct Hr as (n0 & Hr). exists n0. intros n Hn.
          unfold i_filters. unfold ibind at 1. cbn [iget]. rewrite Es. unfold ibind at 1. unfold ibind at 1. rewrite Hr by exact Hn.
          reflexivity.
        + set (i2 := PIt (hi_paths i1) (hi_curr i1) (hi_pos i1) None (hi_end i1)).
          destruct (END i2) as (i' & Hr' & Hst); [exact (Hf eq_refl)| |].
          { destruct Hok1 as (H1 & H2 & H3 & H4 & H5). unfold it_ok, i2. cbn [hi_curr hi_paths hi_pos hi_start hi_end opt_in]. auto. }
          exists i'. split; [|exact Hst]. destruct Hr as (n0 & Hr). destruct Hr' as (n1 & Hr'). exists (Nat.max n0 n1). intros n Hn.
          unfold i_filters. unfold ibind at 1. cbn [iget]. rewrite Es. unfold ibind at 1. unfold ibind at 1. rewrite Hr by lia.
          unfold ibind at 1. cbn [iget]. unfold ibind at 1. cbn [iset iret]. apply Hr'. lia.
      - destruct (END i Hpt Hok) as (i' & Hr' & Hst). exists i'. split; [|exact Hst]. eapply runs_eq; [|exact Hr'].
        intros n. unfold i_filters. unfold ibind at 1. cbn [iget]. rewrite Es. unfold ibind at 1. cbn [iret]. reflexivity.
    Qed.

    Lemma advance_ok i : it_ok i -> exists i', runs (i_advance compare) h i i' (Ok tt) /\ settled i'.
    Proof using HG HA HC HE.
      intros Hok. pose proof Hok as (Hcur & Hps & Hpos & Hs & He).
      assert (SW : forall i1, points (hi_curr i1) -> it_ok i1 -> exists i', runs (i_switch compare) h i1 i' (Ok tt) /\ settled i').
      { clear i Hok Hcur Hps Hpos Hs He. intros i Hpt Hok. pose proof Hok as (_ & Hps & Hpos & Hs & He).
        destruct Hpos as [Hpos|Hpos].
        - destruct (filters_ok i Hpt Hok) as (i' & Hr & Hst). exists i'. split; [|exact Hst]. eapply runs_eq; [|exact Hr].
          intros n. unfold i_switch. unfold ibind at 1. cbn [iget]. now rewrite Hpos.
        - destruct (iload_ok (hi_curr i) i Hpt) as (c & Hl & Ec & Gl & Gr & _).
          destruct (c_r c) as [y|] eqn:Er.
          + set (i1 := move (hi_paths i) (Some y) i).
            assert (Hok1 : it_ok i1).
            { unfold it_ok, i1, move. cbn [hi_curr hi_paths hi_pos hi_start hi_end]. split; [right; exists y; auto|auto]. }
            destruct (walk_ok y i1 eq_refl Hok1) as (i2 & Hr2 & Hok2 & Hpt2 & _).
            destruct (filters_ok i2 Hpt2 Hok2) as (i3 & Hr3 & Hst). exists i3. split; [|exact Hst].
            destruct Hr2 as (n2 & Hr2). destruct Hr3 as (n3 & Hr3). exists (Nat.max n2 n3). intros n Hn.
            unfold i_switch. unfold ibind at 1. cbn [iget]. rewrite Hpos. change (1 =? 0) with false. change (1 =? 1) with true. cbv iota. unfold ibind at 1. rewrite Hl, Er.
            unfold ibind at 1. cbn [iset]. fold i1. unfold ibind at 1. rewrite Hr2 by lia. apply Hr3. lia.
          + destruct (hi_paths i) as [|p ps] eqn:Ep.
            * exists (PIt [] None (hi_pos i) None None). split.
              { exists O. intros n _. unfold i_switch. unfold ibind at 1. cbn [iget]. rewrite Hpos. change (1 =? 0) with false. change (1 =? 1) with true. cbv iota. unfold ibind at 1.
                rewrite Hl, Er, Ep. reflexivity. }
              split; [|left; reflexivity]. unfold it_ok. cbn [hi_curr hi_paths hi_pos hi_start hi_end opt_in]. auto.
            * inv Hps. set (i1 := move ps p i).
              destruct (filters_ok i1) as (i3 & Hr3 & Hst); [assumption| |].
              { unfold it_ok, i1, move. cbn [hi_curr hi_paths hi_pos hi_start hi_end]. auto. }
              exists i3. split; [|exact Hst]. eapply runs_eq; [|exact Hr3]. intros n.
              unfold i_switch. unfold ibind at 1. cbn [iget]. rewrite Hpos. change (1 =? 0) with false. change (1 =? 1) with true. cbv iota. unfold ibind at 1. rewrite Hl, Er, Ep.
              unfold ibind at 1. cbn [iset]. reflexivity. }
      destruct (hi_curr i) as [a|] eqn:Ec.
      - destruct Hcur as [Hn|Hpt]; [discriminate|]. rewrite <- Ec in Hpt.
        destruct (SW i Hpt Hok) as (i' & Hr & Hst). exists i'. split; [|exact Hst]. eapply runs_eq; [|exact Hr].
        intros n. unfold i_advance. unfold ibind at 1. cbn [iget]. now rewrite Ec.
      - destruct (hi_paths i) as [|p ps] eqn:Ep.
        + exists i. split; [|split; [exact Hok|left; unfold i_is_empty; now rewrite Ep, Ec]].
          exists O. intros n _. unfold i_advance. unfold ibind. cbn [iget]. rewrite Ec, Ep. reflexivity.
        + inv Hps. set (i1 := move ps p i).
          destruct (SW i1) as (i' & Hr & Hst); [assumption| |].
          { unfold it_ok, i1, move. cbn [hi_curr hi_paths hi_pos hi_start hi_end]. auto. }
          exists i'. split; [|exact Hst]. eapply runs_eq; [|exact Hr]. intros n. unfold i_advance. unfold ibind at 1. cbn [iget].
          rewrite Ec, Ep. unfold ibind at 1. cbn [iset]. reflexivity.
    Qed.

    Lemma has_next_ok i : it_ok i -> exists i' b, runs (i_has_next compare) h i i' (Ok b) /\ it_ok i'.
    Proof using HG HA HC HE.
      intros Hok. destruct (advance_ok i Hok) as (i' & (n0 & Hr) & (Hok' & _)). exists i', (negb (i_is_empty i')).
      split; [|exact Hok']. exists n0. intros n Hn. unfold i_has_next, ibind. now rewrite Hr.
    Qed.

    Lemma peek_ok i : it_ok i -> exists i' o, runs (i_peek compare) h i i' (Ok o) /\ it_ok i' /\
      match o with None => True | Some e => E e end.
    Proof using HG HA HC HE.
      intros Hok. destruct (advance_ok i Hok) as (i' & (n0 & Hr) & (Hok' & Hst)).
      destruct Hst as [He|Hpt].
      - exists i', None. split; [|auto]. exists n0. intros n Hn. unfold i_peek, ibind. rewrite Hr by exact Hn. cbn [iget]. now rewrite He.
      - assert (Hne : i_is_empty i' = false).
        { destruct Hpt as (a & Ha & _). unfold i_is_empty. rewrite Ha. destruct (hi_paths i'); reflexivity. }
        destruct (iload_ok (hi_curr i') i' Hpt) as (c & Hl & Ec & _). exists i', (Some (c_key c, c_val c)).
        split; [|auto]. exists n0. intros n Hn. unfold i_peek. unfold ibind at 1. rewrite Hr by exact Hn. unfold ibind at 1. cbn [iget].
        rewrite Hne. destruct Hpt as (a & Ha & _). destruct (hi_curr i') eqn:Ecur; [|discriminate]. unfold ibind. now rewrite Hl.
    Qed.

    Lemma next_ok i : it_ok i -> exists i' o, runs (i_next compare) h i i' (Ok o) /\ it_ok i' /\
      match o with None => True | Some e => E e end.
    Proof using HG HA HC HE.
      intros Hok. destruct (advance_ok i Hok) as (i' & (n0 & Hr) & (Hok' & Hst)).
      destruct Hst as [He|Hpt].
      - exists i', None. split; [|auto]. exists n0. intros n Hn. unfold i_next, ibind. rewrite Hr by exact Hn. cbn [iget]. now rewrite He.
      - assert (Hne : i_is_empty i' = false).
        { destruct Hpt as (a & Ha & _). unfold i_is_empty. rewrite Ha. destruct (hi_paths i'); reflexivity. }
        destruct (iload_ok (hi_curr i') i' Hpt) as (c & Hl & Ec & _).
        exists (PIt (hi_paths i') (hi_curr i') 1 (hi_start i') (hi_end i')), (Some (c_key c, c_val c)). split.
        + exists n0. intros n Hn. unfold i_next. unfold ibind at 1. rewrite Hr by exact Hn. unfold ibind at 1. cbn [iget].
          rewrite Hne. unfold ibind at 1. rewrite Hl. unfold ibind. cbn [iset iret]. reflexivity.
        + split; [|exact Ec]. destruct Hok' as (H1 & H2 & H3 & H4 & H5). unfold it_ok.
          cbn [hi_curr hi_paths hi_pos hi_start hi_end]. auto.
    Qed.

    (** A new iterator over a tree whose cells lie in [G]. *)
    Lemma new_ok p start end_ : (forall a, p = Some a -> G a) -> opt_in start -> opt_in end_ ->
      exists r, (exists n0, forall n, (n0 <= n)%nat -> i_new compare n p start end_ h = Some r) /\
        match start, end_ with
        | Some s, Some e => exists c, compare s e = Ok c /\ (0 < c -> r = Panic) /\ (c <= 0 -> exists i, r = Ok i /\ it_ok i)
        | _, _ => exists i, r = Ok i /\ it_ok i
        end.
    Proof using HG HA HC HE.
      intros Hp Hs He.
      assert (W : exists i1, (exists n0, forall n, (n0 <= n)%nat ->
          match p with None => Some (PIt [] p 0 None None, Ok tt) | Some _ => i_walk_left n h (PIt [] p 0 None None) end = Some (i1, Ok tt)) /\
          it_ok i1 /\ hi_start i1 = None /\ hi_end i1 = None).
      { destruct p as [a|].
        - destruct (walk_ok a (PIt [] (Some a) 0 None None)) as (i1 & Hr & Hok & _ & H1 & H2 & _); [reflexivity| |].
          + unfold it_ok. cbn [hi_curr hi_paths hi_pos hi_start hi_end opt_in]. split; [right; exists a; auto|auto].
          + exists i1. auto.
        - exists (PIt [] None 0 None None). split; [exists O; auto|]. unfold it_ok.
          cbn [hi_curr hi_paths hi_pos hi_start hi_end opt_in]. auto 10. }
      destruct W as (i1 & (n0 & Hr) & Hok & Hs1 & He1). pose proof Hok as (H1 & H2 & H3 & _ & _).
      assert (Hok2 : it_ok (PIt (hi_paths i1) (hi_curr i1) (hi_pos i1) start end_)).
      { unfold it_ok. cbn [hi_curr hi_paths hi_pos hi_start hi_end]. auto. }
      destruct start as [s|], end_ as [e|].
      - destruct (HC s e Hs He) as (c & Hc). destruct (0 <? c) eqn:Ec.
        + exists Panic. split.
          { exists n0. intros n Hn. unfold i_new. rewrite Hr by exact Hn. cbn [rbind]. rewrite Hc. cbn [rbind]. now rewrite Ec. }
          exists c. split; [exact Hc|]. split; [auto|lia].
        + eexists (Ok _). split.
          { exists n0. intros n Hn. unfold i_new. rewrite Hr by exact Hn. cbn [rbind]. rewrite Hc. cbn [rbind]. rewrite Ec. reflexivity. }
          exists c. split; [exact Hc|]. split; [lia|]. eauto.
      - eexists (Ok _). split; [exists n0; intros n Hn; unfold i_new; rewrite Hr by exact Hn; reflexivity|]. eauto.
      - eexists (Ok _). split; [exists n0; intros n Hn; unfold i_new; rewrite Hr by exact Hn; reflexivity|]. eauto.
      - exists (Ok i1). split; [exists n0; intros n Hn; unfold i_new; rewrite Hr by exact Hn; reflexivity|]. eauto.
    Qed.
  End Safe.
End Iter.
