(** * Proofs about slice equality and comparison. *)
From Coq Require Import List NArith ZArith Bool Lia.
From Coq Require Import Strings.Byte.
From Verif Require Import Base BaseProofs CmpModel CmpSpec.
Import ListNotations.

Section Generic.
  Context {A : Type} (ltb : A -> A -> bool) (R : A -> A -> Prop).
  Hypothesis ltb_R : forall a b, ltb a b = true <-> R a b.
  Hypothesis R_irrefl : forall a, ~ R a a.
  Hypothesis R_trans : forall a b c, R a b -> R b c -> R a c.
  Hypothesis R_total : forall a b, R a b \/ a = b \/ R b a.

  (** Reading of the index loop as a walk over both lists. *)
  Fixpoint walk (l1 l2 : list A) : res Z :=
    match l1, l2 with
    | [], [] => Ok 0%Z
    | [], _ :: _ => Ok (-1)%Z
    | _ :: _, [] => Panic
    | a :: l1', b :: l2' =>
        if ltb a b then Ok (-1)%Z else if ltb b a then Ok 1%Z else walk l1' l2'
    end.

  Lemma compare_loop_walk p1 p2 l1 l2 :
    length p1 = length p2 ->
    compare_loop (prim_cmp ltb) (p1 ++ l1) (p2 ++ l2) l1 (length p1) = walk l1 l2.
  Proof using Type.
    clear.
    revert p1 p2 l2. induction l1 as [|a l1 IH]; intros p1 p2 l2 Hl; simpl.
    - rewrite !app_length. simpl.
      destruct l2 as [|b l2]; simpl.
      + destruct (Nat.ltb_spec (length p1 + 0) (length p2 + 0)); [lia|reflexivity].
      + destruct (Nat.ltb_spec (length p1 + 0) (length p2 + S (length l2))); [reflexivity|lia].
    - rewrite app_length. simpl.
      destruct (Nat.ltb_spec (length p1 + S (length l1)) (length p1)); [lia|].
      rewrite nth_error_app2 by lia. rewrite Hl, Nat.sub_diag.
      destruct l2 as [|b l2]; simpl; [reflexivity|].
      unfold prim_cmp. destruct (ltb a b) eqn:E1; simpl; [reflexivity|].
      destruct (ltb b a) eqn:E2; simpl; [reflexivity|].
      specialize (IH (p1 ++ [a]) (p2 ++ [b]) l2).
      rewrite <- !app_assoc in IH. simpl in IH. rewrite !app_length in IH. simpl in IH.
      rewrite !Nat.add_1_r in IH. rewrite <- Hl. apply IH. lia.
  Qed.

  Lemma compare_slice_some l1 l2 :
    compare_slice (prim_cmp ltb) (Some l1) (Some l2) = walk l1 l2.
  Proof. apply (compare_loop_walk [] [] l1 l2 eq_refl). Qed.

  Lemma lex_irrefl l : ~ lex_lt R l l.
  Proof.
    induction l as [|a l IH]; intros H; inversion H; subst.
    - eapply R_irrefl; eauto.
    - auto.
  Qed.

  Lemma lex_trans l1 l2 l3 : lex_lt R l1 l2 -> lex_lt R l2 l3 -> lex_lt R l1 l3.
  Proof.
    intros H. revert l3. induction H; intros l3 H3; inversion H3; subst.
    - constructor.
    - constructor.
    - constructor 2. eauto.
    - constructor 2. assumption.
    - constructor 2. assumption.
    - constructor 3. auto.
  Qed.

  Lemma walk_lt l1 l2 : walk l1 l2 = Ok (-1)%Z <-> lex_lt R l1 l2.
  Proof.
    revert l2. induction l1 as [|a l1 IH]; intros [|b l2]; simpl.
    - split; [discriminate|inversion 1].
    - split; [constructor|reflexivity].
    - split; [discriminate|inversion 1].
    - destruct (ltb a b) eqn:E1.
      + split; [|reflexivity]. intros _. constructor 2. now apply ltb_R.
      + destruct (ltb b a) eqn:E2.
        * split; [discriminate|]. intros H. apply ltb_R in E2. inversion H; subst.
          -- exfalso. eapply R_irrefl. eauto.
          -- exfalso. eapply R_irrefl. eauto.
        * rewrite IH. split.
          -- assert (a = b) as ->.
             { destruct (R_total a b) as [H|[H|H]]; auto; apply ltb_R in H; congruence. }
             now constructor 3.
          -- inversion 1; subst; auto. apply ltb_R in H1. congruence.
  Qed.

  Lemma walk_eq l1 l2 : walk l1 l2 = Ok 0%Z <-> l1 = l2.
  Proof.
    revert l2. induction l1 as [|a l1 IH]; intros [|b l2]; simpl;
      try (split; [discriminate|discriminate]); try (split; reflexivity).
    destruct (ltb a b) eqn:E1.
    - split; [discriminate|]. intros H. inv H. apply ltb_R in E1. exfalso. eapply R_irrefl; eauto.
    - destruct (ltb b a) eqn:E2.
      + split; [discriminate|]. intros H. inv H. apply ltb_R in E2. exfalso. eapply R_irrefl; eauto.
      + rewrite IH.
        assert (a = b) as ->.
        { destruct (R_total a b) as [H|[H|H]]; auto; apply ltb_R in H; congruence. }
        split; [now intros ->|now inversion 1].
  Qed.

  Lemma walk_panic l1 l2 : walk l1 l2 = Panic <-> proper_prefix l2 l1.
  Proof.
    revert l2. induction l1 as [|a l1 IH]; intros [|b l2]; simpl.
    - split; [discriminate|]. intros (x & xs & H). simpl in H. discriminate.
    - split; [discriminate|]. intros (x & xs & H). simpl in H. discriminate.
    - split; [|reflexivity]. intros _. exists a, l1. reflexivity.
    - destruct (ltb a b) eqn:E1.
      + split; [discriminate|]. intros (x & xs & H). simpl in H. inv H.
        apply ltb_R in E1. exfalso. eapply R_irrefl; eauto.
      + destruct (ltb b a) eqn:E2.
        * split; [discriminate|]. intros (x & xs & H). simpl in H. inv H.
          apply ltb_R in E2. exfalso. eapply R_irrefl; eauto.
        * rewrite IH.
          assert (a = b) as ->.
          { destruct (R_total a b) as [H|[H|H]]; auto; apply ltb_R in H; congruence. }
          split; intros (x & xs & H); exists x, xs; simpl in *; congruence.
  Qed.

  Lemma walk_cases l1 l2 :
    walk l1 l2 = Ok (-1)%Z \/ walk l1 l2 = Ok 0%Z \/ walk l1 l2 = Ok 1%Z \/ walk l1 l2 = Panic.
  Proof.
    revert l2. induction l1 as [|a l1 IH]; intros [|b l2]; simpl; auto.
    destruct (ltb a b); auto. destruct (ltb b a); auto.
  Qed.

  Lemma lex_total l1 l2 : lex_lt R l1 l2 \/ l1 = l2 \/ lex_lt R l2 l1.
  Proof.
    revert l2. induction l1 as [|a l1 IH]; intros [|b l2]; auto.
    - left. constructor.
    - right. right. constructor.
    - destruct (R_total a b) as [H|[->|H]].
      + left. now constructor 2.
      + destruct (IH l2) as [H|[->|H]]; auto.
        * left. now constructor 3.
        * right. right. now constructor 3.
      + right. right. now constructor 2.
  Qed.

  Lemma proper_prefix_lt l1 l2 : proper_prefix l2 l1 -> lex_lt R l2 l1.
  Proof.
    intros (x & xs & ->). induction l2 as [|a l2 IH]; simpl; [constructor|now constructor 3].
  Qed.

  Lemma walk_gt l1 l2 : walk l1 l2 = Ok 1%Z <-> lex_lt R l2 l1 /\ ~ proper_prefix l2 l1.
  Proof.
    split.
    - intros H. split.
      + destruct (lex_total l1 l2) as [H1|[->|H1]]; auto.
        * apply walk_lt in H1. congruence.
        * assert (walk l2 l2 = Ok 0%Z) by now apply walk_eq. congruence.
      + intros Hp. apply walk_panic in Hp. congruence.
    - intros [H Hp]. destruct (walk_cases l1 l2) as [E|[E|[E|E]]]; auto.
      + apply walk_lt in E. exfalso. eapply lex_irrefl. eapply lex_trans; eauto.
      + apply walk_eq in E. subst. exfalso. eapply lex_irrefl; eauto.
      + apply walk_panic in E. contradiction.
  Qed.

  Theorem compare_slice_exact s1 s2 :
    (compare_slice (prim_cmp ltb) s1 s2 = Ok (-1)%Z <-> slice_lt R s1 s2) /\
    (compare_slice (prim_cmp ltb) s1 s2 = Ok 0%Z <-> s1 = s2) /\
    (compare_slice (prim_cmp ltb) s1 s2 = Ok 1%Z <-> slice_lt R s2 s1 /\ ~ slice_proper_prefix s2 s1) /\
    (compare_slice (prim_cmp ltb) s1 s2 = Panic <-> slice_proper_prefix s2 s1).
  Proof.
    destruct s1 as [l1|], s2 as [l2|].
    - rewrite compare_slice_some. split; [|split; [|split]].
      + rewrite walk_lt. split; [now constructor|now inversion 1].
      + rewrite walk_eq. split; congruence.
      + rewrite walk_gt. split; intros [H1 H2]; split.
        * now constructor.
        * intros (p & l & Hp & Hl & Hpp). inv Hp. inv Hl. auto.
        * now inversion H1.
        * intros Hpp. apply H2. exists l2, l1. auto.
      + rewrite walk_panic. split.
        * intros H. exists l2, l1. auto.
        * intros (p & l & Hp & Hl & Hpp). inv Hp. inv Hl. auto.
    - simpl. split; [|split; [|split]]; split; try discriminate; try congruence.
      + inversion 1.
      + intros _. split; [constructor|]. intros (p & l & Hp & _). discriminate.
      + intros (p & l & Hp & _). discriminate.
    - simpl. split; [|split; [|split]]; split; try discriminate; try congruence.
      + constructor.
      + intros [H _]. inversion H.
      + intros (p & l & _ & Hl & _). discriminate.
    - simpl. split; [|split; [|split]]; split; try discriminate; try congruence.
      + inversion 1.
      + intros [H _]. inversion H.
      + intros (p & l & Hp & _). discriminate.
  Qed.

  Lemma slice_lt_irrefl s : ~ slice_lt R s s.
  Proof. intros H. inv H. eapply lex_irrefl; eauto. Qed.

  Lemma slice_lt_trans s1 s2 s3 : slice_lt R s1 s2 -> slice_lt R s2 s3 -> slice_lt R s1 s3.
  Proof. intros H1 H2. inv H1; inv H2; constructor. eapply lex_trans; eauto. Qed.

  Lemma slice_lt_total s1 s2 : slice_lt R s1 s2 \/ s1 = s2 \/ slice_lt R s2 s1.
  Proof.
    destruct s1 as [l1|], s2 as [l2|]; auto.
    - destruct (lex_total l1 l2) as [H|[->|H]]; auto.
      + left. now constructor.
      + right. right. now constructor.
    - right. right. constructor.
    - left. constructor.
  Qed.

  Lemma slice_pp_lt s1 s2 : slice_proper_prefix s1 s2 -> slice_lt R s1 s2.
  Proof. intros (p & l & -> & -> & H). constructor. now apply proper_prefix_lt. Qed.

  Lemma compare_slice_values s1 s2 :
    compare_slice (prim_cmp ltb) s1 s2 = Ok (-1)%Z \/ compare_slice (prim_cmp ltb) s1 s2 = Ok 0%Z \/
    compare_slice (prim_cmp ltb) s1 s2 = Ok 1%Z \/ compare_slice (prim_cmp ltb) s1 s2 = Panic.
  Proof.
    destruct s1 as [l1|], s2 as [l2|]; simpl; auto.
    pose proof (walk_cases l1 l2) as W. rewrite <- (compare_slice_some l1 l2) in W. exact W.
  Qed.

  Theorem compare_slice_defined s1 s2 :
    ~ slice_proper_prefix s2 s1 ->
    exists c, compare_slice (prim_cmp ltb) s1 s2 = Ok c /\
      (c < 0 <-> slice_lt R s1 s2)%Z /\ (c = 0%Z <-> s1 = s2) /\ (c > 0 <-> slice_lt R s2 s1)%Z.
  Proof.
    intros Hp.
    destruct (compare_slice_exact s1 s2) as (L & E & G & P).
    destruct (compare_slice_values s1 s2) as [V|[V|[V|V]]].
    - exists (-1)%Z. split; [exact V|]. apply L in V.
      split; [|split]; split; intros H; try lia; auto.
      + subst. exfalso. eapply slice_lt_irrefl; eauto.
      + exfalso. apply (slice_lt_irrefl s1). eapply slice_lt_trans; eauto.
    - exists 0%Z. split; [exact V|]. apply E in V. subst.
      split; [|split]; split; intros H; try lia; auto; exfalso; eapply slice_lt_irrefl; eauto.
    - exists 1%Z. split; [exact V|]. apply G in V. destruct V as [V _].
      split; [|split]; split; intros H; try lia; auto.
      + exfalso. apply (slice_lt_irrefl s1). eapply slice_lt_trans; eauto.
      + subst. exfalso. eapply slice_lt_irrefl; eauto.
    - apply P in V. contradiction.
  Qed.

  Theorem compare_slice_antisym s1 s2 c1 c2 :
    compare_slice (prim_cmp ltb) s1 s2 = Ok c1 ->
    compare_slice (prim_cmp ltb) s2 s1 = Ok c2 -> c2 = (- c1)%Z.
  Proof.
    intros H1 H2.
    destruct (compare_slice_exact s1 s2) as (L12 & E12 & G12 & P12).
    destruct (compare_slice_exact s2 s1) as (L21 & E21 & G21 & P21).
    destruct (slice_lt_total s1 s2) as [H|[H|H]].
    - pose proof (proj2 L12 H) as Hc. rewrite Hc in H1. inv H1.
      destruct (compare_slice_values s2 s1) as [V|[V|[V|V]]]; rewrite V in H2; inv H2; auto.
      + apply L21 in V. exfalso. eapply slice_lt_irrefl. eapply slice_lt_trans; eauto.
      + apply E21 in V. subst. exfalso. eapply slice_lt_irrefl; eauto.
    - pose proof (proj2 E12 H) as Hc. pose proof (proj2 E21 (eq_sym H)) as Hd.
      rewrite Hc in H1. rewrite Hd in H2. inv H1. inv H2. reflexivity.
    - pose proof (proj2 L21 H) as Hc. rewrite Hc in H2. inv H2.
      destruct (compare_slice_values s1 s2) as [V|[V|[V|V]]]; rewrite V in H1; inv H1; auto.
      + apply L12 in V. exfalso. eapply slice_lt_irrefl. eapply slice_lt_trans; eauto.
      + apply E12 in V. subst. exfalso. eapply slice_lt_irrefl; eauto.
  Qed.

  Theorem compare_slice_trans s1 s2 s3 c12 c23 c13 :
    compare_slice (prim_cmp ltb) s1 s2 = Ok c12 ->
    compare_slice (prim_cmp ltb) s2 s3 = Ok c23 ->
    compare_slice (prim_cmp ltb) s1 s3 = Ok c13 ->
    (c12 <= 0 -> c23 <= 0 -> c13 <= 0 /\ (c12 < 0 \/ c23 < 0 -> c13 < 0))%Z.
  Proof.
    intros H12 H23 H13 L1 L2.
    destruct (compare_slice_exact s1 s2) as (L12 & E12 & _ & _).
    destruct (compare_slice_exact s2 s3) as (L23 & E23 & _ & _).
    destruct (compare_slice_exact s1 s3) as (L13 & E13 & _ & _).
    destruct (compare_slice_values s1 s2) as [V|[V|[V|V]]]; rewrite V in H12; inv H12; try lia;
    destruct (compare_slice_values s2 s3) as [W|[W|[W|W]]]; rewrite W in H23; inv H23; try lia.
    - assert (slice_lt R s1 s3) as Q.
      { eapply slice_lt_trans; [now apply L12|now apply L23]. }
      apply L13 in Q. rewrite Q in H13. inv H13. lia.
    - apply E23 in W. subst. rewrite V in H13. inv H13. lia.
    - apply E12 in V. subst. rewrite W in H13. inv H13. lia.
    - apply E12 in V. apply E23 in W. subst. rewrite H13 in *. 
      pose proof (proj2 E13 eq_refl) as Q. inv Q. lia.
  Qed.
End Generic.

Section EqualGeneric.
  Context {A : Type} (eqb : A -> A -> bool).
  Hypothesis eqb_eq : forall a b, eqb a b = true <-> a = b.

  Lemma equal_loop_eq a b : length a = length b -> (equal_loop eqb a b = true <-> a = b).
  Proof.
    revert b. induction a as [|x a IH]; intros [|y b] Hl; simpl in *; try lia; [tauto|].
    destruct (eqb x y) eqn:E.
    - apply eqb_eq in E. subst. rewrite IH by lia. split; [now intros ->|now inversion 1].
    - split; [discriminate|]. intros H. inv H. assert (eqb y y = true) by now apply eqb_eq. congruence.
  Qed.

  Theorem equal_slice_exact a b : equal_slice eqb a b = true <-> a = b.
  Proof.
    destruct a as [a|], b as [b|]; simpl; try (split; congruence).
    destruct (Nat.eqb_spec (length a) (length b)) as [E|E].
    - rewrite equal_loop_eq by assumption. split; congruence.
    - split; [discriminate|]. intros H. inv H. lia.
  Qed.
End EqualGeneric.

Lemma byte_ltb_lt a b : byte_ltb a b = true <-> byte_lt a b.
Proof. unfold byte_ltb, byte_lt, b2n. apply N.ltb_lt. Qed.
Lemma byte_lt_irrefl a : ~ byte_lt a a.
Proof. unfold byte_lt. lia. Qed.
Lemma byte_lt_trans a b c : byte_lt a b -> byte_lt b c -> byte_lt a c.
Proof. unfold byte_lt. lia. Qed.
Lemma byte_lt_total a b : byte_lt a b \/ a = b \/ byte_lt b a.
Proof.
  unfold byte_lt. destruct (N.lt_trichotomy (Byte.to_N a) (Byte.to_N b)) as [H|[H|H]]; auto.
  right. left. now apply b2n_inj.
Qed.

Definition byte_compare_exact :=
  compare_slice_exact byte_ltb byte_lt byte_ltb_lt byte_lt_irrefl byte_lt_trans byte_lt_total.
Definition byte_compare_antisym :=
  compare_slice_antisym byte_ltb byte_lt byte_ltb_lt byte_lt_irrefl byte_lt_trans byte_lt_total.
Definition byte_compare_trans :=
  compare_slice_trans byte_ltb byte_lt byte_ltb_lt byte_lt_irrefl byte_lt_trans byte_lt_total.

Definition byte_compare_defined :=
  compare_slice_defined byte_ltb byte_lt byte_ltb_lt byte_lt_irrefl byte_lt_trans byte_lt_total.

Lemma zltb_lt' a b : (a <? b)%Z = true <-> (a < b)%Z.
Proof. apply Z.ltb_lt. Qed.
Lemma z_total a b : (a < b \/ a = b \/ b < a)%Z.
Proof. lia. Qed.
Definition int_compare_exact :=
  compare_slice_exact Z.ltb Z.lt zltb_lt' Z.lt_irrefl Z.lt_trans z_total.
Definition int_compare_antisym :=
  compare_slice_antisym Z.ltb Z.lt zltb_lt' Z.lt_irrefl Z.lt_trans z_total.
Definition int_compare_trans :=
  compare_slice_trans Z.ltb Z.lt zltb_lt' Z.lt_irrefl Z.lt_trans z_total.

Definition int_compare_defined :=
  compare_slice_defined Z.ltb Z.lt zltb_lt' Z.lt_irrefl Z.lt_trans z_total.

Lemma slice_lt_nil_iff {A} (R : A -> A -> Prop) s : slice_lt R None s <-> exists l, s = Some l.
Proof. split; [inversion 1; eauto|]. intros [l ->]. constructor. Qed.

Lemma cbs_compare_wrap s t :
  cbs_compare s (CWrap t) = match s with None => Ok (-1)%Z | Some _ => compare_byte_slice s t end.
Proof. destruct s; reflexivity. Qed.

Lemma cbs_equal_wrap s t : cbs_equal s (CWrap t) = Ok (equal_byte_slice s t).
Proof.
  unfold cbs_equal, comparable_equal, equal_byte_slice.
  destruct s as [s|], t as [t|]; simpl.
  - destruct (Nat.eqb (length s) (length t)); reflexivity.
  - destruct s; reflexivity.
  - destruct t; reflexivity.
  - reflexivity.
Qed.

Lemma equal_byte_slice_exact a b : equal_byte_slice a b = true <-> a = b.
Proof. apply equal_slice_exact. apply byte_eqb_eq. Qed.

Lemma equal_int_slice_exact a b : equal_int_slice a b = true <-> a = b.
Proof. apply equal_slice_exact. apply Z.eqb_eq. Qed.

Theorem cbs_equal_compare s t :
  ~ (s = None /\ t = None) ->
  (cbs_equal s (CWrap t) = Ok true <-> cbs_compare s (CWrap t) = Ok 0%Z).
Proof.
  intros Hn. rewrite cbs_equal_wrap, cbs_compare_wrap. destruct s as [l|].
  - destruct (byte_compare_exact (Some l) t) as (_ & E & _).
    unfold compare_byte_slice. rewrite E.
    split.
    + intros H. apply equal_byte_slice_exact. congruence.
    + intros H. f_equal. now apply equal_byte_slice_exact.
  - destruct t as [t|].
    + simpl. split; discriminate.
    + exfalso. auto.
Qed.
