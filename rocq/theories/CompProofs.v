(** * Proofs about nested comparable wrappers. *)
From Coq Require Import List NArith ZArith Bool Lia.
From Coq Require Import Strings.Byte.
From Verif Require Import Base BaseProofs CmpModel CmpSpec CmpProofs CompModel CompSpec.
Import ListNotations.

(** Induction over values with the elements of a list at hand. *)
Fixpoint cval_rect' (P : cval -> Prop)
  (hn : P VNone) (hp : forall k, P (VNilPtr k)) (hb : forall s, P (VBytes s)) (hi : forall k s, P (VNums k s))
  (h0 : P (VList None)) (hl : forall l, Forall P l -> P (VList (Some l))) (v : cval) {struct v} : P v :=
  match v with
  | VNone => hn
  | VNilPtr k => hp k
  | VBytes s => hb s
  | VNums k s => hi k s
  | VList None => h0
  | VList (Some l) =>
      hl l ((fix go (l : list cval) : Forall P l :=
               match l with
               | [] => Forall_nil P
               | x :: l' => Forall_cons x (cval_rect' P hn hp hb hi h0 hl x) (go l')
               end) l)
  end.

(** ** Equal *)

Fixpoint eq_walk (l l' : list cval) : res bool :=
  match l, l' with
  | [], _ => Ok true
  | _ :: _, [] => Panic
  | a :: r, b :: r' =>
      if negb (Bool.eqb (is_none a) (is_none b)) then Ok false
      else if is_none a then eq_walk r r'
      else let? e := comp_equal a b in if e then eq_walk r r' else Ok false
  end.

Lemma eq_loop_walk (l2 : list cval) : forall rest p q, l2 = p ++ q ->
  (fix loop (rest : list cval) (i : nat) {struct rest} : res bool :=
     match rest with
     | [] => Ok true
     | a :: rest' =>
         match nth_error l2 i with
         | None => Panic
         | Some b =>
             if negb (Bool.eqb (is_none a) (is_none b)) then Ok false
             else if is_none a then loop rest' (S i)
             else let? e := comp_equal a b in if e then loop rest' (S i) else Ok false
         end
     end) rest (length p) = eq_walk rest q.
Proof.
  induction rest as [|a rest IH]; intros p q ->; [reflexivity|].
  rewrite nth_error_app2, Nat.sub_diag by lia.
  destruct q as [|b q]; [reflexivity|]. cbn [nth_error eq_walk].
  specialize (IH (p ++ [b]) q). rewrite <- app_assoc in IH. specialize (IH eq_refl).
  rewrite app_length in IH. cbn [length] in IH. rewrite Nat.add_1_r in IH.
  destruct (negb _); [reflexivity|]. destruct (is_none a); [exact IH|].
  destruct (comp_equal a b) as [e| |]; cbn [rbind]; [|reflexivity|reflexivity].
  destruct e; [exact IH|reflexivity].
Qed.

Lemma comp_equal_list s s' :
  comp_equal (VList s) (VList s') =
  if Nat.eqb (length (elements s)) (length (elements s')) then eq_walk (elements s) (elements s') else Ok false.
Proof.
  cbn [comp_equal]. destruct s as [l|]; [|destruct (Nat.eqb _ _); reflexivity].
  destruct (Nat.eqb _ _); [|reflexivity].
  exact (eq_loop_walk (elements s') l [] (elements s') eq_refl).
Qed.

Lemma bytes_equal_exact (s t : gslice) : comp_equal (VBytes s) (VBytes t) = Ok (equal_byte_slice s t).
Proof. exact (cbs_equal_wrap s t). Qed.

Lemma nums_equal_wrap s t : comparable_equal Z.eqb (Some s) (CWrap t) = Ok (equal_int_slice s t).
Proof.
  unfold comparable_equal, equal_int_slice.
  destruct s as [s|], t as [t|]; simpl.
  - destruct (Nat.eqb (length s) (length t)); reflexivity.
  - destruct s; reflexivity.
  - destruct t; reflexivity.
  - reflexivity.
Qed.

Lemma alikes_length l l' : alikes l l' -> length l = length l'.
Proof. revert l'. induction l; intros l' H; inv H; simpl; auto. Qed.

Definition equal_ok (r : cval) : Prop := r <> VNone -> forall t,
  (comp_equal r t = Ok true <-> alike r t \/ (exists k, r = VNilPtr k) /\ t = VNone) /\
  (comp_equal r t = Panic <-> equal_trap r t) /\ comp_equal r t <> Err.

Lemma none_alike x : alike VNone x <-> x = VNone.
Proof. split; [now inversion 1|]. intros ->. constructor. Qed.

Lemma alike_none_r x : alike x VNone -> x = VNone.
Proof. now inversion 1. Qed.

Lemma is_none_true x : is_none x = true <-> x = VNone.
Proof. destruct x; split; try discriminate; auto. Qed.

Lemma eq_walk_spec l : Forall equal_ok l -> forall l', length l = length l' ->
  (eq_walk l l' = Ok true <-> alikes l l') /\
  (eq_walk l l' = Panic <-> exists pre pre' x y r r', l = pre ++ x :: r /\ l' = pre' ++ y :: r' /\
      alikes pre pre' /\ x <> VNone /\ y <> VNone /\ equal_trap x y) /\
  eq_walk l l' <> Err.
Proof.
  induction 1 as [|a r Ha Hr IH]; intros l' L.
  - destruct l'; [|discriminate]. cbn. split; [|split].
    + split; [constructor|reflexivity].
    + split; [discriminate|]. intros (pre & ? & ? & ? & ? & ? & E & _). destruct pre; discriminate.
    + discriminate.
  - destruct l' as [|b r']; [discriminate|]. cbn [length] in L.
    destruct (IH r' ltac:(lia)) as (I1 & I2 & I3).
    cbn [eq_walk].
    destruct (is_none a) eqn:Na.
    + apply is_none_true in Na. subst a.
      destruct (is_none b) eqn:Nb.
      * apply is_none_true in Nb. subst b. cbn [Bool.eqb negb]. rewrite I1, I2. split; [|split; [|exact I3]].
        -- split; [intros; constructor; [constructor|assumption]|]. intros H. now inv H.
        -- split.
           ++ intros (pre & pre' & x & y & q & q' & -> & -> & Hp & Hx & Hy & Ht).
              exists (VNone :: pre), (VNone :: pre'), x, y, q, q'. repeat split; auto.
              constructor; [constructor|assumption].
           ++ intros (pre & pre' & x & y & q & q' & E1 & E2 & Hp & Hx & Hy & Ht).
              destruct Hp as [|u v p p' Hu Hp]; cbn in E1, E2; inv E1; [congruence|]. inv E2.
              exists p, p', x, y, q, q'. repeat split; auto.
      * cbn [Bool.eqb negb]. split; [|split; [|discriminate]].
        -- split; [discriminate|]. intros H. inv H.
           match goal with K : alike VNone b |- _ => apply none_alike in K; subst b; discriminate end.
        -- split; [discriminate|].
           intros (pre & pre' & x & y & q & q' & E1 & E2 & Hp & Hx & Hy & Ht).
           destruct Hp as [|u v p p' Hu Hp]; cbn in E1, E2; inv E1; [congruence|]. inv E2.
           apply none_alike in Hu. subst. discriminate.
    + assert (Na' : a <> VNone) by (intros ->; discriminate).
      destruct (is_none b) eqn:Nb.
      * apply is_none_true in Nb. subst b. cbn [Bool.eqb negb]. split; [|split; [|discriminate]].
        -- split; [discriminate|]. intros H. inv H.
           match goal with K : alike a VNone |- _ => apply alike_none_r in K; congruence end.
        -- split; [discriminate|].
           intros (pre & pre' & x & y & q & q' & E1 & E2 & Hp & Hx & Hy & Ht).
           destruct Hp as [|u v p p' Hu Hp]; cbn in E1, E2; inv E1; inv E2; [congruence|].
           apply alike_none_r in Hu. congruence.
      * assert (Nb' : b <> VNone) by (intros ->; discriminate).
        cbn [Bool.eqb negb]. destruct (Ha Na' b) as (A1 & A2 & A3).
        destruct (comp_equal a b) as [e| |] eqn:E; cbn [rbind].
        -- assert (nt : ~ equal_trap a b) by (intros T; apply A2 in T; discriminate).
           destruct e.
           ++ assert (al : alike a b) by (destruct (proj1 A1 eq_refl) as [|[_ ?]]; [assumption|contradiction]).
              rewrite I1, I2. split; [|split; [|exact I3]].
              ** split; [now constructor|]. intros H. now inv H.
              ** split.
                 --- intros (pre & pre' & x & y & q & q' & -> & -> & Hp & Hx & Hy & Ht).
                     exists (a :: pre), (b :: pre'), x, y, q, q'. repeat split; auto. now constructor.
                 --- intros (pre & pre' & x & y & q & q' & E1 & E2 & Hp & Hx & Hy & Ht).
                     destruct Hp as [|u v p p' Hu Hp]; cbn in E1, E2; inv E1; inv E2; [contradiction|].
                     exists p, p', x, y, q, q'. repeat split; auto.
           ++ assert (nal : ~ alike a b) by (intros T; assert (Ok false = Ok true) by (apply A1; auto); discriminate).
              split; [|split; [|discriminate]].
              ** split; [discriminate|]. intros H. now inv H.
              ** split; [discriminate|].
                 intros (pre & pre' & x & y & q & q' & E1 & E2 & Hp & Hx & Hy & Ht).
                 destruct Hp as [|u v p p' Hu Hp]; cbn in E1, E2; inv E1; inv E2; contradiction.
        -- congruence.
        -- assert (T : equal_trap a b) by now apply A2.
           split; [|split; [|discriminate]].
           ++ split; [discriminate|]. intros H. inv H.
              assert (Panic = Ok true) by (apply A1; auto). discriminate.
           ++ split; [|reflexivity]. intros _. exists [], [], a, b, r, r'. repeat split; auto. constructor.
Qed.

Ltac other :=
  cbn; split; [|split; [|discriminate]]; split; try discriminate; try reflexivity;
  let H := fresh in intros H;
  first [ now inversion H
        | destruct H as [H|[H ?]]; [now inversion H|destruct H; discriminate]
        | now constructor
        | destruct H as [H|[_ H]]; [now inversion H|discriminate H] ].

Lemma equal_exact_all r : equal_ok r.
Proof.
  induction r as [|k|s|k s| |l IH] using cval_rect'; intros N t.
  - congruence.
  - cbn [comp_equal]. split; [|split; [|discriminate]].
    + destruct t; cbn [is_none]; split; try discriminate; try reflexivity; intros H.
      * right. eauto.
      * destruct H as [H|[_ H]]; [inversion H|discriminate].
      * destruct H as [H|[_ H]]; [inversion H|discriminate].
      * destruct H as [H|[_ H]]; [inversion H|discriminate].
      * destruct H as [H|[_ H]]; [inversion H|discriminate].
    + split; [discriminate|inversion 1].
  - destruct t as [|k'|s'|k' s'|s'].
    5: { other. }
    + other.
    + destruct k'; other.
    + rewrite bytes_equal_exact. split; [|split; [|discriminate]]; split; try discriminate.
      * intros E. left. inversion E as [E']. apply equal_byte_slice_exact in E'. subst. constructor.
      * intros [H|[[k K] _]]; [|discriminate]. inv H. f_equal. now apply equal_byte_slice_exact.
      * inversion 1.
    + other.
  - destruct t as [|k'|s'|k' s'|s'].
    + other.
    + destruct k' as [| |k']; try (now other).
      cbn [comp_equal seen_by_nums].
      destruct (Nat.eqb_spec k k') as [->|D]; cbn.
      * split; [|split; [|discriminate]]; split; try discriminate; try reflexivity.
        -- intros [H|[_ H]]; [inversion H|discriminate].
        -- intros _. constructor.
      * split; [|split; [|discriminate]]; split; try discriminate.
        -- intros [H|[_ H]]; [inversion H|discriminate].
        -- intros H. inv H. congruence.
    + other.
    + cbn [comp_equal seen_by_nums]. destruct (Nat.eqb_spec k k') as [->|D].
      * rewrite nums_equal_wrap. split; [|split; [|discriminate]]; split; try discriminate.
        -- intros E. left. inversion E as [E']. apply equal_int_slice_exact in E'. subst. constructor.
        -- intros [H|[[k K] _]]; [|discriminate]. inv H. f_equal. now apply equal_int_slice_exact.
        -- inversion 1.
      * cbn. split; [|split; [|discriminate]]; split; try discriminate.
        -- intros [H|[_ H]]; [inv H; congruence|discriminate].
        -- inversion 1.
    + other.
  - destruct t as [|k'|s'|k' s'|s'].
    5: { rewrite comp_equal_list. cbn [elements length].
         destruct (Nat.eqb_spec 0 (length (elements s'))) as [E|E].
         - destruct (elements s') eqn:ES; [|discriminate]. cbn [eq_walk].
           split; [|split; [|discriminate]]; split; try discriminate; try reflexivity.
           + intros _. left. constructor. unfold elements in ES. rewrite ES. constructor.
           + intros H. inv H.
         - split; [|split; [|discriminate]]; split; try discriminate.
           + intros [H|[_ H]]; [|discriminate]. inv H. unfold elements in E.
             match goal with K : alikes _ _ |- _ => apply alikes_length in K; cbn in K; congruence end.
           + inversion 1. }
    + other.
    + destruct k'; other.
    + other.
    + other.
  - destruct t as [|k'|s'|k' s'|s'].
    5: { rewrite comp_equal_list. cbn [elements].
         destruct (Nat.eqb_spec (length l) (length (elements s'))) as [E|E].
         - destruct (eq_walk_spec l IH (elements s') E) as (W1 & W2 & W3).
           split; [|split; [|exact W3]].
           + rewrite W1. split.
             * intros H. left. constructor. exact H.
             * intros [H|[_ H]]; [|discriminate]. inv H. assumption.
           + rewrite W2. split.
             * intros (pre & pre' & x & y & q & q' & E1 & E2 & Hp & Hx & Hy & Ht).
               destruct s' as [l'|]; cbn in E, E2; [|destruct pre'; discriminate].
               subst. constructor; auto.
               apply alikes_length in Hp. rewrite !app_length in E. cbn in E. lia.
             * intros H. inv H. exists pre, pre', x, y, l0, l'. repeat split; auto.
               intros ->. match goal with K : equal_trap x VNone |- _ => inv K end. congruence.
         - split; [|split; [|discriminate]]; split; try discriminate.
           + intros [H|[_ H]]; [|discriminate]. inv H. unfold elements in E.
             match goal with K : alikes _ _ |- _ => apply alikes_length in K; cbn in K; congruence end.
           + intros H. inv H. exfalso. apply E. cbn. rewrite !app_length. cbn.
             match goal with K : alikes _ _ |- _ => apply alikes_length in K end. lia. }
    + other.
    + destruct k'; other.
    + other.
    + other.
Qed.

(** ** Compare *)

Fixpoint cmp_walk (l1 l2 : list cval) : res Z :=
  match l1, l2 with
  | [], [] => Ok 0%Z
  | [], _ :: _ => Ok (-1)%Z
  | _ :: _, [] => Panic
  | a :: r1, b :: r2 =>
      let? x := comp_compare a b in
      if Z.eqb x 0 then cmp_walk r1 r2 else Ok x
  end.

Lemma cmp_loop_walk (l1 l2 : list cval) : forall rest p1 p2 q, l1 = p1 ++ rest -> l2 = p2 ++ q ->
  length p1 = length p2 ->
  (fix loop (rest : list cval) (i : nat) {struct rest} : res Z :=
     match rest with
     | [] => Ok (if Nat.ltb (length l1) (length l2) then (-1)%Z else 0%Z)
     | a :: rest' =>
         if Nat.ltb (length l1) i then Ok 1%Z
         else
           match nth_error l2 i with
           | None => Panic
           | Some b =>
               let? x := comp_compare a b in
               if Z.eqb x 0 then loop rest' (S i) else Ok x
           end
     end) rest (length p1) = cmp_walk rest q.
Proof.
  induction rest as [|a rest IH]; intros p1 p2 q E1 E2 L.
  - subst. rewrite !app_length. cbn [length]. destruct q as [|b q]; cbn [length cmp_walk].
    + destruct (Nat.ltb_spec (length p1 + 0) (length p2 + 0)); [lia|reflexivity].
    + destruct (Nat.ltb_spec (length p1 + 0) (length p2 + S (length q))); [reflexivity|lia].
  - assert (Hl : Nat.ltb (length l1) (length p1) = false).
    { apply Nat.ltb_ge. rewrite E1, app_length. lia. }
    rewrite Hl. rewrite E2 at 1. rewrite nth_error_app2 by lia. rewrite L, Nat.sub_diag.
    destruct q as [|b q]; [reflexivity|]. cbn [nth_error cmp_walk].
    specialize (IH (p1 ++ [a]) (p2 ++ [b]) q). rewrite <- !app_assoc in IH.
    specialize (IH E1 E2). rewrite !app_length in IH. cbn [length] in IH. rewrite !Nat.add_1_r in IH.
    specialize (IH ltac:(lia)). rewrite L in IH.
    destruct (comp_compare a b) as [x| |]; cbn [rbind]; [|reflexivity|reflexivity].
    destruct (Z.eqb x 0); [exact IH|reflexivity].
Qed.

Lemma comp_compare_list l1 l2 :
  comp_compare (VList (Some l1)) (VList (Some l2)) = cmp_walk l1 l2.
Proof. exact (cmp_loop_walk l1 l2 l1 [] [] l2 eq_refl eq_refl eq_refl). Qed.

Lemma below_cons x y l l' :
  below (VList (Some (x :: l))) (VList (Some (y :: l'))) <->
  below x y \/ (x = y /\ below (VList (Some l)) (VList (Some l'))).
Proof.
  split.
  - intros H. inv H.
    + right. split; [reflexivity|constructor].
    + destruct pre as [|u pre]; cbn in *.
      * match goal with A : _ :: _ = _ :: _, B : _ :: _ = _ :: _ |- _ => inv A; inv B end. auto.
      * match goal with A : _ :: _ = _ :: _, B : _ :: _ = _ :: _ |- _ => inv A; inv B end.
        right. split; [reflexivity|]. now constructor.
  - intros [H|[-> H]].
    + exact (below_in [] x y l l' H).
    + inv H.
      * exact (below_prefix (y :: l) y0 l'0).
      * exact (below_in (y :: pre) x y0 l0 l'0 H2).
Qed.

Lemma below_nil_cons y l' : below (VList (Some [])) (VList (Some (y :: l'))).
Proof. exact (below_prefix [] y l'). Qed.

Lemma below_nil_r l : ~ below (VList (Some l)) (VList (Some [])).
Proof. intros H. inv H; destruct l + destruct pre; discriminate. Qed.

Lemma clash_cons x y l l' :
  clash (VList (Some (x :: l))) (VList (Some (y :: l'))) <->
  clash x y \/ (x = y /\ clash (VList (Some l)) (VList (Some l'))).
Proof.
  split.
  - intros H. inv H.
    + cbn in *. congruence.
    + match goal with A : _ ++ _ = _ :: _ |- _ => cbn in A; inv A end.
      right. split; [reflexivity|apply clash_prefix].
    + destruct pre as [|u pre]; cbn in *.
      * match goal with A : _ :: _ = _ :: _, B : _ :: _ = _ :: _ |- _ => inv A; inv B end. auto.
      * match goal with A : _ :: _ = _ :: _, B : _ :: _ = _ :: _ |- _ => inv A; inv B end.
        right. split; [reflexivity|]. now apply clash_in.
  - intros [H|[-> H]].
    + exact (clash_in [] x y l l' H).
    + inv H.
      * cbn in *. congruence.
      * exact (clash_prefix (y :: l') y0 l'0).
      * exact (clash_in (y :: pre) x y0 l0 l'0 H2).
Qed.

Lemma clash_cons_nil y l' : clash (VList (Some (y :: l'))) (VList (Some [])).
Proof. exact (clash_prefix [] y l'). Qed.

Lemma clash_nil_l l : ~ clash (VList (Some [])) (VList (Some l)).
Proof. intros H. inv H; cbn in *; try congruence; destruct l + destruct pre; discriminate. Qed.

Lemma below_trans_all a : forall b c, below a b -> below b c -> below a c.
Proof.
  induction a as [|k|s|k s| |l IH] using cval_rect'; intros b c H1 H2; try (now inversion H1).
  - inv H1. inv H2. constructor. eapply lex_trans; eauto using byte_lt_trans.
  - inv H1. inv H2. constructor. eapply lex_trans; eauto using Z.lt_trans.
  - assert (exists m, b = VList (Some m)) as [m ->] by (inv H1; eauto).
    assert (exists n, c = VList (Some n)) as [n ->] by (inv H2; eauto).
    revert m n H1 H2. induction IH as [|x l Hx Hl IHl]; intros m n H1 H2.
    + destruct n as [|z n]; [now apply below_nil_r in H2|]. apply below_nil_cons.
    + destruct m as [|y m]; [now apply below_nil_r in H1|].
      destruct n as [|z n]; [now apply below_nil_r in H2|].
      rewrite below_cons in *. destruct H1 as [H1|[-> H1]], H2 as [H2|[-> H2]]; eauto.
Qed.

Definition cmp_ok (a : cval) : Prop := solid a -> forall b, solid b ->
  (comp_compare a b = Ok (-1)%Z <-> below a b) /\
  (comp_compare a b = Ok 0%Z <-> a = b) /\
  (comp_compare a b = Panic <-> clash a b) /\
  (comp_compare a b = Ok 1%Z -> below b a) /\
  (below b a -> comp_compare a b = Ok 1%Z \/ comp_compare a b = Panic) /\
  (comp_compare a b = Ok (-1)%Z \/ comp_compare a b = Ok 0%Z \/ comp_compare a b = Ok 1%Z \/
   comp_compare a b = Panic).

Lemma cmp_walk_spec l : Forall solid l -> Forall cmp_ok l -> forall m, Forall solid m ->
  (cmp_walk l m = Ok (-1)%Z <-> below (VList (Some l)) (VList (Some m))) /\
  (cmp_walk l m = Ok 0%Z <-> l = m) /\
  (cmp_walk l m = Panic <-> clash (VList (Some l)) (VList (Some m))) /\
  (cmp_walk l m = Ok 1%Z -> below (VList (Some m)) (VList (Some l))) /\
  (below (VList (Some m)) (VList (Some l)) -> cmp_walk l m = Ok 1%Z \/ cmp_walk l m = Panic) /\
  (cmp_walk l m = Ok (-1)%Z \/ cmp_walk l m = Ok 0%Z \/ cmp_walk l m = Ok 1%Z \/ cmp_walk l m = Panic).
Proof.
  intros S C. induction C as [|x l Hx Hl IH]; intros m Sm.
  - destruct m as [|y m]; cbn [cmp_walk].
    + assert (~ below (VList (Some [])) (VList (Some []))) by apply below_nil_r.
      assert (~ clash (VList (Some [])) (VList (Some []))) by apply clash_nil_l.
      intuition (discriminate || auto).
    + assert (below (VList (Some [])) (VList (Some (y :: m)))) by apply below_nil_cons.
      assert (~ clash (VList (Some [])) (VList (Some (y :: m)))) by apply clash_nil_l.
      assert (~ below (VList (Some (y :: m))) (VList (Some []))) by apply below_nil_r.
      intuition (discriminate || auto).
  - apply Forall_cons_iff in S. destruct S as [Sx Sl].
    destruct m as [|y m]; cbn [cmp_walk].
    + assert (below (VList (Some [])) (VList (Some (x :: l)))) by apply below_nil_cons.
      assert (clash (VList (Some (x :: l))) (VList (Some []))) by apply clash_cons_nil.
      assert (~ below (VList (Some (x :: l))) (VList (Some []))) by apply below_nil_r.
      intuition (discriminate || auto).
    + apply Forall_cons_iff in Sm. destruct Sm as [Sy Sm].
      specialize (IH Sl m Sm). destruct (Hx Sx y Sy) as (A1 & A2 & A3 & A4 & A5 & A6).
      rewrite !below_cons, clash_cons.
      destruct A6 as [E|[E|[E|E]]]; rewrite E in *; cbn [rbind Z.eqb] in *.
      * assert (below x y) by now apply A1.
        assert (x <> y) by (intros Q; apply A2 in Q; discriminate).
        assert (~ clash x y) by (intros Q; apply A3 in Q; discriminate).
        assert (~ below y x) by (intros Q; apply A5 in Q; destruct Q; discriminate).
        intuition (discriminate || congruence || auto).
      * assert (x = y) by now apply A2. subst y.
        assert (~ below x x) by (intros Q; apply A1 in Q; discriminate).
        assert (~ clash x x) by (intros Q; apply A3 in Q; discriminate).
        destruct IH as (I1 & I2 & I3 & I4 & I5 & I6). rewrite I1, I2, I3.
        split; [tauto|]. split; [split; [congruence|intros Q; now inv Q]|]. split; [tauto|].
        split; [auto|]. split; [|rewrite <- I1, <- I2, <- I3; exact I6]. rewrite <- I3. tauto.
      * assert (below y x) by now apply A4.
        assert (x <> y) by (intros Q; apply A2 in Q; discriminate).
        assert (~ clash x y) by (intros Q; apply A3 in Q; discriminate).
        assert (~ below x y) by (intros Q; apply A1 in Q; discriminate).
        intuition (discriminate || congruence || auto).
      * assert (clash x y) by now apply A3.
        assert (x <> y) by (intros Q; apply A2 in Q; discriminate).
        assert (~ below x y) by (intros Q; apply A1 in Q; discriminate).
        intuition (discriminate || congruence || auto).
Qed.

Lemma prim_ok {A} (ltb : A -> A -> bool) (R : A -> A -> Prop) :
  (forall a b, ltb a b = true <-> R a b) -> (forall a, ~ R a a) ->
  (forall a b c, R a b -> R b c -> R a c) -> (forall a b, R a b \/ a = b \/ R b a) ->
  forall l m,
  let c := comparable_compare (prim_cmp ltb) (Some (Some l)) (CWrap (Some m)) in
  (c = Ok (-1)%Z <-> lex_lt R l m) /\ (c = Ok 0%Z <-> l = m) /\ (c = Panic <-> proper_prefix m l) /\
  (c = Ok 1%Z -> lex_lt R m l) /\ (lex_lt R m l -> c = Ok 1%Z \/ c = Panic) /\
  (c = Ok (-1)%Z \/ c = Ok 0%Z \/ c = Ok 1%Z \/ c = Panic).
Proof.
  intros H1 H2 H3 H4 l m c.
  assert (Hc : c = walk ltb l m) by apply compare_slice_some. clearbody c. subst c.
  assert (W := walk_cases ltb l m).
  rewrite (walk_lt ltb R), (walk_eq ltb R), (walk_panic ltb R) by assumption.
  split; [tauto|]. split; [tauto|]. split; [tauto|]. split; [|split].
  - intros E. apply (walk_gt ltb R) in E; tauto.
  - intros E. destruct W as [W|[W|[W|W]]].
    + apply (walk_lt ltb R) in W; try assumption. exfalso.
      eapply (lex_irrefl R H2). eapply (lex_trans R H3); eauto.
    + apply (walk_eq ltb R) in W; try assumption. subst. exfalso. eapply (lex_irrefl R H2); eauto.
    + auto.
    + right. apply (walk_panic ltb R) in W; assumption.
  - rewrite (walk_lt ltb R), (walk_eq ltb R), (walk_panic ltb R) in W by assumption. tauto.
Qed.

Ltac mismatch :=
  split; [split; [discriminate|now inversion 1]|]; split; [split; discriminate|];
  split; [split; [intros _; apply clash_kind; discriminate|reflexivity]|];
  split; [discriminate|]; split; [now inversion 1|auto].

Lemma compare_exact_all a : cmp_ok a.
Proof.
  induction a as [|k|s|k s| |l IH] using cval_rect'; intros Sa b Sb; try (now inversion Sa).
  - inv Sa. rename l into l1. inv Sb.
    + cbn [comp_compare is_nil seen_by_bytes].
      destruct (prim_ok byte_ltb byte_lt byte_ltb_lt byte_lt_irrefl byte_lt_trans byte_lt_total l1 l)
        as (P1 & P2 & P3 & P4 & P5 & P6).
      rewrite P1, P2, P3. split; [|split; [|split; [|split; [|split]]]].
      * split; [now constructor|now inversion 1].
      * split; congruence.
      * split; [now constructor|]. intros H. inv H; [cbn in *; congruence|assumption].
      * intros H. constructor. auto.
      * intros H. inv H. rewrite <- P3. auto.
      * rewrite <- P1, <- P2, <- P3. exact P6.
    + cbn. mismatch.
    + cbn. mismatch.
  - inv Sa. rename l into l1. inv Sb.
    + cbn. mismatch.
    + cbn [comp_compare is_nil seen_by_nums]. destruct (Nat.eqb_spec k k0) as [<-|D].
      * destruct (prim_ok Z.ltb Z.lt zltb_lt' Z.lt_irrefl Z.lt_trans z_total l1 l)
          as (P1 & P2 & P3 & P4 & P5 & P6).
        rewrite P1, P2, P3. split; [|split; [|split; [|split; [|split]]]].
        -- split; [now constructor|now inversion 1].
        -- split; congruence.
        -- split; [now constructor|]. intros H. inv H; [cbn in *; congruence|assumption].
        -- intros H. constructor. auto.
        -- intros H. inv H. rewrite <- P3. auto.
        -- rewrite <- P1, <- P2, <- P3. exact P6.
      * cbn. split; [split; [discriminate|intros H; inv H; congruence]|].
        split; [split; [discriminate|intros H; inv H; congruence]|].
        split; [split; [intros _; apply clash_kind; cbn; congruence|reflexivity]|].
        split; [discriminate|]. split; [|auto]. intros H. inv H. congruence.
    + cbn. mismatch.
  - inv Sa. rename H0 into Sl. inv Sb.
    + cbn. mismatch.
    + cbn. mismatch.
    + rewrite comp_compare_list. destruct (cmp_walk_spec l Sl IH l0 H) as (P1 & P2 & P3 & P4 & P5 & P6).
      split; [exact P1|]. split; [rewrite P2; split; congruence|]. auto.
Qed.

(** Comparison of two non-nil lists in terms of their elements, with or without nils inside. *)
Lemma cmp_walk_outcome l : forall m, list_outcome comp_compare l m (cmp_walk l m).
Proof.
  induction l as [|a l IH]; intros [|b m]; cbn [cmp_walk].
  - apply lo_equal. constructor.
  - apply (lo_short _ [] []). constructor.
  - apply (lo_long _ [] []). constructor.
  - destruct (comp_compare a b) as [x| |] eqn:E; cbn [rbind].
    + destruct (Z.eqb_spec x 0) as [->|D].
      * specialize (IH m). destruct IH.
        -- apply lo_equal. now constructor.
        -- apply (lo_short _ (a :: l) (b :: m)). now constructor.
        -- apply (lo_long _ (a :: l) (b :: m)). now constructor.
        -- apply (lo_first _ (a :: l) (b :: m)); auto.
      * apply (lo_first _ [] []); [constructor|assumption|congruence].
    + apply (lo_first _ [] []); [constructor|assumption|congruence].
    + apply (lo_first _ [] []); [constructor|assumption|congruence].
Qed.

Lemma outcome_cmp_walk l m o : list_outcome comp_compare l m o -> cmp_walk l m = o.
Proof.
  intros [l' m' F|l' m' y r F|l' m' x r F|l' m' x y r r' o' F E N];
    induction F as [|a b l' m' Hab F IH]; cbn [cmp_walk app]; try reflexivity;
    try (rewrite Hab; cbn [rbind Z.eqb]; exact IH).
  rewrite E. destruct o' as [z| |]; cbn [rbind]; try reflexivity.
  destruct (Z.eqb_spec z 0); [congruence|reflexivity].
Qed.
