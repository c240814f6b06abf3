(** * Iteration over a map whose keys do not change, within any history of calls. *)
From Coq Require Import List ZArith Bool Lia Arith.
From Verif Require Import Base BaseProofs AVLModel MapSpec AVLSpec MapProofs AVLProofs AVLHistory AVLPtrModel AVLPtrProofs AVLPtrOps AVLPtrPut
  AVLPtrRemove AVLPtrCalls AVLPtrMono AVLPtrSpec AVLPtrIter AVLPtrSys AVLPtrHistory AVLPtrWalk.
Import ListNotations.
Local Open Scope Z_scope.

Lemma rep_fun {K V} (h : @heap K V) p t fp : rep h p t fp -> forall t' fp', rep h p t' fp' -> t' = t /\ fp' = fp.
Proof.
  induction 1 as [|a k v b pl pr l r fl fr E Hl IHl Hr IHr]; intros t' fp' H'; inv H'; auto.
  match goal with H : nth_error h a = Some (Cell _ _ _ _ _) |- _ => rewrite E in H; inv H end.
  match goal with H : rep h _ ?l0 ?f0, H0 : rep h _ ?l1 ?f1 |- _ =>
    destruct (IHl _ _ H) as (-> & ->); destruct (IHr _ _ H0) as (-> & ->) end. auto.
Qed.

Section Calm.
  Context {K V : Type} (equalb : K -> K -> res bool) (compare : K -> K -> res Z).
  Context (D : K -> Prop) (eqv lt : K -> K -> Prop) (TK : total_keys D eqv lt equalb compare).
  Notation tree := (tree K V).
  Notation heap := (@heap K V).
  Notation sys := (@sys K V).
  Notation step := (p_step equalb compare).
  Notation steps := (steps equalb compare).
  Notation binv := (binv D eqv lt).
  Implicit Types (pre : list (pop K V)) (op : pop K V).

  Lemma steps_fun s op s1 o1 s2 o2 : steps s op s1 o1 -> steps s op s2 o2 -> s2 = s1 /\ o2 = o1.
  Proof using Type.
    clear. intros (n1 & H1) (n2 & H2). specialize (H1 (Nat.max n1 n2) ltac:(lia)). specialize (H2 (Nat.max n1 n2) ltac:(lia)).
    rewrite H1 in H2. inv H2. auto.
  Qed.

  (** The call leaves the keys of map [m] as they are. *)
  Definition calm_call pre m op : Prop :=
    match op with
    | PPut m' (Some k) _ => m' = m -> exists k' v', eqv k k' /\ held eqv pre m k' v'
    | PRemove m' (Some k) => m' = m -> forall k' v', eqv k k' -> ~ held eqv pre m k' v'
    | _ => True
    end.

  Lemma calm_snoc c m pre op : calm eqv c m (pre ++ [op]) ->
    calm eqv c m pre /\ ((c <= length pre)%nat -> calm_call pre m op).
  Proof using Type.
    clear. intros H. split.
    - intros j x Hj Hx. pose proof (nth_lt _ _ _ Hx) as L. specialize (H j x Hj).
      rewrite nth_error_app1 in H by exact L. specialize (H Hx).
      rewrite firstn_app in H. replace (j - length pre)%nat with O in H by lia. cbn [firstn] in H. rewrite app_nil_r in H. exact H.
    - intros Hc. specialize (H (length pre) op Hc). rewrite nth_error_app2, Nat.sub_diag in H by lia. specialize (H eq_refl).
      rewrite firstn_app, Nat.sub_diag, firstn_all in H. cbn [firstn] in H. rewrite app_nil_r in H. exact H.
  Qed.

  Lemma nexts_snoc i c pre op : (c <= length pre)%nat -> nexts i c (pre ++ [op]) = (nexts i c pre + (if is_next i op then 1 else 0))%nat.
  Proof using Type.
    clear. intros H. unfold nexts. rewrite skipn_app. replace (c - length pre)%nat with O by lia. cbn [skipn].
    rewrite filter_app, app_length. cbn [filter]. destruct (is_next i op); reflexivity.
  Qed.

  Lemma iters_lt os : forall pre j0 i m c, nth_error (iters_from j0 pre os) i = Some (m, c) ->
    (j0 <= c < j0 + length pre)%nat.
  Proof using Type.
    clear. induction os as [|o os IH]; intros pre j0 i m c H.
    - destruct pre as [|[]]; destruct i; discriminate.
    - destruct pre as [|x pre]; [destruct i; discriminate|]. cbn [length].
      assert (G : nth_error (iters_from (S j0) pre os) i = Some (m, c) -> (j0 <= c < j0 + S (length pre))%nat).
      { intros H0. specialize (IH pre (S j0) i m c H0). lia. }
      destruct x; try exact (G H). destruct o; try exact (G H). cbn [iters_from] in H.
      destruct i as [|i]; [inv H; lia|]. specialize (IH pre (S j0) i m c H). lia.
  Qed.

  (** A call leaves the memory of map [m] alone, up to entries and balances. *)
  Definition steady (s s' : sys) (m : nat) (fp : list nat) : Prop :=
    exists p z z' t', nth_error (s_trees s) m = Some (p, z) /\ nth_error (s_trees s') m = Some (p, z') /\ rep (s_heap s') p t' fp /\
      (forall x c, In x fp -> nth_error (s_heap s) x = Some c ->
         exists c', nth_error (s_heap s') x = Some c' /\ c_l c' = c_l c /\ c_r c' = c_r c).

  Lemma steady_same pre os s ts gs m t fp h' trees' its' : binv pre os s ts gs -> nth_error ts m = Some (t, fp) ->
    h' = s_heap s -> nth_error trees' m = nth_error (s_trees s) m -> steady s (Sys h' trees' its') m fp.
  Proof using Type.
    clear. intros B Ht -> E. destruct (nth_error (s_trees s) m) as [[p z]|] eqn:Em.
    - destruct (si_tree _ _ _ (bi_mem _ _ _ _ _ _ _ _ B) _ _ _ _ _ Em Ht) as (R & _). exists p, z, z, t. cbn [s_trees s_heap].
      split; [exact Em|]. split; [exact E|]. split; [exact R|]. eauto.
    - exfalso. apply nth_error_None in Em. apply nth_lt in Ht. rewrite (si_len _ _ _ (bi_mem _ _ _ _ _ _ _ _ B)) in Ht. lia.
  Qed.

  Lemma calm_step pre os s ts gs op s' o m t fp : binv pre os s ts gs -> keys_in D op -> steps s op s' o ->
    nth_error ts m = Some (t, fp) -> calm_call pre m op -> steady s s' m fp.
  Proof.
    intros B Ko Hst Ht Hc. destruct s as [h trees its].
    assert (NEAR : forall m0 p z, nth_error trees m0 = Some (p, z) -> exists t fp, nth_error ts m0 = Some (t, fp) /\ rep h p t fp /\ NoDup fp /\ bal t /\
      avl_inv D eqv lt (hist m0 pre) (mk_avl t z)).
    { intros m0 p z Em. destruct (sinv_get _ _ _ _ _ _ (bi_mem _ _ _ _ _ _ _ _ B) Em) as (t0 & fp0 & Et & R & N & Bt).
      exists t0, fp0. split; [exact Et|]. split; [exact R|]. split; [exact N|]. split; [exact Bt|].
      exact (bi_map _ _ _ _ _ _ _ _ B m0 p z t0 fp0 Em Et). }
    assert (SAME : forall trees' its' o', steps (Sys h trees its) op (Sys h trees' its') o' ->
      nth_error trees' m = nth_error trees m -> steady (Sys h trees its) s' m fp).
    { intros trees' its' o' H1 H2. destruct (steps_fun _ _ _ _ _ _ H1 Hst) as (-> & _). eapply steady_same; eauto. }
    (* calls with a key *)
    assert (KEYED : forall m0 k (mk : K -> mop K V) (prog : nat -> ptree -> @prog K V (ptree * pobs K V)),
      (forall n, step n (Sys h trees its) op = on_tree (Sys h trees its) m0 (prog n)) ->
      D k -> op_key (mk k) = k ->
      (forall p z t fp n T' o, rep h p t fp -> NoDup fp -> bal t -> (height t < n)%nat ->
         avl_step equalb compare (mk_avl t z) (mk k) = Ok (T', o) ->
         (m0 = m -> entry_at eqv (hist m pre) k o -> match mk k with MPut _ _ => o <> None | MRemove _ => o = None | MGet _ => True end) /\
         exists h' p' fp', prog n (p, z) h = Some (h', Ok ((p', avl_size T'), POEntry o)) /\
           rep h' p' (avl_root T') fp' /\ change h h' fp fp' /\
           (match mk k with MPut _ _ => o <> None | MRemove _ => o = None | MGet _ => True end -> p' = p /\ fp' = fp /\ same_links h h')) ->
      steady (Sys h trees its) s' m fp).
    { intros m0 k mk prog Hstep Dk Hkey Href.
      destruct (nth_error trees m0) as [[p0 z0]|] eqn:Em0.
      - destruct (NEAR m0 p0 z0 Em0) as (t0 & fp0 & Et0 & R0 & N0 & B0 & Hinv).
        destruct (avl_step_ok equalb compare D eqv lt TK (hist m0 pre) (mk_avl t0 z0) (mk k)) as ([t' z'] & o' & Hav & Hinv' & He);
          [rewrite Hkey; exact Dk|exact Hinv|]. rewrite Hkey in He.
        destruct (Href p0 z0 t0 fp0 (S (height t0)) _ o' R0 N0 B0 (Nat.lt_succ_diag_r _) Hav) as (Hcalm & h' & p' & fp' & Hp & R' & C' & Hq).
        cbn [avl_root avl_size] in *.
        assert (H1 : steps (Sys h trees its) op (Sys h' (upd trees m0 (p', z')) its) (Ok (POEntry o'))).
        { apply (steps_at _ _ (S (height t0))). rewrite Hstep. unfold on_tree. cbn [s_trees s_heap s_iters]. rewrite Em0, Hp. reflexivity. }
        destruct (steps_fun _ _ _ _ _ _ H1 Hst) as (-> & _).
        destruct (Nat.eq_dec m0 m) as [->|Hne].
        + rewrite Ht in Et0. inv Et0. destruct (Hq (Hcalm eq_refl He)) as (-> & -> & SL).
          exists p0, z0, z', t'. cbn [s_trees s_heap]. split; [exact Em0|]. split; [apply upd_eq; eapply nth_lt; eauto|].
          split; [exact R'|]. intros x c Hx. apply SL.
        + destruct (nth_error trees m) as [[p z]|] eqn:Em.
          2:{ exfalso. apply nth_error_None in Em. apply nth_lt in Ht.
              pose proof (si_len _ _ _ (bi_mem _ _ _ _ _ _ _ _ B)) as L. cbn [s_trees] in L. lia. }
          destruct (si_tree _ _ _ (bi_mem _ _ _ _ _ _ _ _ B) _ _ _ _ _ Em Ht) as (R & _). cbn [s_heap] in R.
          assert (F : forall x, In x fp -> nth_error h' x = nth_error h x).
          { intros x Hx. apply (proj2 (ch_keeps _ _ _ _ C')); [eapply rep_lt; eauto|].
            intros Hf. exact (si_disj _ _ _ (bi_mem _ _ _ _ _ _ _ _ B) m0 m t0 fp0 t fp x Hne Et0 Ht Hf Hx). }
          exists p, z, z, t. cbn [s_trees s_heap]. split; [exact Em|]. split; [rewrite upd_ne by exact Hne; exact Em|].
          split; [eapply rep_frame; eauto|]. intros x c Hx Hcx. exists c. rewrite F by exact Hx. auto.
      - apply (SAME trees its Err); [|reflexivity]. exists O. intros n _. rewrite Hstep. unfold on_tree. cbn [s_trees]. now rewrite Em0. }
    assert (NIL : forall m0 (prog : nat -> ptree -> @prog K V (ptree * pobs K V)),
      (forall n, step n (Sys h trees its) op = on_tree (Sys h trees its) m0 (prog n)) -> (forall n t, prog n t h = Some (h, Panic)) ->
      steady (Sys h trees its) s' m fp).
    { intros m0 prog Hstep Hprog. destruct (nth_error trees m0) as [t0|] eqn:Em0.
      - apply (SAME trees its Panic); [|reflexivity]. exists O. intros n _. rewrite Hstep. unfold on_tree. cbn [s_trees s_heap s_iters].
        now rewrite Em0, Hprog.
      - apply (SAME trees its Err); [|reflexivity]. exists O. intros n _. rewrite Hstep. unfold on_tree. cbn [s_trees]. now rewrite Em0. }
    assert (ITER : forall i (prog : nat -> @iprog K V (pobs K V)),
      (forall n, step n (Sys h trees its) op = on_iter (Sys h trees its) i (prog n)) -> steady (Sys h trees its) s' m fp).
    { intros i prog Hstep. destruct Hst as (n0 & Hs). specialize (Hs n0 (le_n _)). rewrite Hstep in Hs. unfold on_iter in Hs.
      cbn [s_iters s_heap s_trees] in Hs. destruct (nth_error its i).
      - destruct (prog n0 h p) as [[it' r]|]; [|discriminate]. inv Hs. eapply steady_same; eauto.
      - inv Hs. eapply steady_same; eauto. }
    destruct op as [|m0 k v|m0 k|m0 k|m0|m0 st en|i|i|i].
    - apply (SAME (trees ++ [(None, 0)]) its (Ok PODone)); [exists O; reflexivity|]. apply nth_error_app1.
      apply nth_lt in Ht. pose proof (si_len _ _ _ (bi_mem _ _ _ _ _ _ _ _ B)) as L. cbn [s_trees] in L. lia.
    - destruct k as [k|].
      + apply (KEYED m0 k (fun k => MPut k v) (fun n t => put_prog equalb compare n t (Some k) v)); auto.
        intros p z u f n T' o' R N Bt Hn Hav. split.
        { intros -> He. destruct (Hc eq_refl) as (k' & v' & H1 & H2). intros ->. exact (He k' v' H1 H2). }
        pose proof (put_call equalb compare h p z u f n k v R N Bt Hn) as H. cbn [avl_step] in Hav. rewrite Hav in H.
        destruct H as (h' & p' & fp' & H1 & H2 & H3 & H4 & H5 & H6). eauto 10.
      + apply (NIL m0 (fun n t => put_prog equalb compare n t None v)); auto.
    - destruct k as [k|].
      + apply (KEYED m0 k (fun k => MRemove k) (fun n t => remove_prog equalb compare n t (Some k))); auto.
        intros p z u f n T' o' R N Bt Hn Hav. split.
        { intros -> He. destruct o' as [[k' v']|]; [|reflexivity]. exfalso. destruct He as (H1 & H2). exact (Hc eq_refl k' v' H1 H2). }
        pose proof (remove_call equalb compare h p z u f n k R N Bt Hn) as H. cbv zeta in H. cbn [avl_step] in Hav. rewrite Hav in H.
        destruct H as (h' & p' & fp' & H1 & H2 & H3 & H4 & H5 & H6). exists h', p', fp'. split; [exact H1|]. split; [exact H2|].
        split; [exact H5|]. intros E. destruct (H6 E) as (X1 & X2 & _ & X3). auto.
      + apply (NIL m0 (fun n t => remove_prog equalb compare n t None)); auto.
    - apply (KEYED m0 k (fun k => MGet k) (fun n t => get_prog equalb compare n t k)); auto.
      intros p z u f n T' o' R N Bt Hn Hav. split; [auto|].
      rewrite (get_call equalb compare h p z u f n k R Hn). cbn [avl_step] in Hav.
      destruct (avl_get equalb compare (mk_avl u z) k) as [o0| |]; cbn [rbind] in Hav; try discriminate.
      inv Hav. cbn [rbind avl_root avl_size]. exists h, p, f. split; [reflexivity|]. split; [exact R|]. split; [apply change_refl|].
      intros _. split; [reflexivity|]. split; [reflexivity|]. apply same_links_refl.
    - destruct (nth_error trees m0) as [[p z]|] eqn:Em0.
      + apply (SAME trees its (Ok (POInt z))); [|reflexivity]. exists O. intros n _. unfold p_step, on_tree. cbn [s_trees s_heap s_iters hret snd].
        rewrite Em0. cbn [snd]. now rewrite (upd_same _ _ _ Em0).
      + apply (SAME trees its Err); [|reflexivity]. exists O. intros n _. unfold p_step, on_tree. cbn [s_trees]. now rewrite Em0.
    - destruct Hst as (n0 & Hs). specialize (Hs n0 (le_n _)). unfold p_step in Hs. cbn [s_iters s_heap s_trees] in Hs.
      destruct (nth_error trees m0) as [t0|]; [|inv Hs; eapply steady_same; eauto].
      destruct (i_new compare n0 (fst t0) st en h) as [[i| |]|]; inv Hs; eapply steady_same; eauto.
    - apply (ITER i (fun n => ibind (i_has_next compare n) (fun b => iret (POBool b)))). auto.
    - apply (ITER i (fun n => ibind (i_peek compare n) (fun e => iret (POEntry e)))). auto.
    - apply (ITER i (fun n => ibind (i_next compare n) (fun e => iret (POEntry e)))). auto.
  Qed.

  (** The iterators without bounds over maps with a constant set of keys. *)
  Definition winv pre os (s : sys) (ts : list (tree * list nat)) : Prop :=
    forall i m c, nth_error (iters pre os) i = Some (m, c) -> nth_error pre c = Some (PIter m None None) -> calm eqv c m pre ->
      exists it t fp, nth_error (s_iters s) i = Some it /\ nth_error ts m = Some (t, fp) /\
        at_pos (s_heap s) it (skipn (nexts i c pre) fp) /\ (hi_pos it = 1 -> forall a, hi_curr it = Some a -> In a fp).

  Lemma tl_skipn {A} q : forall l : list A, tl (skipn q l) = skipn (q + 1) l.
  Proof using Type. clear. induction q as [|q IH]; intros [|x l]; cbn [Nat.add skipn tl]; auto. Qed.

  Lemma shown_nth_list (h : heap) fp : forall q l,
    map (fun x => option_map (fun c => (c_key c, c_val c)) (nth_error h x)) fp = map Some l ->
    shown h (skipn q fp) = nth_error l q.
  Proof using Type.
    clear. induction fp as [|x fp IH]; intros q [|e l] E; cbn [map] in E; try discriminate.
    - destruct q; reflexivity.
    - inv E. destruct q as [|q].
      + cbn [skipn shown nth_error]. destruct (nth_error h x) as [c|]; cbn [option_map] in *; congruence.
      + cbn [skipn nth_error]. auto.
  Qed.
  Lemma shown_nth (h : heap) p (t : tree) fp q : rep h p t fp -> shown h (skipn q fp) = nth_error (inorder t) q.
  Proof using Type. clear. intros R. apply shown_nth_list. eapply rep_entries; eauto. Qed.

  Lemma winv_step pre os s ts gs op s' o ts' gs' : binv pre os s ts gs -> keys_in D op -> steps s op s' o ->
    binv (pre ++ [op]) (os ++ [o]) s' ts' gs' -> winv pre os s ts -> winv (pre ++ [op]) (os ++ [o]) s' ts'.
  Proof.
    intros B Ko Hst B' W i m c Hi Hc Hcalm. pose proof (bi_len _ _ _ _ _ _ _ _ B) as L.
    rewrite iters_snoc in Hi by exact L.
    destruct (lt_dec i (length (iters pre os))) as [Hlt|Hge].
    - (* an old iterator *)
      rewrite nth_error_app1 in Hi by exact Hlt. pose proof (iters_lt _ _ _ _ _ _ Hi) as Hcl. cbn [Nat.add] in Hcl.
      rewrite nth_error_app1 in Hc by lia.
      apply calm_snoc in Hcalm. destruct Hcalm as (Hcalm & Hcc). specialize (Hcc ltac:(lia)).
      destruct (W i m c Hi Hc Hcalm) as (it & t & fp & Hit & Ht & HP & Hcur).
      destruct (calm_step _ _ _ _ _ _ _ _ _ _ _ B Ko Hst Ht Hcc) as (p & z & z' & t' & T1 & T2 & R' & F).
      assert (Ht' : exists u, nth_error ts' m = Some (u, fp)).
      { destruct (sinv_get _ _ _ _ _ _ (bi_mem _ _ _ _ _ _ _ _ B') T2) as (u & f & Hu & Ru & _).
        destruct (rep_fun _ _ _ _ R' _ _ Ru) as (_ & ->). eauto. }
      destruct Ht' as (u & Hu).
      assert (HP' : at_pos (s_heap s') it (skipn (nexts i c pre) fp)).
      { eapply at_pos_frame; [exact HP| |exact Hcur|exact F]. intros x Hx.
        rewrite <- (firstn_skipn (nexts i c pre) fp). apply in_or_app. auto. }
      rewrite nexts_snoc by lia.
      assert (OTHER : nth_error (s_iters s') i = nth_error (s_iters s) i -> is_next i op = false ->
        exists it t fp, nth_error (s_iters s') i = Some it /\ nth_error ts' m = Some (t, fp) /\
        at_pos (s_heap s') it (skipn (nexts i c pre + (if is_next i op then 1 else 0)) fp) /\ (hi_pos it = 1 -> forall a, hi_curr it = Some a -> In a fp)).
      { intros E1 E2. rewrite E2, Nat.add_0_r. exists it, u, fp. split; [congruence|]. auto. }
      destruct (is_next i op) eqn:En.
      + destruct op as [| | | | | | | |i0]; try discriminate. cbn [is_next] in En. apply Nat.eqb_eq in En. subst i0.
        destruct (next_to compare (s_heap s) it _ HP) as (it' & (n0 & Hr) & HP2 & Hcur2).
        destruct Hst as (n1 & Hs). specialize (Hs (Nat.max n0 n1) ltac:(lia)). unfold p_step, on_iter in Hs. rewrite Hit in Hs.
        unfold ibind in Hs. rewrite Hr in Hs by lia. cbn [iret] in Hs. inv Hs. cbn [s_heap s_iters] in *.
        exists it', u, fp. split; [apply upd_eq; eapply nth_lt; eauto|]. split; [exact Hu|]. split.
        * rewrite <- tl_skipn. exact HP2.
        * intros P a Ha. specialize (Hcur2 P a Ha). rewrite <- (firstn_skipn (nexts i c pre) fp). apply in_or_app. right.
          rewrite Hcur2. now left.
      + assert (KEEP : forall x (b : bool), x = op -> (b = true -> nth_error (s_iters s') i = nth_error (s_iters s) i) -> b = true ->
           exists it t fp, nth_error (s_iters s') i = Some it /\ nth_error ts' m = Some (t, fp) /\
           at_pos (s_heap s') it (skipn (nexts i c pre + 0) fp) /\ (hi_pos it = 1 -> forall a, hi_curr it = Some a -> In a fp)).
        { intros x b _ E Eb. apply OTHER; auto. }
        destruct Hst as (n1 & Hs).
        assert (TREE : forall m0 f, step n1 s op = on_tree s m0 f -> nth_error (s_iters s') i = nth_error (s_iters s) i).
        { intros m0 f E. rewrite (Hs n1 (le_n _)) in E. unfold on_tree in E. destruct (nth_error (s_trees s) m0); [|inv E; reflexivity].
          destruct (f _ _) as [[h2 [[t2 o2]| |]]|]; inv E; reflexivity. }
        assert (ITERS : forall i0 (prog : nat -> @iprog K V (pobs K V)) r it0', 
           (forall n, step n s op = on_iter s i0 (prog n)) -> runs prog (s_heap s) it it0' r -> at_front (s_heap s) it0' (skipn (nexts i c pre) fp) ->
           exists it t fp, nth_error (s_iters s') i = Some it /\ nth_error ts' m = Some (t, fp) /\
           at_pos (s_heap s') it (skipn (nexts i c pre + 0) fp) /\ (hi_pos it = 1 -> forall a, hi_curr it = Some a -> In a fp)).
        { intros i0 prog r it0' Hstep (n0 & Hr) HF. destruct (Nat.eq_dec i0 i) as [->|Hne].
          - specialize (Hs (Nat.max n0 n1) ltac:(lia)). rewrite Hstep in Hs. unfold on_iter in Hs. rewrite Hit, Hr in Hs by lia. inv Hs.
            cbn [s_heap s_iters] in *. rewrite Nat.add_0_r. exists it0', u, fp. split; [apply upd_eq; eapply nth_lt; eauto|]. split; [exact Hu|].
            split; [now apply front_pos|]. intros P a Ha. exfalso. eapply front_cur; eauto.
          - specialize (Hs n1 (le_n _)). rewrite Hstep in Hs. unfold on_iter in Hs. apply OTHER; [|reflexivity].
            destruct (nth_error (s_iters s) i0); [|inv Hs; reflexivity]. destruct (prog n1 (s_heap s) p0) as [[i2 r2]|]; inv Hs.
            cbn [s_iters]. now rewrite upd_ne by exact Hne. }
        destruct op as [|m0 k v|m0 k|m0 k|m0|m0 st en|i0|i0|i0].
        * apply OTHER; [|reflexivity]. specialize (Hs n1 (le_n _)). inv Hs. reflexivity.
        * apply OTHER; [|reflexivity]. eapply TREE. reflexivity.
        * apply OTHER; [|reflexivity]. eapply TREE. reflexivity.
        * apply OTHER; [|reflexivity]. eapply TREE. reflexivity.
        * apply OTHER; [|reflexivity]. eapply TREE. reflexivity.
        * apply OTHER; [|reflexivity]. specialize (Hs n1 (le_n _)). unfold p_step in Hs.
          destruct (nth_error (s_trees s) m0) as [t0|]; [|inv Hs; reflexivity].
          destruct (i_new compare n1 (fst t0) st en (s_heap s)) as [[i2| |]|]; inv Hs; try reflexivity.
          cbn [s_iters]. apply nth_error_app1. eapply nth_lt; eauto.
        * destruct (has_next_to compare (s_heap s) it _ HP) as (it' & (n0 & Hr) & HF).
          eapply (ITERS i0 (fun n => ibind (i_has_next compare n) (fun b => iret (POBool b)))); [reflexivity| |exact HF].
          exists n0. intros n Hn. unfold ibind. rewrite Hr by exact Hn. reflexivity.
        * destruct (peek_to compare (s_heap s) it _ HP) as (it' & (n0 & Hr) & HF).
          eapply (ITERS i0 (fun n => ibind (i_peek compare n) (fun e => iret (POEntry e)))); [reflexivity| |exact HF].
          exists n0. intros n Hn. unfold ibind. rewrite Hr by exact Hn. reflexivity.
        * apply OTHER; [|reflexivity]. specialize (Hs n1 (le_n _)). unfold p_step, on_iter in Hs. cbn [is_next] in En. apply Nat.eqb_neq in En.
          destruct (nth_error (s_iters s) i0); [|inv Hs; reflexivity].
          destruct (ibind (i_next compare n1) (fun e => iret (POEntry e)) (s_heap s) p0) as [[i2 r2]|]; inv Hs.
          cbn [s_iters]. now rewrite upd_ne by exact En.
    - (* a new one *)
      rewrite nth_error_app2 in Hi by lia. set (k := (i - length (iters pre os))%nat) in *.
      assert (X : exists st en ob, op = PIter m st en /\ o = Ok ob /\ c = length pre /\ i = length (iters pre os)).
      { destruct op as [| | | | |m0 st en| | |]; try (destruct k; discriminate). destruct o as [ob| |]; try (destruct k; discriminate).
        destruct k as [|k0] eqn:Ek; [|destruct k0; discriminate]. inv Hi. exists st, en, ob. split; [reflexivity|]. split; [reflexivity|].
        split; [reflexivity|]. unfold k in Ek. lia. }
      destruct X as (st & en & ob & -> & -> & -> & Ei). rewrite nth_error_app2, Nat.sub_diag in Hc by lia. inv Hc. clear k Hi.
      assert (Hm : exists p z, nth_error (s_trees s) m = Some (p, z)).
      { destruct Hst as (n1 & Hs). specialize (Hs n1 (le_n _)). unfold p_step in Hs.
        destruct (nth_error (s_trees s) m) as [[p z]|]; [eauto|discriminate]. }
      destruct Hm as (p & z & Em). destruct (sinv_get _ _ _ _ _ _ (bi_mem _ _ _ _ _ _ _ _ B) Em) as (t & fp & Et & R & _).
      destruct (new_to compare _ _ _ _ R) as (it & (n0 & Hr) & HP & Hpos).
      destruct Hst as (n1 & Hs). specialize (Hs (Nat.max n0 n1) ltac:(lia)). unfold p_step in Hs. rewrite Em in Hs. cbn [fst] in Hs.
      rewrite Hr in Hs by lia. inv Hs. cbn [s_heap s_iters s_trees] in *.
      destruct (sinv_get _ _ _ _ _ _ (bi_mem _ _ _ _ _ _ _ _ B') Em) as (u & f & Hu & Ru & _). cbn [s_heap] in Ru.
      destruct (rep_fun _ _ _ _ R _ _ Ru) as (-> & ->).
      exists it, t, fp. split.
      + assert (Hl : length (iters pre os) = length (s_iters s)).
        { rewrite <- (bi_iters _ _ _ _ _ _ _ _ B), map_length. exact (bi_glen _ _ _ _ _ _ _ _ B). }
        rewrite Hl, nth_error_app2, Nat.sub_diag by lia. reflexivity.
      + split; [exact Hu|]. unfold nexts. rewrite skipn_app, skipn_all, Nat.sub_diag. cbn [skipn app filter is_next length skipn].
        split; [exact HP|]. intros P. congruence.
  Qed.

  (** What a call on such an iterator shows. *)
  Lemma winv_answer pre os s ts gs op s' o i m c : binv pre os s ts gs -> winv pre os s ts -> steps s op s' o ->
    nth_error (iters pre os) i = Some (m, c) -> nth_error pre c = Some (PIter m None None) -> calm eqv c m pre ->
    exists l, lists_entries eqv (hist m pre) l /\ ascending lt l /\
      (op = PNext i \/ op = PPeek i -> o = Ok (POEntry (nth_error l (nexts i c pre)))) /\
      (op = PHasNext i -> o = Ok (POBool (nexts i c pre <? length l)%nat)).
  Proof.
    intros B W Hst Hi Hc Hcalm. destruct (W i m c Hi Hc Hcalm) as (it & t & fp & Hit & Ht & HP & _).
    assert (Hm : exists p z, nth_error (s_trees s) m = Some (p, z)).
    { destruct (nth_error (s_trees s) m) as [[p z]|] eqn:E; [eauto|]. exfalso. apply nth_error_None in E. apply nth_lt in Ht.
      rewrite (si_len _ _ _ (bi_mem _ _ _ _ _ _ _ _ B)) in Ht. lia. }
    destruct Hm as (p & z & Em). pose proof (bi_map _ _ _ _ _ _ _ _ B m p z t fp Em Ht) as Hinv.
    destruct (si_tree _ _ _ (bi_mem _ _ _ _ _ _ _ _ B) _ _ _ _ _ Em Ht) as (R & _).
    exists (inorder t). split; [exact (avl_inv_lists equalb compare D eqv lt TK (hist m pre) (mk_avl t z) Hinv)|].
    split; [apply Hinv|]. destruct Hst as (n1 & Hs). split.
    - rewrite <- (shown_nth _ _ _ _ _ R). intros [-> | ->].
      + destruct (next_to compare (s_heap s) it _ HP) as (it' & (n0 & Hr) & _). specialize (Hs (Nat.max n0 n1) ltac:(lia)).
        unfold p_step, on_iter in Hs. rewrite Hit in Hs. unfold ibind in Hs. rewrite Hr in Hs by lia. now inv Hs.
      + destruct (peek_to compare (s_heap s) it _ HP) as (it' & (n0 & Hr) & _). specialize (Hs (Nat.max n0 n1) ltac:(lia)).
        unfold p_step, on_iter in Hs. rewrite Hit in Hs. unfold ibind in Hs. rewrite Hr in Hs by lia. now inv Hs.
    - intros ->. destruct (has_next_to compare (s_heap s) it _ HP) as (it' & (n0 & Hr) & _). specialize (Hs (Nat.max n0 n1) ltac:(lia)).
      unfold p_step, on_iter in Hs. rewrite Hit in Hs. unfold ibind in Hs. rewrite Hr in Hs by lia. inv Hs. do 2 f_equal.
      rewrite <- (rep_length _ _ _ _ R), skipn_length. destruct (Nat.ltb_spec (nexts i c pre) (length fp)) as [H|H].
      + destruct (length fp - nexts i c pre)%nat eqn:E; [lia|reflexivity].
      + replace (length fp - nexts i c pre)%nat with O by lia. reflexivity.
  Qed.

  Lemma calm_history (ops : list (pop K V)) : Forall (keys_in D) ops ->
    exists n0 s os ts gs, (forall n, (n0 <= n)%nat -> p_run equalb compare n sys0 ops = Some (s, os)) /\
      binv ops os s ts gs /\ winv ops os s ts /\
      forall j op o i m c, nth_error ops j = Some op -> nth_error os j = Some o ->
        nth_error (iters (firstn j ops) (firstn j os)) i = Some (m, c) -> nth_error ops c = Some (PIter m None None) ->
        calm eqv c m (firstn j ops) ->
        exists l, lists_entries eqv (hist m (firstn j ops)) l /\ ascending lt l /\
          (op = PNext i \/ op = PPeek i -> o = Ok (POEntry (nth_error l (nexts i c (firstn j ops))))) /\
          (op = PHasNext i -> o = Ok (POBool (nexts i c (firstn j ops) <? length l)%nat)).
  Proof.
    induction ops as [|op ops IH] using rev_ind; intros F.
    - exists O, sys0, [], [], []. split; [reflexivity|]. split; [apply binv0|]. split; [intros [|] ? ? H; discriminate|].
      intros [|] ? ? ? ? ? H; discriminate.
    - apply Forall_app in F. destruct F as (F & Fo). inv Fo. destruct (IH F) as (n0 & s & os & ts & gs & Hr & B & W & HA).
      destruct (bind_step equalb compare D eqv lt TK ops os s ts gs op B) as (s' & o & ts' & gs' & Hst & B' & _ & _); [assumption|].
      assert (W' : winv (ops ++ [op]) (os ++ [o]) s' ts') by (eapply winv_step; eauto).
      destruct Hst as (n1 & Hs).
      exists (Nat.max n0 n1), s', (os ++ [o]), ts', gs'. split; [|split; [exact B'|split; [exact W'|]]].
      + intros n Hn. eapply run_snoc; [apply Hr; lia|apply Hs; lia].
      + pose proof (bi_len _ _ _ _ _ _ _ _ B) as L. intros j op' o' i m c H1' H2'.
        assert (Hj : (j <= length ops)%nat) by (apply nth_lt in H1'; rewrite app_length in H1'; cbn [length] in H1'; lia).
        rewrite !firstn_app. replace (j - length ops)%nat with O by lia. replace (j - length os)%nat with O by lia.
        cbn [firstn]. rewrite !app_nil_r. intros H3 H4.
        pose proof (iters_lt _ _ _ _ _ _ H3) as Hcl. cbn [Nat.add] in Hcl. rewrite firstn_length in Hcl.
        rewrite nth_error_app1 in H4 by lia.
        destruct (Nat.eq_dec j (length ops)) as [->|Hne].
        * rewrite nth_error_app2 in H1' by lia. rewrite Nat.sub_diag in H1'. inv H1'.
          rewrite nth_error_app2 in H2' by lia. replace (length ops - length os)%nat with O in H2' by lia. inv H2'.
          rewrite firstn_all in *. rewrite L, firstn_all in H3. intros H5. eapply winv_answer; eauto. exists n1. exact Hs.
        * rewrite nth_error_app1 in H1' by lia. rewrite nth_error_app1 in H2' by lia. apply HA; auto.
  Qed.
End Calm.
