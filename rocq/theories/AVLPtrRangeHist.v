(** * Iterators with bounds over a map whose keys do not change, within any history of calls. *)
From Coq Require Import List ZArith Bool Lia Arith.
From Verif Require Import Base BaseProofs AVLModel MapSpec AVLSpec MapProofs AVLProofs AVLHistory AVLIter AVLPtrModel AVLPtrProofs AVLPtrOps AVLPtrPut
  AVLPtrRemove AVLPtrCalls AVLPtrMono AVLPtrSpec AVLPtrIter AVLPtrSys AVLPtrHistory AVLPtrWalk AVLPtrCalm AVLPtrRange.
Import ListNotations.
Local Open Scope Z_scope.

Section RangeHist.
  Context {K V : Type} (equalb : K -> K -> res bool) (compare : K -> K -> res Z).
  Context (D : K -> Prop) (eqv lt : K -> K -> Prop) (TK : total_keys D eqv lt equalb compare).
  Notation tree := (tree K V).
  Notation heap := (@heap K V).
  Notation sys := (@sys K V).
  Notation step := (p_step equalb compare).
  Notation steps := (steps equalb compare).
  Notation binv := (binv D eqv lt).
  Notation rng := (range_list (V := V) (ltb compare)).
  Notation dom_opt := (dom_opt D).
  Notation bpos := (bpos compare D).
  Notation bfront := (bfront compare D).
  Implicit Types (pre : list (pop K V)) (op : pop K V).

  Lemma skipn_same q : forall l l' : list (K * V), same_keys eqv l l' -> same_keys eqv (skipn q l) (skipn q l').
  Proof using Type.
    clear. induction q as [|q IH]; intros l l' H; [exact H|]. destruct H; [constructor|]. cbn [skipn]. now apply IH.
  Qed.
  Lemma skipn_in_dom q : forall l : list (K * V), in_dom D l -> in_dom D (skipn q l).
  Proof using Type.
    clear. induction q as [|q IH]; intros [|x l] H; auto. apply IH. apply Forall_cons_iff in H. apply H.
  Qed.
  Lemma skipn_asc q : forall l : list (K * V), ascending lt l -> ascending lt (skipn q l).
  Proof using Type.
    clear. induction q as [|q IH]; intros [|x l] H; auto. apply IH. unfold ascending in *. rewrite fop_cons in H. apply H.
  Qed.

  Lemma bpos_frame (h h' : heap) i rest fp n : bpos h i rest n -> incl rest fp ->
    (hi_pos i = 1 -> forall a, hi_curr i = Some a -> In a fp) ->
    (forall x c, In x fp -> nth_error h x = Some c -> exists c', nth_error h' x = Some c' /\ c_l c' = c_l c /\ c_r c' = c_r c) ->
    in_dom D (ent h rest) -> in_dom D (ent h' rest) -> same_keys eqv (ent h rest) (ent h' rest) ->
    bpos h' i rest n.
  Proof.
    intros [H|(En & Ds & De & H)] HI Hcur F Hd Hd' S; [now left|]. right.
    rewrite (rng_same equalb compare D eqv lt TK _ _ _ _ Ds De Hd Hd' S) in En. split; [exact En|]. split; [exact Ds|]. split; [exact De|].
    destruct H as [(P & C & A)|(P & S0 & a & c & fr & rest' & C & Ha & Sh & A & E)].
    - left. split; [exact P|]. split; [exact C|]. eapply after_frame; [exact A|]. intros x cx Hx. apply F. auto.
    - right. split; [exact P|]. split; [exact S0|]. destruct (F a c (Hcur P a C) Ha) as (c' & Hc & El & Er).
      exists a, c', fr, rest'. split; [exact C|]. split; [exact Hc|]. subst rest. split; [|split; [|reflexivity]].
      + rewrite Er. eapply shape_frame; [exact Sh|]. intros x cx Hx. apply F. apply HI, in_or_app. auto.
      + eapply after_frame; [exact A|]. intros x cx Hx. apply F. apply HI, in_or_app. auto.
  Qed.

  Lemma bnew_to (h : heap) p (t : tree) fp st en i n0 : rep h p t fp -> dom_opt st -> dom_opt en ->
    (forall n, (n0 <= n)%nat -> i_new compare n p st en h = Some (Ok i)) ->
    bpos h i fp (length (rng st en (inorder t))) /\ hi_pos i = 0.
  Proof.
    intros R Ds De Hi. pose proof (rep_shape _ _ _ _ R) as S. rewrite <- (rep_ent _ _ _ _ R).
    assert (X : exists i1 n1, (forall n, (n1 <= n)%nat -> (match p with None => Some (PIt [] p 0 None None, Ok tt) | Some _ => i_walk_left n h (PIt [] p 0 None None) end)
              = Some (i1, Ok tt)) /\ hi_start i1 = None /\ hi_end i1 = None /\ hi_pos i1 = 0 /\
              ((p = None /\ fp = [] /\ ended i1) \/ (hi_curr i1 <> None /\ after h (hi_curr i1 :: hi_paths i1) fp))).
    { destruct p as [a|].
      - destruct (walk_to h a fp S (PIt [] (Some a) 0 None None) []) as (i' & (n1 & Hr) & H1 & H2 & H3 & H4 & H5);
          [reflexivity|reflexivity|constructor|].
        rewrite app_nil_r in H5. exists i', n1. split; [exact Hr|]. split; [exact H1|]. split; [exact H2|]. split; [exact H3|]. auto.
      - inv S. exists (PIt [] None 0 None None), O. split; [reflexivity|]. split; [reflexivity|]. split; [reflexivity|]. split; [reflexivity|].
        left. split; [reflexivity|]. split; [reflexivity|]. split; reflexivity. }
    destruct X as (i1 & n1 & H1 & S1 & E1 & P1 & HX).
    specialize (Hi (Nat.max n0 n1) ltac:(lia)). unfold i_new in Hi. rewrite H1 in Hi by lia. cbn [rbind] in Hi.
    assert (Y : hi_paths i = hi_paths i1 /\ hi_curr i = hi_curr i1 /\ hi_pos i = 0 /\ hi_start i = st /\ hi_end i = en).
    { destruct st as [a|], en as [b|].
      - destruct (compare a b) as [c| |]; cbn [rbind] in Hi; try discriminate. destruct (0 <? c); inv Hi; auto.
      - inv Hi. auto.
      - inv Hi. auto.
      - inv Hi. auto. }
    destruct Y as (Y1 & Y2 & Y3 & Y4 & Y5). split; [|exact Y3]. destruct HX as [(_ & -> & (C & P))|(C & A)].
    - left. split; [split; congruence|]. cbn [ent flat_map]. now rewrite range_list_nil.
    - right. rewrite Y1, Y2, Y4, Y5. auto 10.
  Qed.

  (** The iterators over maps with a constant set of keys. *)
  Definition rinv pre os (s : sys) (ts : list (tree * list nat)) : Prop :=
    forall i m c st en, nth_error (iters pre os) i = Some (m, c) -> nth_error pre c = Some (PIter m st en) -> calm eqv c m pre ->
      dom_opt st /\ dom_opt en /\
      exists it t fp, nth_error (s_iters s) i = Some it /\ nth_error ts m = Some (t, fp) /\
        bpos (s_heap s) it (skipn (nexts i c pre) fp) (length (rng st en (inorder t)) - nexts i c pre) /\
        (hi_pos it = 1 -> forall a, hi_curr it = Some a -> In a fp).

  (** What the invariants say about the cells of a map. *)
  Lemma binv_ent pre os s ts gs m t fp q : binv pre os s ts gs -> nth_error ts m = Some (t, fp) ->
    exists p z, nth_error (s_trees s) m = Some (p, z) /\ rep (s_heap s) p t fp /\ avl_inv D eqv lt (hist m pre) (mk_avl t z) /\
      ent (s_heap s) (skipn q fp) = skipn q (inorder t) /\ in_dom D (ent (s_heap s) (skipn q fp)) /\ ascending lt (ent (s_heap s) (skipn q fp)).
  Proof using Type.
    intros B Ht. destruct (nth_error (s_trees s) m) as [[p z]|] eqn:Em.
    - destruct (si_tree _ _ _ (bi_mem _ _ _ _ _ _ _ _ B) _ _ _ _ _ Em Ht) as (R & _).
      pose proof (bi_map _ _ _ _ _ _ _ _ B m p z t fp Em Ht) as Hinv. exists p, z.
      assert (E : ent (s_heap s) (skipn q fp) = skipn q (inorder t)).
      { rewrite ent_skipn by (eapply rep_cells; eauto). now rewrite (rep_ent _ _ _ _ R). }
      split; [reflexivity|]. split; [exact R|]. split; [exact Hinv|]. split; [exact E|]. rewrite E. destruct Hinv as (Hd & Ha & _).
      split; [now apply skipn_in_dom|now apply skipn_asc].
    - exfalso. apply nth_error_None in Em. apply nth_lt in Ht. rewrite (si_len _ _ _ (bi_mem _ _ _ _ _ _ _ _ B)) in Ht. lia.
  Qed.

  Lemma rinv_step pre os s ts gs op s' o ts' gs' : binv pre os s ts gs -> keys_in D op -> steps s op s' o ->
    binv (pre ++ [op]) (os ++ [o]) s' ts' gs' -> rinv pre os s ts -> rinv (pre ++ [op]) (os ++ [o]) s' ts'.
  Proof.
    intros B Ko Hst B' W i m c bst ben Hi Hc Hcalm. pose proof (bi_len _ _ _ _ _ _ _ _ B) as L.
    rewrite iters_snoc in Hi by exact L.
    destruct (lt_dec i (length (iters pre os))) as [Hlt|Hge].
    - (* an old iterator *)
      rewrite nth_error_app1 in Hi by exact Hlt. pose proof (iters_lt _ _ _ _ _ _ Hi) as Hcl. cbn [Nat.add] in Hcl.
      rewrite nth_error_app1 in Hc by lia.
      apply calm_snoc in Hcalm. destruct Hcalm as (Hcalm & Hcc). specialize (Hcc ltac:(lia)).
      destruct (W i m c bst ben Hi Hc Hcalm) as (Ds & De & it & t & fp & Hit & Ht & HP & Hcur). split; [exact Ds|]. split; [exact De|].
      destruct (calm_step equalb compare D eqv lt TK _ _ _ _ _ _ _ _ _ _ _ B Ko Hst Ht Hcc) as (p & z & z' & t' & T1 & T2 & R' & F).
      assert (Ht' : exists u, nth_error ts' m = Some (u, fp)).
      { destruct (sinv_get _ _ _ _ _ _ (bi_mem _ _ _ _ _ _ _ _ B') T2) as (u & f & Hu & Ru & _).
        destruct (rep_fun _ _ _ _ R' _ _ Ru) as (_ & ->). eauto. }
      destruct Ht' as (u & Hu).
      destruct (binv_ent _ _ _ _ _ _ _ _ (nexts i c pre) B Ht) as (p1 & z1 & _ & _ & Hinv & Ee & Hed & Hea).
      destruct (binv_ent _ _ _ _ _ _ _ _ (nexts i c pre) B' Hu) as (p2 & z2 & _ & _ & Hinv' & Ee' & Hed' & _).
      pose proof (calm_keys equalb compare D eqv lt TK pre m op _ _ _ _ Ko Hcc Hinv Hinv') as SK.
      assert (EN : length (rng bst ben (inorder u)) = length (rng bst ben (inorder t))).
      { symmetry. apply (rng_same equalb compare D eqv lt TK); try assumption; [apply Hinv|apply Hinv']. }
      assert (HP' : bpos (s_heap s') it (skipn (nexts i c pre) fp) (length (rng bst ben (inorder t)) - nexts i c pre)).
      { eapply bpos_frame; [exact HP| |exact Hcur|exact F|exact Hed|exact Hed'|rewrite Ee, Ee'; now apply skipn_same]. intros x Hx.
        rewrite <- (firstn_skipn (nexts i c pre) fp). apply in_or_app. auto. }
      rewrite nexts_snoc by lia.
      assert (OTHER : nth_error (s_iters s') i = nth_error (s_iters s) i -> is_next i op = false ->
        exists it t fp, nth_error (s_iters s') i = Some it /\ nth_error ts' m = Some (t, fp) /\
        bpos (s_heap s') it (skipn (nexts i c pre + (if is_next i op then 1 else 0)) fp) (length (rng bst ben (inorder t)) - (nexts i c pre + (if is_next i op then 1 else 0))) /\ (hi_pos it = 1 -> forall a, hi_curr it = Some a -> In a fp)).
      { intros E1 E2. rewrite E2, Nat.add_0_r. exists it, u, fp. rewrite EN. split; [congruence|]. auto. }
      destruct (is_next i op) eqn:En.
      + destruct op as [| | | | | | | |i0]; try discriminate. cbn [is_next] in En. apply Nat.eqb_eq in En. subst i0.
        destruct (bnext_to equalb compare D eqv lt TK (s_heap s) it _ _ Hed Hea HP) as (it' & (n0 & Hr) & HP2 & Hcur2).
        destruct Hst as (n1 & Hs). specialize (Hs (Nat.max n0 n1) ltac:(lia)). unfold p_step, on_iter in Hs. rewrite Hit in Hs.
        unfold ibind in Hs. rewrite Hr in Hs by lia. cbn [iret] in Hs. inv Hs. cbn [s_heap s_iters] in *.
        exists it', u, fp. split; [apply upd_eq; eapply nth_lt; eauto|]. split; [exact Hu|]. split.
        * rewrite <- tl_skipn, EN. replace (length (rng bst ben (inorder t)) - (nexts i c pre + 1))%nat with (pred (length (rng bst ben (inorder t)) - nexts i c pre)) by lia. exact HP2.
        * intros P a Ha. specialize (Hcur2 P a Ha). rewrite <- (firstn_skipn (nexts i c pre) fp). apply in_or_app. right.
          rewrite Hcur2. now left.
      + assert (KEEP : forall x (b : bool), x = op -> (b = true -> nth_error (s_iters s') i = nth_error (s_iters s) i) -> b = true ->
           exists it t fp, nth_error (s_iters s') i = Some it /\ nth_error ts' m = Some (t, fp) /\
           bpos (s_heap s') it (skipn (nexts i c pre + 0) fp) (length (rng bst ben (inorder t)) - (nexts i c pre + 0)) /\ (hi_pos it = 1 -> forall a, hi_curr it = Some a -> In a fp)).
        { intros x b _ E Eb. apply OTHER; auto. }
        destruct Hst as (n1 & Hs).
        assert (TREE : forall m0 f, step n1 s op = on_tree s m0 f -> nth_error (s_iters s') i = nth_error (s_iters s) i).
        { intros m0 f E. rewrite (Hs n1 (le_n _)) in E. unfold on_tree in E. destruct (nth_error (s_trees s) m0); [|inv E; reflexivity].
          destruct (f _ _) as [[h2 [[t2 o2]| |]]|]; inv E; reflexivity. }
        assert (ITERS : forall i0 (prog : nat -> @iprog K V (pobs K V)) r it0', 
           (forall n, step n s op = on_iter s i0 (prog n)) -> runs prog (s_heap s) it it0' r -> bfront (s_heap s) it0' (skipn (nexts i c pre) fp) (length (rng bst ben (inorder t)) - nexts i c pre) ->
           exists it t fp, nth_error (s_iters s') i = Some it /\ nth_error ts' m = Some (t, fp) /\
           bpos (s_heap s') it (skipn (nexts i c pre + 0) fp) (length (rng bst ben (inorder t)) - (nexts i c pre + 0)) /\ (hi_pos it = 1 -> forall a, hi_curr it = Some a -> In a fp)).
        { intros i0 prog r it0' Hstep (n0 & Hr) HF. destruct (Nat.eq_dec i0 i) as [->|Hne].
          - specialize (Hs (Nat.max n0 n1) ltac:(lia)). rewrite Hstep in Hs. unfold on_iter in Hs. rewrite Hit, Hr in Hs by lia. inv Hs.
            cbn [s_heap s_iters] in *. rewrite Nat.add_0_r. exists it0', u, fp. rewrite EN. split; [apply upd_eq; eapply nth_lt; eauto|]. split; [exact Hu|].
            split; [now apply front_bpos|]. intros P a Ha. exfalso. eapply bfront_cur; eauto.
          - specialize (Hs n1 (le_n _)). rewrite Hstep in Hs. unfold on_iter in Hs. apply OTHER; [|reflexivity].
            destruct (nth_error (s_iters s) i0); [|inv Hs; reflexivity]. destruct (prog n1 (s_heap s) p0) as [[i2 r2]|]; inv Hs.
            cbn [s_iters]. now rewrite upd_ne by exact Hne. }
        destruct op as [|m0 k v|m0 k|m0 k|m0|m0 st en|i0|i0|i0].
        * apply OTHER; [|reflexivity]. specialize (Hs n1 (le_n _)). inv Hs. reflexivity.
        * apply OTHER; [|reflexivity]. eapply TREE. reflexivity.
        * apply OTHER; [|reflexivity]. eapply TREE. reflexivity.
        * apply OTHER; [|reflexivity]. eapply TREE. reflexivity.
        * apply OTHER; [|reflexivity]. eapply TREE. reflexivity.
        * apply OTHER; [|reflexivity]. specialize (Hs n1 (le_n _)). unfold p_step in Hs.
          destruct (nth_error (s_trees s) m0) as [t0|]; [|inv Hs; reflexivity].
          destruct (i_new compare n1 (fst t0) st en (s_heap s)) as [[i2| |]|]; inv Hs; try reflexivity.
          cbn [s_iters]. apply nth_error_app1. eapply nth_lt; eauto.
        * destruct (bhas_next_to equalb compare D eqv lt TK (s_heap s) it _ _ Hed Hea HP) as (it' & (n0 & Hr) & HF).
          eapply (ITERS i0 (fun n => ibind (i_has_next compare n) (fun b => iret (POBool b)))); [reflexivity| |exact HF].
          exists n0. intros n Hn. unfold ibind. rewrite Hr by exact Hn. reflexivity.
        * destruct (bpeek_to equalb compare D eqv lt TK (s_heap s) it _ _ Hed Hea HP) as (it' & (n0 & Hr) & HF).
          eapply (ITERS i0 (fun n => ibind (i_peek compare n) (fun e => iret (POEntry e)))); [reflexivity| |exact HF].
          exists n0. intros n Hn. unfold ibind. rewrite Hr by exact Hn. reflexivity.
        * apply OTHER; [|reflexivity]. specialize (Hs n1 (le_n _)). unfold p_step, on_iter in Hs. cbn [is_next] in En. apply Nat.eqb_neq in En.
          destruct (nth_error (s_iters s) i0); [|inv Hs; reflexivity].
          destruct (ibind (i_next compare n1) (fun e => iret (POEntry e)) (s_heap s) p0) as [[i2 r2]|]; inv Hs.
          cbn [s_iters]. now rewrite upd_ne by exact En.
    - (* a new one *)
      rewrite nth_error_app2 in Hi by lia. set (k := (i - length (iters pre os))%nat) in *.
      assert (X : exists st en ob, op = PIter m st en /\ o = Ok ob /\ c = length pre /\ i = length (iters pre os)).
      { destruct op as [| | | | |m0 st en| | |]; try (destruct k; discriminate). destruct o as [ob| |]; try (destruct k; discriminate).
        destruct k as [|k0] eqn:Ek; [|destruct k0; discriminate]. inv Hi. exists st, en, ob. split; [reflexivity|]. split; [reflexivity|].
        split; [reflexivity|]. unfold k in Ek. lia. }
      destruct X as (st & en & ob & -> & -> & -> & Ei). rewrite nth_error_app2, Nat.sub_diag in Hc by lia. inv Hc. clear k Hi.
      cbn [keys_in] in Ko. destruct Ko as (Ds & De). split; [exact Ds|]. split; [exact De|].
      assert (Hm : exists p z, nth_error (s_trees s) m = Some (p, z)).
      { destruct Hst as (n1 & Hs). specialize (Hs n1 (le_n _)). unfold p_step in Hs.
        destruct (nth_error (s_trees s) m) as [[p z]|]; [eauto|discriminate]. }
      destruct Hm as (p & z & Em). destruct (sinv_get _ _ _ _ _ _ (bi_mem _ _ _ _ _ _ _ _ B) Em) as (t & fp & Et & R & _).
      destruct Hst as (n1 & Hs). assert (X : exists it, (forall n, (n1 <= n)%nat -> i_new compare n p bst ben (s_heap s) = Some (Ok it)) /\
        s' = Sys (s_heap s) (s_trees s) (s_iters s ++ [it])).
      { pose proof (Hs n1 (le_n _)) as H. unfold p_step in H. rewrite Em in H. cbn [fst] in H.
        destruct (i_new compare n1 p bst ben (s_heap s)) as [[it| |]|]; inv H. exists it. split; [|reflexivity].
        intros n Hn. specialize (Hs n Hn). unfold p_step in Hs. rewrite Em in Hs. cbn [fst] in Hs.
        destruct (i_new compare n p bst ben (s_heap s)) as [[it'| |]|]; inv Hs.
        match goal with H : _ ++ [_] = _ ++ [_] |- _ => apply app_inv_head in H; now inv H end. }
      destruct X as (it & Hi & ->).
      destruct (bnew_to _ _ _ _ _ _ _ _ R Ds De Hi) as (HP & Hpos). cbn [s_heap s_iters s_trees] in *.
      destruct (sinv_get _ _ _ _ _ _ (bi_mem _ _ _ _ _ _ _ _ B') Em) as (u & f & Hu & Ru & _). cbn [s_heap] in Ru.
      destruct (rep_fun _ _ _ _ R _ _ Ru) as (-> & ->).
      exists it, t, fp. split.
      + assert (Hl : length (iters pre os) = length (s_iters s)).
        { rewrite <- (bi_iters _ _ _ _ _ _ _ _ B), map_length. exact (bi_glen _ _ _ _ _ _ _ _ B). }
        rewrite Hl, nth_error_app2, Nat.sub_diag by lia. reflexivity.
      + split; [exact Hu|]. unfold nexts. rewrite skipn_app, skipn_all, Nat.sub_diag. cbn [skipn app filter is_next length skipn].
        rewrite Nat.sub_0_r. split; [exact HP|]. intros P. congruence.
  Qed.

  (** The entries an iterator shows. *)
  Lemma rng_spec (H : list (mop K V)) T st en : avl_inv D eqv lt H T -> dom_opt st -> dom_opt en ->
    let l := rng st en (inorder (avl_root T)) in
    l = firstn (length l) (inorder (avl_root T)) /\ ascending lt l /\
    (forall k v, In (k, v) l <-> stored eqv H k v /\ (forall b, en = Some b -> lt k b) /\
       (forall a, st = Some a -> exists k' v', stored eqv H k' v' /\ ~ lt a k')).
  Proof.
    intros (Hd & Ha & _ & _ & Hh) Ds De. set (L := inorder (avl_root T)) in *.
    pose proof (ltb_lt equalb compare D eqv lt TK) as Hltb.
    cbv zeta. split; [now apply (rng_prefix equalb compare D eqv lt TK)|]. split.
    - assert (Af : ascending lt (filter (before_end (ltb compare) en) L)).
      { unfold ascending in *. clear - Ha. induction Ha as [|x l Hx Hl IH]; [constructor|].
        cbn [filter]. destruct (before_end _ en x); [|exact IH]. constructor; [|exact IH].
        rewrite Forall_forall in *. intros y Hy. apply filter_In in Hy. now apply Hx. }
      unfold range_list. destruct st as [a|]; [|exact Af]. destruct L as [|[k v] l]; [exact Af|].
      destruct (ltb compare a k); [constructor|exact Af].
    - assert (Inf : forall k v, In (k, v) (filter (before_end (ltb compare) en) L) <-> stored eqv H k v /\ (forall b, en = Some b -> lt k b)).
      { intros k v. rewrite filter_In, (Hh k v). split; intros [Hk Hx]; (split; [exact Hk|]).
        - intros b ->. cbn in Hx. apply Hltb in Hx; try assumption.
          apply Hh in Hk. unfold in_dom in Hd. rewrite Forall_forall in Hd. apply (Hd _ Hk).
        - destruct en as [b|]; cbn; [|reflexivity]. apply Hltb; try assumption; [|now apply Hx].
          apply Hh in Hk. unfold in_dom in Hd. rewrite Forall_forall in Hd. apply (Hd _ Hk). }
      intros k v. unfold range_list. destruct st as [a|].
      + cbn in Ds. destruct L as [|[k0 v0] l] eqn:EL.
        * cbn [filter In]. split; [intros []|]. intros (Hk & _). apply Hh in Hk. destruct Hk.
        * assert (D0 : D k0) by (unfold in_dom in Hd; apply Forall_cons_iff in Hd; apply Hd).
          destruct (ltb compare a k0) eqn:El.
          -- cbn [In]. split; [intros []|]. intros (_ & _ & Hx). destruct (Hx a eq_refl) as (k' & v' & Hk' & Hn).
             apply Hn. apply Hh in Hk'. apply Hltb in El; try assumption.
             destruct Hk' as [E|Hk']; [congruence|].
             unfold ascending in Ha. rewrite fop_cons in Ha. destruct Ha as [Ha _]. rewrite Forall_forall in Ha.
             eapply (tk_lt_trans _ _ _ _ _ TK); [exact El|]. apply (Ha _ Hk').
          -- rewrite (Inf k v). split; [intros [H1 H2]; split; [exact H1|]; split; [exact H2|]|tauto].
             intros a' Ea. injection Ea as <-. exists k0, v0. split; [apply Hh; now left|].
             intros C. apply Hltb in C; try assumption. congruence.
      + rewrite (Inf k v). split; [intros [H1 H2]; split; [exact H1|]; split; [exact H2|discriminate]|tauto].
  Qed.

  Lemma nth_firstn {A} n : forall (l : list A) q, nth_error (firstn n l) q = if (q <? n)%nat then nth_error l q else None.
  Proof using Type.
    clear. induction n as [|n IH]; intros l q; [destruct q; reflexivity|]. destruct l as [|x l].
    - cbn [firstn]. destruct q; [reflexivity|]. destruct (Nat.ltb (S q) (S n)); reflexivity.
    - destruct q as [|q]; [reflexivity|]. cbn [firstn nth_error]. rewrite IH. reflexivity.
  Qed.

  (** What a call on such an iterator shows. *)
  Definition answers pre op (o : res (pobs K V)) i m c st en : Prop :=
    exists l, ascending lt l /\
      (forall k v, In (k, v) l <-> stored eqv (hist m pre) k v /\ (forall b, en = Some b -> lt k b) /\
         (forall a, st = Some a -> exists k' v', stored eqv (hist m pre) k' v' /\ ~ lt a k')) /\
      (op = PNext i \/ op = PPeek i -> o = Ok (POEntry (nth_error l (nexts i c pre)))) /\
      (op = PHasNext i -> o = Ok (POBool (nexts i c pre <? length l)%nat)).

  Lemma rinv_answer pre os s ts gs op s' o i m c st en : binv pre os s ts gs -> rinv pre os s ts -> steps s op s' o ->
    nth_error (iters pre os) i = Some (m, c) -> nth_error pre c = Some (PIter m st en) -> calm eqv c m pre ->
    answers pre op o i m c st en.
  Proof.
    intros B W Hst Hi Hc Hcalm. destruct (W i m c st en Hi Hc Hcalm) as (Ds & De & it & t & fp & Hit & Ht & HP & _).
    destruct (binv_ent _ _ _ _ _ _ _ _ (nexts i c pre) B Ht) as (p & z & Em & R & Hinv & Ee & Hed & Hea).
    destruct (rng_spec _ _ st en Hinv Ds De) as (S1 & S2 & S3). cbn [avl_root] in *.
    exists (rng st en (inorder t)). split; [exact S2|]. split; [exact S3|].
    set (N := length (rng st en (inorder t))) in *. set (q := nexts i c pre) in *.
    assert (SH : bshown (s_heap s) (skipn q fp) (N - q) = nth_error (rng st en (inorder t)) q).
    { rewrite S1, nth_firstn. unfold bshown. destruct (Nat.ltb_spec q N) as [L|L].
      - destruct (N - q)%nat eqn:E; [lia|]. eapply shown_nth; eauto.
      - replace (N - q)%nat with O by lia. reflexivity. }
    destruct Hst as (n1 & Hs). split.
    - rewrite <- SH. intros [-> | ->].
      + destruct (bnext_to equalb compare D eqv lt TK (s_heap s) it _ _ Hed Hea HP) as (it' & (n0 & Hr) & _). specialize (Hs (Nat.max n0 n1) ltac:(lia)).
        unfold p_step, on_iter in Hs. rewrite Hit in Hs. unfold ibind in Hs. rewrite Hr in Hs by lia. now inv Hs.
      + destruct (bpeek_to equalb compare D eqv lt TK (s_heap s) it _ _ Hed Hea HP) as (it' & (n0 & Hr) & _). specialize (Hs (Nat.max n0 n1) ltac:(lia)).
        unfold p_step, on_iter in Hs. rewrite Hit in Hs. unfold ibind in Hs. rewrite Hr in Hs by lia. now inv Hs.
    - intros ->. destruct (bhas_next_to equalb compare D eqv lt TK (s_heap s) it _ _ Hed Hea HP) as (it' & (n0 & Hr) & _).
      specialize (Hs (Nat.max n0 n1) ltac:(lia)).
      unfold p_step, on_iter in Hs. rewrite Hit in Hs. unfold ibind in Hs. rewrite Hr in Hs by lia. inv Hs. do 2 f_equal.
      destruct (Nat.ltb_spec q N) as [H|H]; destruct (Nat.eqb_spec (N - q) 0); try reflexivity; lia.
  Qed.

  Lemma range_history (ops : list (pop K V)) : Forall (keys_in D) ops ->
    exists n0 s os ts gs, (forall n, (n0 <= n)%nat -> p_run equalb compare n sys0 ops = Some (s, os)) /\
      binv ops os s ts gs /\ rinv ops os s ts /\
      forall j op o i m c st en, nth_error ops j = Some op -> nth_error os j = Some o ->
        nth_error (iters (firstn j ops) (firstn j os)) i = Some (m, c) -> nth_error ops c = Some (PIter m st en) ->
        calm eqv c m (firstn j ops) ->
        answers (firstn j ops) op o i m c st en.
  Proof.
    induction ops as [|op ops IH] using rev_ind; intros F.
    - exists O, sys0, [], [], []. split; [reflexivity|]. split; [apply binv0|]. split; [intros [|] ? ? ? ? H; discriminate|].
      intros [|] ? ? ? ? ? ? ? H; discriminate.
    - apply Forall_app in F. destruct F as (F & Fo). inv Fo. destruct (IH F) as (n0 & s & os & ts & gs & Hr & B & W & HA).
      destruct (bind_step equalb compare D eqv lt TK ops os s ts gs op B) as (s' & o & ts' & gs' & Hst & B' & _ & _); [assumption|].
      assert (W' : rinv (ops ++ [op]) (os ++ [o]) s' ts') by (eapply rinv_step; eauto).
      destruct Hst as (n1 & Hs).
      exists (Nat.max n0 n1), s', (os ++ [o]), ts', gs'. split; [|split; [exact B'|split; [exact W'|]]].
      + intros n Hn. eapply run_snoc; [apply Hr; lia|apply Hs; lia].
      + pose proof (bi_len _ _ _ _ _ _ _ _ B) as L. intros j op' o' i m c st en H1' H2'.
        assert (Hj : (j <= length ops)%nat) by (apply nth_lt in H1'; rewrite app_length in H1'; cbn [length] in H1'; lia).
        rewrite !firstn_app. replace (j - length ops)%nat with O by lia. replace (j - length os)%nat with O by lia.
        cbn [firstn]. rewrite !app_nil_r. intros H3 H4.
        pose proof (iters_lt _ _ _ _ _ _ H3) as Hcl. cbn [Nat.add] in Hcl. rewrite firstn_length in Hcl.
        rewrite nth_error_app1 in H4 by lia.
        destruct (Nat.eq_dec j (length ops)) as [->|Hne].
        * rewrite nth_error_app2 in H1' by lia. rewrite Nat.sub_diag in H1'. inv H1'.
          rewrite nth_error_app2 in H2' by lia. replace (length ops - length os)%nat with O in H2' by lia. inv H2'.
          rewrite firstn_all in *. rewrite L, firstn_all in H3. intros H5. eapply rinv_answer; eauto. exists n1. exact Hs.
        * rewrite nth_error_app1 in H1' by lia. rewrite nth_error_app1 in H2' by lia. apply HA; auto.
  Qed.
End RangeHist.
