(** * Histories of calls on maps and iterators, for keys that Equal and Compare order. *)
From Coq Require Import List ZArith Bool Lia Arith.
From Verif Require Import Base BaseProofs AVLModel MapSpec AVLSpec MapProofs AVLProofs AVLHistory AVLPtrModel AVLPtrProofs AVLPtrOps AVLPtrPut
  AVLPtrRemove AVLPtrCalls AVLPtrMono AVLPtrSpec AVLPtrIter AVLPtrSys.
Import ListNotations.
Local Open Scope Z_scope.

Section History.
  Context {K V : Type} (equalb : K -> K -> res bool) (compare : K -> K -> res Z).
  Context (D : K -> Prop) (eqv lt : K -> K -> Prop) (TK : total_keys D eqv lt equalb compare).
  Notation tree := (tree K V).
  Notation heap := (@heap K V).
  Notation sys := (@sys K V).
  Notation step := (p_step equalb compare).

  Definition steps (s : sys) (op : pop K V) (s' : sys) (o : res (pobs K V)) : Prop :=
    exists n0, forall n, (n0 <= n)%nat -> step n s op = Some (s', o).

  Lemma steps_at n s op s' o : step n s op = Some (s', o) -> steps s op s' o.
  Proof using Type. intros H. exists n. intros n' Hn. eapply step_mono; eauto. Qed.

  (** The state after the calls [pre] with the answers [os]. *)
  Record binv (pre : list (pop K V)) (os : list (res (pobs K V))) (s : sys) (ts : list (tree * list nat))
      (gs : list (nat * nat * (nat -> Prop))) : Prop := {
    bi_len : length pre = length os;
    bi_maps : length (s_trees s) = maps pre;
    bi_mem : sinv (s_heap s) (s_trees s) ts;
    bi_map : forall m p z t fp, nth_error (s_trees s) m = Some (p, z) -> nth_error ts m = Some (t, fp) ->
      avl_inv D eqv lt (hist m pre) (mk_avl t z);
    bi_iters : map fst gs = iters pre os;
    bi_glen : length gs = length (s_iters s);
    bi_iter : forall i it m c G, nth_error (s_iters s) i = Some it -> nth_error gs i = Some (m, c, G) ->
      ginv D eqv pre (s_heap s) ts it m c G;
    bi_keys : Forall (keys_in D) pre
  }.

  Lemma binv0 : binv [] [] sys0 [] [].
  Proof using Type.
    clear. constructor; cbn; auto; try (intros [|]; discriminate).
    constructor; cbn; auto; try (intros [|]; discriminate). intros x. constructor. intros y (c & Hc & _). destruct x; discriminate.
  Qed.

  (** A call that leaves the memory alone; iterator number [i0] (if there is one) becomes [it0]. *)
  Lemma binv_quiet pre os h trees its its' ts gs op o :
    binv pre os (Sys h trees its) ts gs -> keys_in D op -> is_new op = false ->
    (forall m, (m < maps pre)%nat -> call_on m op = []) ->
    match op, o with PIter _ _ _, Ok _ => False | _, _ => True end ->
    length its' = length its ->
    (forall i it m c G, nth_error its' i = Some it -> nth_error gs i = Some (m, c, G) -> it_ok D G it) ->
    binv (pre ++ [op]) (os ++ [o]) (Sys h trees its') ts gs.
  Proof using Type.
    clear. intros [L M S A I GL GI KI] Ko Hn Hc Ho Hl Hit. cbn [s_heap s_trees s_iters] in *. constructor; cbn [s_heap s_trees s_iters].
    - rewrite !app_length. cbn [length]. lia.
    - rewrite maps_snoc, Hn. exact M.
    - exact S.
    - intros m p z t fp H1 H2. rewrite hist_snoc. destruct (Nat.ltb_spec m (maps pre)) as [Hm|Hm].
      + rewrite (Hc m Hm), app_nil_r. eapply A; eauto.
      + rewrite app_nil_r. eapply A; eauto.
    - rewrite iters_snoc by exact L. rewrite I. destruct op; try (now rewrite app_nil_r). destruct o; [contradiction|now rewrite app_nil_r|now rewrite app_nil_r].
    - lia.
    - intros i it m c G H1 H2. destruct (nth_error its i) as [it0|] eqn:E0.
      + eapply ginv_same; [eapply GI; eauto|]. eapply Hit; eauto.
      + exfalso. apply nth_error_None in E0. apply nth_lt in H1. lia.
    - apply Forall_app. auto.
  Qed.

  Lemma binv_refused pre os s ts gs op o :
    binv pre os s ts gs -> keys_in D op -> is_new op = false ->
    (forall m, (m < maps pre)%nat -> call_on m op = []) ->
    match op, o with PIter _ _ _, Ok _ => False | _, _ => True end ->
    binv (pre ++ [op]) (os ++ [o]) s ts gs.
  Proof using Type.
    clear. intros B Ko Hn Hc Ho. destruct s as [h trees its]. eapply binv_quiet; eauto.
    intros i it m c G H1 H2. exact (gi_ok _ _ _ _ _ _ _ _ _ (bi_iter _ _ _ _ _ B i it m c G H1 H2)).
  Qed.

  (** A call on map [m0]. *)
  Lemma binv_tree pre os h trees its ts gs op o m0 p z t fp h' p' z' t' fp' :
    binv pre os (Sys h trees its) ts gs -> keys_in D op -> is_new op = false ->
    (forall m, m <> m0 -> call_on m op = []) ->
    match op with PIter _ _ _ => False | _ => True end ->
    nth_error trees m0 = Some (p, z) -> nth_error ts m0 = Some (t, fp) ->
    rep h' p' t' fp' -> NoDup fp' -> bal t' -> change h h' fp fp' ->
    avl_inv D eqv lt (hist m0 pre ++ call_on m0 op) (mk_avl t' z') ->
    exists ts' gs', binv (pre ++ [op]) (os ++ [o]) (Sys h' (upd trees m0 (p', z')) its) ts' gs'.
  Proof using Type.
    clear. intros [L M S A I GL GI KI] Ko Hn Hc Ho Hp Ht R N B C Hinv. cbn [s_heap s_trees s_iters] in *.
    assert (Hm0 : (m0 < maps pre)%nat) by (rewrite <- M; eapply nth_lt; eauto).
    exists (upd ts m0 (t', fp')),
      (map (fun g => match g with (m, c, G) => (m, c, fun x => G x \/ (m = m0 /\ In x fp')) end) gs).
    constructor; cbn [s_heap s_trees s_iters].
    - rewrite !app_length. cbn [length]. lia.
    - rewrite upd_length, maps_snoc, Hn. exact M.
    - eapply sinv_update; eauto.
    - intros m q y u f H1 H2. rewrite hist_snoc. apply upd_nth in H1. apply upd_nth in H2.
      destruct H1 as [(-> & E1 & _)|(Hne & H1)]; destruct H2 as [(E0 & E2 & _)|(Hne' & H2)]; try congruence.
      + inv E1. inv E2. destruct (Nat.ltb_spec m0 (maps pre)); [exact Hinv|lia].
      + rewrite (Hc m Hne). destruct (m <? maps pre)%nat; rewrite app_nil_r; eapply A; eauto.
    - rewrite iters_snoc by exact L. rewrite <- I, map_map.
      replace (match op with PIter m _ _ => match o with Ok _ => [(m, length pre)] | _ => [] end | _ => [] end)
        with (@nil (nat * nat)) by (destruct op; try reflexivity; contradiction).
      rewrite app_nil_r. apply map_ext. intros [[m c] G]. reflexivity.
    - rewrite map_length. exact GL.
    - intros i it m c G H1 H2. rewrite nth_error_map in H2. destruct (nth_error gs i) as [[[m1 c1] G1]|] eqn:E; [|discriminate].
      cbn [option_map] in H2. inv H2. eapply ginv_change; eauto.
      intros [k v] He. destruct Hinv as (_ & _ & _ & _ & Hh). cbn [avl_root] in Hh. rewrite hist_snoc.
      destruct (Nat.ltb_spec m0 (maps pre)); [|lia]. apply Hh. exact He.
    - apply Forall_app. auto.
  Qed.

  Lemma no_call_other (m0 m : nat) (op : pop K V) :
    match op with PPut m' _ _ | PRemove m' _ | PGet m' _ => m' = m0 | _ => True end -> m <> m0 -> call_on m op = [].
  Proof using Type.
    clear. intros H Hne. destruct op as [|m' [k|] v|m' [k|]|m' k|m'|m' s0 e0|i|i|i]; cbn [call_on]; try reflexivity;
      subst m'; destruct (Nat.eqb_spec m0 m); congruence.
  Qed.

  Lemma no_call_far (m : nat) (pre : list (pop K V)) (op : pop K V) :
    match op with PPut m' _ _ | PRemove m' _ | PGet m' _ => (maps pre <= m')%nat | _ => True end -> (m < maps pre)%nat ->
    call_on m op = [].
  Proof using Type.
    clear. intros H Hlt. destruct op as [|m' [k|] v|m' [k|]|m' k|m'|m' s0 e0|i|i|i]; cbn [call_on]; try reflexivity;
      destruct (Nat.eqb_spec m' m); auto; lia.
  Qed.

  Lemma upd_self {A} (l : list A) i x : nth_error l i = Some x -> upd l i x = l.
  Proof using Type. clear. apply upd_same. Qed.

  Lemma bind_step pre os s ts gs op : binv pre os s ts gs -> keys_in D op ->
    exists s' o ts' gs', steps s op s' o /\ binv (pre ++ [op]) (os ++ [o]) s' ts' gs' /\
      map_answer eqv pre op o /\ iter_answer eqv lt pre os op o.
  Proof.
    intros B Ko. destruct s as [h trees its].
    pose proof (bi_maps _ _ _ _ _ B) as M. cbn [s_trees] in M.
    assert (CMP : forall a b, D a -> D b -> exists c, compare a b = Ok c).
    { intros a b Ha Hb. destruct (tk_compare _ _ _ _ _ TK a b Ha Hb) as (c & Hc & _). eauto. }
    (* a map that does not exist *)
    assert (FAR : forall m, nth_error trees m = None -> (m <? maps pre)%nat = false /\ (maps pre <= m)%nat).
    { intros m Hm. apply nth_error_None in Hm. rewrite <- M. split; [apply Nat.ltb_ge|]; exact Hm. }
    assert (NEAR : forall m x, nth_error trees m = Some x -> (m <? maps pre)%nat = true).
    { intros m x Hm. apply nth_lt in Hm. rewrite <- M. apply Nat.ltb_lt. exact Hm. }
    (* the three calls with a key *)
    assert (KEYED : forall m k (mk : K -> mop K V) (prog : nat -> ptree -> @prog K V (ptree * pobs K V)),
      is_new op = false -> match op with PIter _ _ _ => False | _ => True end ->
      (forall n, step n (Sys h trees its) op = on_tree (Sys h trees its) m (prog n)) ->
      D k -> call_on m op = [mk k] -> (forall m', m' <> m -> call_on m' op = []) -> op_key (mk k) = k ->
      (forall m', (maps pre <= m)%nat -> (m' < maps pre)%nat -> call_on m' op = []) ->
      (forall p z t fp n T' o, rep h p t fp -> NoDup fp -> bal t -> (height t < n)%nat ->
         avl_step equalb compare (mk_avl t z) (mk k) = Ok (T', o) ->
         exists h' p' fp', prog n (p, z) h = Some (h', Ok ((p', avl_size T'), POEntry o)) /\
           rep h' p' (avl_root T') fp' /\ NoDup fp' /\ bal (avl_root T') /\ change h h' fp fp') ->
      exists s' o ts' gs', steps (Sys h trees its) op s' o /\ binv (pre ++ [op]) (os ++ [o]) s' ts' gs' /\
        (if (m <? maps pre)%nat then exists e, o = Ok (POEntry e) /\ entry_at eqv (hist m pre) k e else o = Err)).
    { intros m k mk prog Hnew Hni Hstep Dk Hcall Hother Hkey Hfar Href.
      destruct (nth_error trees m) as [[p z]|] eqn:Em.
      - destruct (sinv_get _ _ _ _ _ _ (bi_mem _ _ _ _ _ B) Em) as (t & fp & Et & R & N & Bt). cbn [s_heap s_trees] in R.
        pose proof (bi_map _ _ _ _ _ B m p z t fp Em Et) as Hinv.
        destruct (avl_step_ok equalb compare D eqv lt TK (hist m pre) (mk_avl t z) (mk k)) as ([t' z'] & o & Hst & Hinv' & He);
          [rewrite Hkey; exact Dk|exact Hinv|]. rewrite Hkey in He.
        destruct (Href p z t fp (S (height t)) _ o R N Bt (Nat.lt_succ_diag_r _) Hst) as (h' & p' & fp' & Hp & R' & N' & B' & C').
        cbn [avl_root avl_size] in *.
        destruct (binv_tree pre os h trees its ts gs op (Ok (POEntry o)) m p z t fp h' p' z' t' fp') as (ts' & gs' & B2); auto.
        { rewrite Hcall. exact Hinv'. }
        exists (Sys h' (upd trees m (p', z')) its), (Ok (POEntry o)), ts', gs'. split; [|split; [exact B2|]].
        + apply (steps_at (S (height t))). rewrite Hstep. unfold on_tree. cbn [s_trees s_heap s_iters]. rewrite Em, Hp. reflexivity.
        + rewrite (NEAR _ _ Em). eauto.
      - destruct (FAR m Em) as (Hf & Hle). exists (Sys h trees its), Err, ts, gs. split; [|split].
        + exists O. intros n _. rewrite Hstep. unfold on_tree. cbn [s_trees]. now rewrite Em.
        + apply binv_refused; auto. destruct op; auto.
        + rewrite Hf. reflexivity. }
    (* a nil key *)
    assert (NIL : forall m (prog : nat -> ptree -> @prog K V (ptree * pobs K V)),
      is_new op = false -> match op with PIter _ _ _ => False | _ => True end -> (forall m', call_on m' op = []) ->
      (forall n, step n (Sys h trees its) op = on_tree (Sys h trees its) m (prog n)) ->
      (forall n t, prog n t h = Some (h, Panic)) ->
      exists s' o ts' gs', steps (Sys h trees its) op s' o /\ binv (pre ++ [op]) (os ++ [o]) s' ts' gs' /\
        (if (m <? maps pre)%nat then o = Panic else o = Err)).
    { intros m prog Hnew Hni Hcall Hstep Hprog. destruct (nth_error trees m) as [[p z]|] eqn:Em.
      - exists (Sys h trees its), Panic, ts, gs. split; [|split].
        + exists O. intros n _. rewrite Hstep. unfold on_tree. cbn [s_trees s_heap]. rewrite Em, Hprog. reflexivity.
        + apply binv_refused; auto. destruct op; auto.
        + rewrite (NEAR _ _ Em). reflexivity.
      - destruct (FAR m Em) as (Hf & Hle). exists (Sys h trees its), Err, ts, gs. split; [|split].
        + exists O. intros n _. rewrite Hstep. unfold on_tree. cbn [s_trees]. now rewrite Em.
        + apply binv_refused; auto. destruct op; auto.
        + rewrite Hf. reflexivity. }
    (* a call on an iterator *)
    assert (ITER : forall i (prog : nat -> @iprog K V (pobs K V)) (Q : (K * V -> Prop) -> pobs K V -> Prop),
      is_new op = false -> match op with PIter _ _ _ => False | _ => True end -> (forall m', call_on m' op = []) ->
      (forall n, step n (Sys h trees its) op = on_iter (Sys h trees its) i (prog n)) ->
      (forall (G : nat -> Prop) (E : K * V -> Prop) it, (forall e, E e -> D (fst e)) -> grounded h ->
         (forall x, G x -> closed_cell h G E x) -> it_ok D G it ->
         exists it' o, runs prog h it it' (Ok o) /\ it_ok D G it' /\ Q E o) ->
      exists s' o ts' gs', steps (Sys h trees its) op s' o /\ binv (pre ++ [op]) (os ++ [o]) s' ts' gs' /\
        match nth_error (iters pre os) i with
        | None => o = Err
        | Some (m, c) => exists ob, o = Ok ob /\ Q (window eqv pre c m) ob
        end).
    { intros i prog Q Hnew Hni Hcall Hstep Hprog.
      pose proof (bi_iters _ _ _ _ _ B) as HI. pose proof (bi_glen _ _ _ _ _ B) as HL. cbn [s_iters] in HL.
      destruct (nth_error its i) as [it|] eqn:Ei.
      - destruct (nth_error gs i) as [[[m c] G]|] eqn:Eg; [|apply nth_error_None in Eg; apply nth_lt in Ei; lia].
        pose proof (bi_iter _ _ _ _ _ B i it m c G Ei Eg) as Hg. cbn [s_heap] in Hg.
        destruct (Hprog G (window eqv pre c m) it) as (it' & o & (n0 & Hr) & Hok' & HQ).
        { intros e. apply window_dom. exact (bi_keys _ _ _ _ _ B). }
        { exact (si_ground _ _ _ (bi_mem _ _ _ _ _ B)). }
        { exact (gi_closed _ _ _ _ _ _ _ _ _ Hg). }
        { exact (gi_ok _ _ _ _ _ _ _ _ _ Hg). }
        exists (Sys h trees (upd its i it')), (Ok o), ts, gs. split; [|split].
        + exists n0. intros n Hn. rewrite Hstep. unfold on_iter. cbn [s_iters s_heap s_trees]. rewrite Ei, Hr by exact Hn. reflexivity.
        + eapply binv_quiet; [exact B| | | | | |]; auto.
          * destruct op; auto.
          * apply upd_length.
          * intros i2 it2 m2 c2 G2 H1 H2. apply upd_nth in H1. destruct H1 as [(-> & -> & _)|(Hne & H1)].
            -- rewrite Eg in H2. inv H2. exact Hok'.
            -- exact (gi_ok _ _ _ _ _ _ _ _ _ (bi_iter _ _ _ _ _ B _ _ _ _ _ H1 H2)).
        + rewrite <- HI, nth_error_map, Eg. cbn [option_map fst]. eauto.
      - exists (Sys h trees its), Err, ts, gs. split; [|split].
        + exists O. intros n _. rewrite Hstep. unfold on_iter. cbn [s_iters]. now rewrite Ei.
        + apply binv_refused; auto. destruct op; auto.
        + assert (Hgn : nth_error (iters pre os) i = None).
          { apply nth_error_None. rewrite <- HI, map_length. apply nth_error_None in Ei. lia. }
          now rewrite Hgn. }
    destruct op as [|m k v|m k|m k|m|m st en|i|i|i].
    - (* New *)
      exists (Sys h (trees ++ [(None, 0)]) its), (Ok PODone), (ts ++ [(Leaf, [])]), gs.
      split; [exists O; intros n _; reflexivity|]. split; [|split; [reflexivity|exact I]].
      destruct B as [L _ S A HI GL GI KI]. cbn [s_heap s_trees s_iters] in *. constructor; cbn [s_heap s_trees s_iters].
      + rewrite !app_length. cbn [length]. lia.
      + rewrite maps_snoc, app_length. cbn [is_new length]. lia.
      + apply sinv_new. exact S.
      + intros m p z t fp H1 H2. rewrite hist_snoc. cbn [call_on].
        replace (if (m <? maps pre)%nat then [] else []) with (@nil (mop K V)) by (destruct (m <? maps pre)%nat; reflexivity).
        rewrite app_nil_r. pose proof (si_len _ _ _ S) as SL. destruct (lt_dec m (length trees)) as [Hl|Hl].
        * rewrite nth_error_app1 in H1 by lia. rewrite nth_error_app1 in H2 by lia. eapply A; eauto.
        * rewrite nth_error_app2 in H1 by lia. rewrite nth_error_app2 in H2 by lia. rewrite SL in H2.
          destruct (m - length trees)%nat as [|[|]]; inv H1. inv H2. rewrite hist_none by lia. apply avl_inv_new.
      + rewrite iters_snoc by exact L. now rewrite app_nil_r.
      + exact GL.
      + intros i it m c G H1 H2. destruct (ginv_same D eqv pre PNew h ts it it m c G (GI i it m c G H1 H2)) as [X1 X2 X3 X4 X5];
          [exact (gi_ok _ _ _ _ _ _ _ _ _ (GI i it m c G H1 H2))|].
        constructor; auto.
        * destruct X2 as (t & fp & Ht & Hx). exists t, fp. split; [|exact Hx]. rewrite nth_error_app1; [exact Ht|eapply nth_lt; eauto].
        * intros m' t fp x Hne Ht Hx. destruct (lt_dec m' (length ts)) as [Hl|Hl].
          -- rewrite nth_error_app1 in Ht by lia. eapply X4; eauto.
          -- rewrite nth_error_app2 in Ht by lia. destruct (m' - length ts)%nat as [|[|]]; inv Ht. destruct Hx.
      + apply Forall_app. auto.
    - (* Put *)
      destruct k as [k|].
      + destruct (KEYED m k (fun k => MPut k v) (fun n t => put_prog equalb compare n t (Some k) v)) as (s' & o & ts' & gs' & H1 & H2 & H3);
          auto.
        * cbn [call_on]. now rewrite Nat.eqb_refl.
        * intros m' Hne. apply (no_call_other m); auto.
        * intros m' Hle Hlt. apply (no_call_far m' pre); auto.
        * intros p z t fp n T' o R N Bt Hn Hst. pose proof (put_call equalb compare h p z t fp n k v R N Bt Hn) as H.
          cbn [avl_step] in Hst. rewrite Hst in H. destruct H as (h' & p' & fp' & H1 & H2 & H3 & H4 & H5 & _). eauto 10.
        * exists s', o, ts', gs'. split; [exact H1|]. split; [exact H2|]. split; [exact H3|exact I].
      + destruct (NIL m (fun n t => put_prog equalb compare n t None v)) as (s' & o & ts' & gs' & H1 & H2 & H3); auto.
        exists s', o, ts', gs'. split; [exact H1|]. split; [exact H2|]. split; [exact H3|exact I].
    - (* Remove *)
      destruct k as [k|].
      + destruct (KEYED m k (fun k => MRemove k) (fun n t => remove_prog equalb compare n t (Some k))) as (s' & o & ts' & gs' & H1 & H2 & H3);
          auto.
        * cbn [call_on]. now rewrite Nat.eqb_refl.
        * intros m' Hne. apply (no_call_other m); auto.
        * intros m' Hle Hlt. apply (no_call_far m' pre); auto.
        * intros p z t fp n T' o R N Bt Hn Hst. pose proof (remove_call equalb compare h p z t fp n k R N Bt Hn) as H. cbv zeta in H.
          cbn [avl_step] in Hst. rewrite Hst in H. destruct H as (h' & p' & fp' & H1 & H2 & H3 & H4 & H5 & _). eauto 10.
        * exists s', o, ts', gs'. split; [exact H1|]. split; [exact H2|]. split; [exact H3|exact I].
      + destruct (NIL m (fun n t => remove_prog equalb compare n t None)) as (s' & o & ts' & gs' & H1 & H2 & H3); auto.
        exists s', o, ts', gs'. split; [exact H1|]. split; [exact H2|]. split; [exact H3|exact I].
    - (* Get *)
      destruct (KEYED m k (fun k => MGet k) (fun n t => get_prog equalb compare n t k)) as (s' & o & ts' & gs' & H1 & H2 & H3); auto.
      + cbn [call_on]. now rewrite Nat.eqb_refl.
      + intros m' Hne. apply (no_call_other m); auto.
      + intros m' Hle Hlt. apply (no_call_far m' pre); auto.
      + intros p z t fp n T' o R N Bt Hn Hst. rewrite (get_call equalb compare h p z t fp n k R Hn).
        cbn [avl_step] in Hst. destruct (avl_get equalb compare (mk_avl t z) k) as [o'| |]; cbn [rbind] in Hst; try discriminate.
        inv Hst. cbn [rbind avl_root avl_size]. exists h, p, fp. split; [reflexivity|]. split; [exact R|]. split; [exact N|].
        split; [exact Bt|]. apply change_refl.
      + exists s', o, ts', gs'. split; [exact H1|]. split; [exact H2|]. split; [exact H3|exact I].
    - (* Size *)
      destruct (nth_error trees m) as [[p z]|] eqn:Em.
      + destruct (sinv_get _ _ _ _ _ _ (bi_mem _ _ _ _ _ B) Em) as (t & fp & Et & _).
        pose proof (bi_map _ _ _ _ _ B m p z t fp Em Et) as Hinv.
        exists (Sys h trees its), (Ok (POInt z)), ts, gs. split; [|split; [|split; [|exact I]]].
        * exists O. intros n _. unfold p_step, on_tree. cbn [s_trees s_heap s_iters hret snd]. rewrite Em. cbn [snd].
          now rewrite (upd_self _ _ _ Em).
        * apply binv_refused; auto.
        * cbn [map_answer]. rewrite (NEAR _ _ Em). exists (inorder t). split.
          -- exact (avl_inv_lists equalb compare D eqv lt TK (hist m pre) (mk_avl t z) Hinv).
          -- destruct Hinv as (_ & _ & _ & Hz & _). cbn [avl_size avl_root] in Hz. rewrite Hz. reflexivity.
      + destruct (FAR m Em) as (Hf & Hle). exists (Sys h trees its), Err, ts, gs. split; [|split; [|split; [|exact I]]].
        * exists O. intros n _. unfold p_step, on_tree. cbn [s_trees]. now rewrite Em.
        * apply binv_refused; auto.
        * cbn [map_answer]. now rewrite Hf.
    - (* Iterator *)
      destruct (nth_error trees m) as [[p z]|] eqn:Em.
      + destruct (sinv_get _ _ _ _ _ _ (bi_mem _ _ _ _ _ B) Em) as (t & fp & Et & R & N & Bt). cbn [s_heap s_trees] in R.
        pose proof (bi_map _ _ _ _ _ B m p z t fp Em Et) as Hinv.
        pose proof (si_ground _ _ _ (bi_mem _ _ _ _ _ B)) as HA. cbn [s_heap] in HA.
        set (G := fun x => In x fp).
        assert (HG : forall x, G x -> closed_cell h G (window eqv pre (length pre) m) x).
        { intros x Hx. eapply rep_closed; [exact R|auto| |exact Hx]. intros [k v] He. apply window_now; [lia|].
          destruct Hinv as (_ & _ & _ & _ & Hh). apply Hh. exact He. }
        assert (HE : forall e, window eqv pre (length pre) m e -> D (fst e)).
        { intros e. apply window_dom. exact (bi_keys _ _ _ _ _ B). }
        destruct Ko as (Ks & Ke).
        destruct (new_ok compare D h G (window eqv pre (length pre) m) CMP HE HA HG p st en) as (r & (n0 & Hr) & Hres);
          [intros a ->; inv R; apply in_mid|exact Ks|exact Ke|].
        assert (GOOD : forall i, r = Ok i -> it_ok D G i -> exists s' o ts' gs', steps (Sys h trees its) (PIter m st en) s' o /\
          binv (pre ++ [PIter m st en]) (os ++ [o]) s' ts' gs' /\ o = Ok PODone).
        { intros i -> Hok. exists (Sys h trees (its ++ [i])), (Ok PODone), ts, (gs ++ [(m, length pre, G)]).
          split; [|split; [|reflexivity]].
          - exists n0. intros n Hn. unfold p_step. cbn [s_trees s_heap s_iters]. rewrite Em. cbn [fst]. rewrite Hr by exact Hn. reflexivity.
          - assert (Hgm : ginv D eqv pre h ts i m (length pre) G).
            { constructor; auto.
              - exists t, fp. auto.
              - intros m' t2 f2 x Hne H2 Hx Hg.
                exact (si_disj _ _ _ (bi_mem _ _ _ _ _ B) _ _ _ _ _ _ x Hne H2 Et Hx Hg). }
            destruct B as [L _ S A HI GL GI KI]. cbn [s_heap s_trees s_iters] in *. constructor; cbn [s_heap s_trees s_iters].
            + rewrite !app_length. cbn [length]. lia.
            + rewrite maps_snoc. exact M.
            + exact S.
            + intros m' p' z' t' fp' H1 H2. rewrite hist_snoc. cbn [call_on].
              destruct (m' <? maps pre)%nat; rewrite app_nil_r; eapply A; eauto.
            + rewrite iters_snoc by exact L. rewrite map_app, HI. reflexivity.
            + rewrite !app_length. cbn [length]. lia.
            + intros j it m' c G' H1 H2. destruct (lt_dec j (length its)) as [Hl|Hl].
              * rewrite nth_error_app1 in H1 by lia. rewrite nth_error_app1 in H2 by lia.
                eapply ginv_same; [eapply GI; eauto|]. exact (gi_ok _ _ _ _ _ _ _ _ _ (GI _ _ _ _ _ H1 H2)).
              * rewrite nth_error_app2 in H1 by lia. rewrite nth_error_app2 in H2 by lia. rewrite GL in H2.
                destruct (j - length its)%nat as [|[|]]; inv H1. inv H2. eapply ginv_same; eauto.
            + apply Forall_app. split; [exact KI|]. constructor; [exact (conj Ks Ke)|constructor]. }
        destruct st as [sk|], en as [ek|].
        1:{ destruct Hres as (c & Hc & Hpan & Hgood). destruct (tk_compare _ _ _ _ _ TK sk ek Ks Ke) as (c' & Hc' & Hlt & Hgt).
            rewrite Hc in Hc'. inv Hc'. destruct (Z.lt_ge_cases 0 c') as [Hc0|Hc0].
            - exists (Sys h trees its), Panic, ts, gs. split; [|split; [|split; [exact I|]]].
              + exists n0. intros n Hn. unfold p_step. cbn [s_trees s_heap s_iters]. rewrite Em. cbn [fst]. rewrite Hr by exact Hn.
                now rewrite (Hpan Hc0).
              + apply binv_refused; auto. exact (conj Ks Ke).
              + cbn [iter_answer reversed]. rewrite (NEAR _ _ Em). split; [auto|]. intros Hx. exfalso. apply Hx. apply Hgt. exact Hc0.
            - destruct (Hgood Hc0) as (i & Hi & Hok). destruct (GOOD i Hi Hok) as (s' & o & ts' & gs' & H1 & H2 & ->).
              exists s', (Ok PODone), ts', gs'. split; [exact H1|]. split; [exact H2|]. split; [exact I|].
              cbn [iter_answer reversed]. rewrite (NEAR _ _ Em). split; [|auto]. intros Hx. apply Hgt in Hx. lia. }
        all: destruct Hres as (i & Hi & Hok); destruct (GOOD i Hi Hok) as (s' & o & ts' & gs' & H1 & H2 & ->);
          exists s', (Ok PODone), ts', gs'; (split; [exact H1|]); (split; [exact H2|]); (split; [exact I|]);
          cbn [iter_answer reversed]; rewrite (NEAR _ _ Em); (split; [contradiction|auto]).
      + destruct (FAR m Em) as (Hf & Hle). exists (Sys h trees its), Err, ts, gs. split; [|split; [|split; [exact I|]]].
        * exists O. intros n _. unfold p_step. cbn [s_trees]. now rewrite Em.
        * apply binv_refused; auto.
        * cbn [iter_answer]. now rewrite Hf.
    - (* HasNext *)
      destruct (ITER i (fun n => ibind (i_has_next compare n) (fun b => iret (POBool b))) (fun _ o => exists b, o = POBool b))
        as (s' & o & ts' & gs' & H1 & H2 & H3); auto.
      { intros G E it HE HA HG Hok. destruct (has_next_ok compare D h G E CMP HE HA HG it Hok) as (it' & b & (n0 & Hr) & Hok').
        exists it', (POBool b). split; [|eauto]. exists n0. intros n Hn. unfold ibind. now rewrite Hr. }
      exists s', o, ts', gs'. split; [exact H1|]. split; [exact H2|]. split; [exact I|]. cbn [iter_answer].
      destruct (nth_error (iters pre os) i) as [[m c]|]; [|exact H3]. destruct H3 as (ob & -> & b & ->). eauto.
    - (* Peek *)
      destruct (ITER i (fun n => ibind (i_peek compare n) (fun e => iret (POEntry e)))
        (fun E o => exists e, o = POEntry e /\ match e with None => True | Some e => E e end))
        as (s' & o & ts' & gs' & H1 & H2 & H3); auto.
      { intros G E it HE HA HG Hok. destruct (peek_ok compare D h G E CMP HE HA HG it Hok) as (it' & e & (n0 & Hr) & Hok' & He).
        exists it', (POEntry e). split; [|eauto]. exists n0. intros n Hn. unfold ibind. now rewrite Hr. }
      exists s', o, ts', gs'. split; [exact H1|]. split; [exact H2|]. split; [exact I|]. cbn [iter_answer].
      destruct (nth_error (iters pre os) i) as [[m c]|]; [|exact H3]. destruct H3 as (ob & -> & e & -> & He). exists e. split; [reflexivity|].
      destruct e as [[k v]|]; [exact He|exact I].
    - (* Next *)
      destruct (ITER i (fun n => ibind (i_next compare n) (fun e => iret (POEntry e)))
        (fun E o => exists e, o = POEntry e /\ match e with None => True | Some e => E e end))
        as (s' & o & ts' & gs' & H1 & H2 & H3); auto.
      { intros G E it HE HA HG Hok. destruct (next_ok compare D h G E CMP HE HA HG it Hok) as (it' & e & (n0 & Hr) & Hok' & He).
        exists it', (POEntry e). split; [|eauto]. exists n0. intros n Hn. unfold ibind. now rewrite Hr. }
      exists s', o, ts', gs'. split; [exact H1|]. split; [exact H2|]. split; [exact I|]. cbn [iter_answer].
      destruct (nth_error (iters pre os) i) as [[m c]|]; [|exact H3]. destruct H3 as (ob & -> & e & -> & He). exists e. split; [reflexivity|].
      destruct e as [[k v]|]; [exact He|exact I].
  Qed.

  Lemma run_snoc n s (ops : list (pop K V)) op s1 os s2 o : p_run equalb compare n s ops = Some (s1, os) ->
    step n s1 op = Some (s2, o) -> p_run equalb compare n s (ops ++ [op]) = Some (s2, os ++ [o]).
  Proof using Type.
    clear. revert s os. induction ops as [|x ops IH]; intros s os; cbn [p_run app].
    - intros H1 H2. inv H1. rewrite H2. reflexivity.
    - destruct (step n s x) as [[s0 o0]|]; [|discriminate].
      destruct (p_run equalb compare n s0 ops) as [[s3 os3]|] eqn:E; [|discriminate]. intros H1 H2. inv H1.
      rewrite (IH _ _ E H2). reflexivity.
  Qed.

  Lemma history (ops : list (pop K V)) : Forall (keys_in D) ops ->
    exists n0 s os ts gs, (forall n, (n0 <= n)%nat -> p_run equalb compare n sys0 ops = Some (s, os)) /\
      binv ops os s ts gs /\
      forall j op o, nth_error ops j = Some op -> nth_error os j = Some o ->
        map_answer eqv (firstn j ops) op o /\ iter_answer eqv lt (firstn j ops) (firstn j os) op o.
  Proof.
    induction ops as [|op ops IH] using rev_ind; intros F.
    - exists O, sys0, [], [], []. split; [reflexivity|]. split; [exact binv0|]. intros [|] ? ? H; discriminate.
    - apply Forall_app in F. destruct F as (F & Fo). inv Fo. destruct (IH F) as (n0 & s & os & ts & gs & Hr & B & HA).
      destruct (bind_step ops os s ts gs op B) as (s' & o & ts' & gs' & (n1 & Hs) & B' & HM & HI); [assumption|].
      exists (Nat.max n0 n1), s', (os ++ [o]), ts', gs'. split; [|split; [exact B'|]].
      + intros n Hn. eapply run_snoc; [apply Hr; lia|apply Hs; lia].
      + pose proof (bi_len _ _ _ _ _ B) as L. intros j op' o' H1' H2'.
        assert (Hj : (j <= length ops)%nat) by (apply nth_lt in H1'; rewrite app_length in H1'; cbn [length] in H1'; lia).
        rewrite !firstn_app. replace (j - length ops)%nat with O by lia. replace (j - length os)%nat with O by lia.
        cbn [firstn]. rewrite !app_nil_r. destruct (Nat.eq_dec j (length ops)) as [->|Hne].
        * rewrite nth_error_app2 in H1' by lia. rewrite Nat.sub_diag in H1'. inv H1'.
          rewrite nth_error_app2 in H2' by lia. replace (length ops - length os)%nat with O in H2' by lia. inv H2'.
          rewrite firstn_all. rewrite L, firstn_all. auto.
        * rewrite nth_error_app1 in H1' by lia. rewrite nth_error_app1 in H2' by lia. auto.
  Qed.
End History.
