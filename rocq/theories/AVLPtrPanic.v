(** * Keys whose Compare may panic: a panicking call leaves the maps as they were. *)
From Coq Require Import List ZArith Bool Lia Arith.
From Verif Require Import Base BaseProofs AVLModel MapSpec AVLSpec MapProofs AVLProofs AVLHistory AVLPtrModel AVLPtrProofs AVLPtrOps AVLPtrPut
  AVLPtrRemove AVLPtrCalls AVLPtrMono AVLPtrSpec AVLPtrIter AVLPtrSys AVLPtrHistory.
Import ListNotations.
Local Open Scope Z_scope.

(** Compare with the panics replaced by "larger". *)
Definition fill {K} (compare : K -> K -> res Z) (a b : K) : res Z := match compare a b with Ok c => Ok c | _ => Ok 1 end.

Lemma fill_keys {K} D eqv lt equalb (compare : K -> K -> res Z) :
  one_sided_keys D eqv lt equalb compare -> total_keys D eqv lt equalb (fill compare).
Proof.
  intros [E C R S T I LT LL LR TOT]. constructor; auto. intros a b Ha Hb. unfold fill.
  destruct (C a b Ha Hb) as [(c & -> & H)|(-> & H)]; [eauto|]. exists 1. split; [reflexivity|]. split.
  - split; [lia|]. intros H'. exfalso. eapply (I a a); [auto|]. eapply LT; eauto.
  - split; [auto|lia].
Qed.

Section Mono.
  Context {K V : Type} (equalb : K -> K -> res bool) (c1 c2 : K -> K -> res Z).
  Context (LE : forall a b c, c1 a b = Ok c -> c2 a b = Ok c).
  Notation tree := (tree K V).

  Lemma direction_le a b d : direction c1 a b = Ok d -> direction c2 a b = Ok d.
  Proof using LE. unfold direction. intros H. apply rbind_ok in H. destruct H as (c & H1 & H2). rewrite (LE _ _ _ H1). exact H2. Qed.

  Lemma putR_le key (value : V) (t : tree) : forall x, putR equalb c1 key value t = Ok x -> putR equalb c2 key value t = Ok x.
  Proof using LE.
    induction t as [|k v b l IHl r IHr]; intros x H; cbn [putR] in *; [exact H|].
    destruct (equalb k key) as [[|]| |]; cbn [rbind] in *; try exact H.
    apply rbind_ok in H. destruct H as (dir & H1 & H). rewrite (direction_le _ _ _ H1). cbn [rbind].
    apply rbind_ok in H. destruct H as (y & H2 & H). destruct dir; [rewrite (IHr _ H2)|rewrite (IHl _ H2)]; exact H.
  Qed.

  Lemma removeR_le (t : tree) : forall key x, removeR equalb c1 key t = Ok x -> removeR equalb c2 key t = Ok x.
  Proof using LE.
    induction t as [|k v b l IHl r IHr]; intros key x H; [exact H|]. rewrite removeR_node in *.
    destruct (equalb k key) as [[|]| |]; cbn [rbind] in *; try exact H.
    - destruct l as [|lk lv lb ll lr]; [exact H|]. destruct r as [|rk rv rb rl rr]; [exact H|].
      destruct (heir lk lv lr) as [hk hv].
      apply rbind_ok in H. destruct H as (dir & H1 & H). rewrite (direction_le _ _ _ H1). cbn [rbind].
      apply rbind_ok in H. destruct H as (y & H2 & H). destruct dir; [rewrite (IHr _ _ H2)|rewrite (IHl _ _ H2)]; exact H.
    - apply rbind_ok in H. destruct H as (dir & H1 & H). rewrite (direction_le _ _ _ H1). cbn [rbind].
      apply rbind_ok in H. destruct H as (y & H2 & H). destruct dir; [rewrite (IHr _ _ H2)|rewrite (IHl _ _ H2)]; exact H.
  Qed.

  Lemma getR_le key (t : tree) : forall x, getR equalb c1 key t = Ok x -> getR equalb c2 key t = Ok x.
  Proof using LE.
    induction t as [|k v b l IHl r IHr]; intros x H; cbn [getR] in *; [exact H|].
    destruct (equalb k key) as [[|]| |]; cbn [rbind] in *; try exact H.
    apply rbind_ok in H. destruct H as (dir & H1 & H). rewrite (direction_le _ _ _ H1). cbn [rbind].
    destruct dir; auto.
  Qed.

  Lemma avl_step_le (T : avl K V) op x : avl_step equalb c1 T op = Ok x -> avl_step equalb c2 T op = Ok x.
  Proof using LE.
    destruct op as [k v|k|k]; cbn [avl_step].
    - rewrite !avl_put_root. intros H. apply rbind_ok in H. destruct H as (y & H1 & H). rewrite (putR_le _ _ _ _ H1). exact H.
    - unfold avl_remove. intros H. apply rbind_ok in H. destruct H as (y & H1 & H). rewrite (removeR_le _ _ _ H1). exact H.
    - unfold avl_get. intros H. apply rbind_ok in H. destruct H as (y & H1 & H). rewrite (getR_le _ _ _ H1). exact H.
  Qed.
End Mono.

Section OneSided.
  Context {K V : Type} (equalb : K -> K -> res bool) (compare : K -> K -> res Z).
  Context (D : K -> Prop) (eqv lt : K -> K -> Prop) (OK : one_sided_keys D eqv lt equalb compare).
  Notation tree := (tree K V).
  Notation heap := (@heap K V).
  Notation sys := (@sys K V).
  Notation step := (p_step equalb compare).
  Notation TK := (fill_keys _ _ _ _ _ OK).

  Lemma fill_le a b c : compare a b = Ok c -> fill compare a b = Ok c.
  Proof using Type. unfold fill. now intros ->. Qed.

  Lemma not_panic_le a b : D a -> D b -> lt a b \/ eqv a b -> compare a b = fill compare a b.
  Proof.
    intros Ha Hb H. unfold fill. destruct (ok_compare _ _ _ _ _ OK a b Ha Hb) as [(c & -> & _)|(_ & H')]; [reflexivity|].
    exfalso. destruct H as [H|H].
    - eapply (ok_irrefl _ _ _ _ _ OK a a); [apply (ok_refl _ _ _ _ _ OK); exact Ha|]. eapply (ok_lt_trans _ _ _ _ _ OK); eauto.
    - eapply (ok_irrefl _ _ _ _ _ OK b a); [apply (ok_sym _ _ _ _ _ OK); exact H|exact H'].
  Qed.

  Definition agrees (key : K) (l : list (K * V)) : Prop := Forall (fun e => compare (fst e) key = fill compare (fst e) key) l.

  Lemma direction_agree a b : compare a b = fill compare a b -> direction compare a b = direction (fill compare) a b.
  Proof using Type. clear. intros H. unfold direction. now rewrite H. Qed.

  (** The keys of a tree are comparable with the last of them. *)
  Lemma agrees_heir lk lv lb (ll lr : tree) hk hv : in_dom D (inorder (Node lk lv lb ll lr)) ->
    ascending lt (inorder (Node lk lv lb ll lr)) -> heir lk lv lr = (hk, hv) ->
    D hk /\ agrees hk (inorder (Node lk lv lb ll lr)).
  Proof.
    intros Hd Ha E. destruct (heir_last lk lv lb ll lr) as (l0 & H0). rewrite E in H0. rewrite H0 in *.
    unfold in_dom in Hd. rewrite Forall_app, Forall_cons_iff in Hd. destruct Hd as (Hd0 & Dh & _). cbn [fst] in Dh.
    split; [exact Dh|]. unfold agrees. rewrite Forall_app. unfold ascending in Ha. rewrite fop_app in Ha. destruct Ha as (_ & _ & Ha). split.
    - rewrite Forall_forall in *. intros e He. apply not_panic_le; [apply (Hd0 e He)|exact Dh|]. left.
      apply (Ha e (hk, hv) He). now left.
    - constructor; [|constructor]. cbn [fst]. apply not_panic_le; auto. right. apply (ok_refl _ _ _ _ _ OK). exact Dh.
  Qed.

  Lemma putR_agree key (value : V) (t : tree) : agrees key (inorder t) -> putR equalb compare key value t = putR equalb (fill compare) key value t.
  Proof using Type.
    clear. induction t as [|k v b l IHl r IHr]; intros H; cbn [putR]; [reflexivity|]. cbn [inorder] in H. unfold agrees in *.
    rewrite Forall_app, Forall_cons_iff in H. destruct H as (Hl & Hk & Hr). cbn [fst] in Hk.
    rewrite (direction_agree _ _ Hk), (IHl Hl), (IHr Hr). reflexivity.
  Qed.
  Lemma getR_agree key (t : tree) : agrees key (inorder t) -> getR equalb compare key t = getR equalb (fill compare) key t.
  Proof using Type.
    clear. induction t as [|k v b l IHl r IHr]; intros H; cbn [getR]; [reflexivity|]. cbn [inorder] in H. unfold agrees in *.
    rewrite Forall_app, Forall_cons_iff in H. destruct H as (Hl & Hk & Hr). cbn [fst] in Hk.
    rewrite (direction_agree _ _ Hk), (IHl Hl), (IHr Hr). reflexivity.
  Qed.

  (** The second phase of Remove does not panic. *)
  Lemma removeR_agree (t : tree) : forall key, in_dom D (inorder t) -> ascending lt (inorder t) -> agrees key (inorder t) ->
    removeR equalb compare key t = removeR equalb (fill compare) key t.
  Proof.
    induction t as [|k v b l IHl r IHr]; intros key Hd Ha H; [reflexivity|]. rewrite !removeR_node.
    apply dom_node in Hd. destruct Hd as (Dk & Dl & Dr). apply asc_node in Ha. destruct Ha as (Al & Ar & _ & _).
    unfold agrees in H. cbn [inorder] in H. rewrite Forall_app, Forall_cons_iff in H. destruct H as (Hl & Hk & Hr). cbn [fst] in Hk.
    rewrite (direction_agree _ _ Hk), (IHl key Dl Al Hl), (IHr key Dr Ar Hr).
    destruct (equalb k key) as [[|]| |]; cbn [rbind]; try reflexivity.
    destruct l as [|lk lv lb ll lr]; [reflexivity|]. destruct r as [|rk rv rb rl rr]; [reflexivity|].
    destruct (heir lk lv lr) as [hk hv] eqn:Eh. destruct (agrees_heir lk lv lb ll lr hk hv Dl Al Eh) as (Dh & Hh).
    assert (E : compare hk hk = fill compare hk hk).
    { apply not_panic_le; auto. right. apply (ok_refl _ _ _ _ _ OK). exact Dh. }
    rewrite (direction_agree _ _ E), (direction_eq equalb (fill compare) D eqv lt TK hk hk Dh Dh (ok_refl _ _ _ _ _ OK hk Dh)).
    cbn [rbind]. rewrite (IHl hk Dl Al Hh). reflexivity.
  Qed.

  Lemma quiet_one_sided key (t : tree) : D key -> in_dom D (inorder t) -> ascending lt (inorder t) -> bal t ->
    quiet equalb compare key t.
  Proof.
    intros Dkey. induction t as [|k v b l IHl r IHr]; intros Hd Ha Hb; cbn [quiet]; [exact I|].
    pose proof (removeR_ok equalb (fill compare) D eqv lt TK key (Node k v b l r) Dkey Hd Ha Hb) as HOK.
    apply dom_node in Hd. destruct Hd as (Dk & Dl & Dr). apply asc_node in Ha. destruct Ha as (Al & Ar & _ & _).
    destruct Hb as (_ & _ & Bl & Br). split; [|auto]. intros Eq. unfold quiet_at.
    destruct l as [|lk lv lb ll lr]; [exact I|]. destruct r as [|rk rv rb rl rr]; [exact I|].
    destruct HOK as (t' & o & done & HOK & _). rewrite removeR_node, Eq in HOK. cbn [rbind] in HOK.
    destruct (heir lk lv lr) as [hk hv] eqn:Eh. destruct (agrees_heir lk lv lb ll lr hk hv Dl Al Eh) as (Dh & Hh).
    unfold remove_cont.
    assert (E : compare hk hk = fill compare hk hk).
    { apply not_panic_le; auto. right. apply (ok_refl _ _ _ _ _ OK). exact Dh. }
    rewrite (direction_agree _ _ E). rewrite (direction_eq equalb (fill compare) D eqv lt TK hk hk Dh Dh (ok_refl _ _ _ _ _ OK hk Dh)) in *.
    cbn [rbind] in *. rewrite (removeR_agree _ hk Dl Al Hh). exists (t', o, done). exact HOK.
  Qed.

  Lemma avl_step_agree h (T : avl K V) op : avl_inv D eqv lt h T -> D (op_key op) -> agrees (op_key op) (inorder (avl_root T)) ->
    avl_step equalb compare T op = avl_step equalb (fill compare) T op.
  Proof.
    intros (Hd & Ha & _) Dk H. destruct op as [k v|k|k]; cbn [op_key avl_step] in *.
    - rewrite !avl_put_root, putR_agree by exact H. reflexivity.
    - unfold avl_remove. rewrite removeR_agree by auto. reflexivity.
    - unfold avl_get. rewrite getR_agree by exact H. reflexivity.
  Qed.

  (** One call on a map after the returned calls [pre]. *)
  Lemma panic_step (pre : list (pop K V)) (os : list (res (pobs K V))) s ts (op : pop K V) : binv D eqv lt pre os s ts [] -> s_iters s = [] -> keys_in D op -> map_call op ->
    exists s' (o : res (pobs K V)) ts', steps equalb compare s op s' o /\ s_iters s' = [] /\
      (returned o = true -> binv D eqv lt (pre ++ [op]) (os ++ [o]) s' ts' [] /\ map_answer eqv pre op o) /\
      (returned o = false -> s' = s) /\
      (match op with
       | PPut m (Some k) _ | PRemove m (Some k) | PGet m k =>
           (m < maps pre)%nat -> (forall k' v', held eqv pre m k' v' -> exists c, compare k' k = Ok c) -> returned o = true
       | PNew => True
       | PSize m => (m < maps pre)%nat -> returned o = true
       | _ => returned o = false
       end).
  Proof.
    intros B HI Ko Hmc. destruct s as [h trees its]. cbn [s_iters] in HI. subst its.
    pose proof (bi_maps _ _ _ _ _ _ _ _ B) as M. cbn [s_trees] in M.
    assert (FAR : forall m, nth_error trees m = None -> (m <? maps pre)%nat = false /\ (maps pre <= m)%nat).
    { intros m Hm. apply nth_error_None in Hm. rewrite <- M. split; [apply Nat.ltb_ge|]; exact Hm. }
    assert (NEARB : forall m x, nth_error trees m = Some x -> (m <? maps pre)%nat = true).
    { intros m x Hm. apply nth_lt in Hm. rewrite <- M. apply Nat.ltb_lt. exact Hm. }
    assert (KEYED : forall m k (mk : K -> mop K V) (prog : nat -> ptree -> @prog K V (ptree * pobs K V)),
      is_new op = false -> match op with PIter _ _ _ => False | _ => True end ->
      (forall n, step n (Sys h trees []) op = on_tree (Sys h trees []) m (prog n)) ->
      D k -> call_on m op = [mk k] -> (forall m', m' <> m -> call_on m' op = []) -> op_key (mk k) = k ->
      (forall p z t fp n, rep h p t fp -> NoDup fp -> bal t -> (height t < n)%nat -> in_dom D (inorder t) -> ascending lt (inorder t) ->
         match avl_step equalb compare (mk_avl t z) (mk k) with
         | Ok (T', o) => exists h' p' fp', prog n (p, z) h = Some (h', Ok ((p', avl_size T'), POEntry o)) /\
             rep h' p' (avl_root T') fp' /\ NoDup fp' /\ bal (avl_root T') /\ change h h' fp fp'
         | Err => prog n (p, z) h = Some (h, Err)
         | Panic => prog n (p, z) h = Some (h, Panic)
         end) ->
      exists s' (o : res (pobs K V)) ts', steps equalb compare (Sys h trees []) op s' o /\ s_iters s' = [] /\
        (returned o = true -> binv D eqv lt (pre ++ [op]) (os ++ [o]) s' ts' [] /\
           (if (m <? maps pre)%nat then exists e, o = Ok (POEntry e) /\ entry_at eqv (hist m pre) k e else o = Err)) /\
        (returned o = false -> s' = Sys h trees []) /\
        ((m < maps pre)%nat -> (forall k' v', held eqv pre m k' v' -> exists c, compare k' k = Ok c) -> returned o = true)).
    { intros m k mk prog Hnew Hni Hstep Dk Hcall Hother Hkey Href.
      destruct (nth_error trees m) as [[p z]|] eqn:Em.
      - destruct (sinv_get _ _ _ _ _ _ (bi_mem _ _ _ _ _ _ _ _ B) Em) as (t & fp & Et & R & N & Bt). cbn [s_heap s_trees] in R.
        pose proof (bi_map _ _ _ _ _ _ _ _ B m p z t fp Em Et) as Hinv. pose proof Hinv as (Hd & Ha & _ & _ & Hh). cbn [avl_root] in *.
        specialize (Href p z t fp (S (height t)) R N Bt (Nat.lt_succ_diag_r _) Hd Ha).
        destruct (avl_step_ok equalb (fill compare) D eqv lt TK (hist m pre) (mk_avl t z) (mk k)) as ([t' z'] & o & Hst & Hinv' & He);
          [rewrite Hkey; exact Dk|exact Hinv|]. rewrite Hkey in He.
        assert (AG : (forall k' v', held eqv pre m k' v' -> exists c, compare k' k = Ok c) ->
          avl_step equalb compare (mk_avl t z) (mk k) = Ok (mk_avl t' z', o)).
        { intros HC. rewrite (avl_step_agree (hist m pre)); [exact Hst|exact Hinv|rewrite Hkey; exact Dk|]. rewrite Hkey. cbn [avl_root].
          apply Forall_forall. intros [k' v'] Hin. cbn [fst]. destruct (HC k' v') as (c & Hc); [apply Hh; exact Hin|]. unfold fill. now rewrite Hc. }
        destruct (avl_step equalb compare (mk_avl t z) (mk k)) as [[T1 o1]| |] eqn:Est.
        + rewrite (avl_step_le equalb compare (fill compare) fill_le _ _ _ Est) in Hst. inv Hst.
          destruct Href as (h' & p' & fp' & Hp & R' & N' & B' & C'). cbn [avl_root avl_size] in *.
          destruct (binv_tree D eqv lt pre os h trees [] ts [] op (Ok (POEntry o)) m p z t fp h' p' z' t' fp') as (ts' & gs' & B2); auto.
          { rewrite Hcall. exact Hinv'. }
          assert (gs' = []) as ->.
          { pose proof (bi_glen _ _ _ _ _ _ _ _ B2) as L. cbn [s_iters length] in L. destruct gs'; [reflexivity|discriminate]. }
          exists (Sys h' (upd trees m (p', z')) []), (Ok (POEntry o)), ts'. split; [|split; [reflexivity|]].
          * apply (steps_at _ _ (S (height t))). rewrite Hstep. unfold on_tree. cbn [s_trees s_heap s_iters]. rewrite Em, Hp. reflexivity.
          * split; [|split; [discriminate|auto]]. intros _. split; [exact B2|]. rewrite (NEARB _ _ Em). eauto.
        + exists (Sys h trees []), Err, ts. split; [|split; [reflexivity|]].
          * apply (steps_at _ _ (S (height t))). rewrite Hstep. unfold on_tree. cbn [s_trees s_heap s_iters]. rewrite Em, Href. reflexivity.
          * split; [discriminate|]. split; [auto|]. intros _ HC. discriminate (AG HC).
        + exists (Sys h trees []), Panic, ts. split; [|split; [reflexivity|]].
          * apply (steps_at _ _ (S (height t))). rewrite Hstep. unfold on_tree. cbn [s_trees s_heap s_iters]. rewrite Em, Href. reflexivity.
          * split; [discriminate|]. split; [auto|]. intros _ HC. discriminate (AG HC).
      - destruct (FAR m Em) as (Hf & Hle). exists (Sys h trees []), Err, ts. split; [|split; [reflexivity|]].
        + exists O. intros n _. rewrite Hstep. unfold on_tree. cbn [s_trees]. now rewrite Em.
        + split; [discriminate|]. split; [auto|]. intros Hl. lia. }
    assert (NIL : forall m (prog : nat -> ptree -> @prog K V (ptree * pobs K V)),
      (forall n, step n (Sys h trees []) op = on_tree (Sys h trees []) m (prog n)) ->
      (forall n t, prog n t h = Some (h, Panic)) ->
      exists (o : res (pobs K V)), steps equalb compare (Sys h trees []) op (Sys h trees []) o /\ returned o = false).
    { intros m prog Hstep Hprog. destruct (nth_error trees m) as [[p z]|] eqn:Em.
      - exists Panic. split; [|reflexivity].
        exists O. intros n _. rewrite Hstep. unfold on_tree. cbn [s_trees s_heap]. rewrite Em, Hprog. reflexivity.
      - exists Err. split; [|reflexivity].
        exists O. intros n _. rewrite Hstep. unfold on_tree. cbn [s_trees]. now rewrite Em. }
    destruct op as [|m k v|m k|m k|m|m st en|i|i|i]; try contradiction.
    - (* New *)
      exists (Sys h (trees ++ [(None, 0)]) []), (Ok PODone), (ts ++ [(Leaf, [])]).
      split; [exists O; intros n _; reflexivity|]. split; [reflexivity|]. split; [|split; [discriminate|exact I]]. intros _.
      destruct (bind_step equalb (fill compare) D eqv lt TK pre os (Sys h trees []) ts [] PNew B Ko) as (s' & o & ts' & gs' & (n0 & Hs) & B' & HM & _).
      specialize (Hs n0 (le_n _)). cbn [p_step s_heap s_trees s_iters] in Hs. inv Hs. split; [|exact HM].
      pose proof (bi_mem _ _ _ _ _ _ _ _ B') as S'. pose proof (sinv_new _ _ _ (bi_mem _ _ _ _ _ _ _ _ B)) as S2. cbn [s_heap s_trees] in *.
      destruct B as [L _ S A HIt GL GI KI]. cbn [s_heap s_trees s_iters] in *. constructor; cbn [s_heap s_trees s_iters]; auto.
      + rewrite !app_length. cbn [length]. lia.
      + rewrite maps_snoc, app_length. cbn [is_new length]. lia.
      + intros m p z t fp H1 H2. rewrite hist_snoc. cbn [call_on].
        replace (if (m <? maps pre)%nat then [] else []) with (@nil (mop K V)) by (destruct (m <? maps pre)%nat; reflexivity).
        rewrite app_nil_r. pose proof (si_len _ _ _ S) as SL. destruct (lt_dec m (length trees)) as [Hl|Hl].
        * rewrite nth_error_app1 in H1 by lia. rewrite nth_error_app1 in H2 by lia. eapply A; eauto.
        * rewrite nth_error_app2 in H1 by lia. rewrite nth_error_app2 in H2 by lia. rewrite SL in H2.
          destruct (m - length trees)%nat as [|[|]]; inv H1. inv H2. rewrite hist_none by lia. apply avl_inv_new.
      + rewrite iters_snoc by exact L. now rewrite app_nil_r.
      + intros [|] ? ? ? ? H; discriminate.
      + apply Forall_app. auto.
    - (* Put *)
      destruct k as [k|].
      + destruct (KEYED m k (fun k => MPut k v) (fun n t => put_prog equalb compare n t (Some k) v)) as (s' & o & ts' & H1 & H2 & H3 & H4 & H5);
          auto.
        * cbn [call_on]. now rewrite Nat.eqb_refl.
        * intros m' Hne. apply (no_call_other m); auto.
        * intros p z t fp n R N Bt Hn _ _. pose proof (put_call equalb compare h p z t fp n k v R N Bt Hn) as H.
          cbn [avl_step]. destruct (avl_put equalb compare (mk_avl t z) (Some k) v) as [[T' o]| |]; try exact H.
          destruct H as (h' & p' & fp' & H1 & H2 & H3 & H4 & H5 & _). eauto 10.
        * exists s', o, ts'. auto 10.
      + destruct (NIL m (fun n t => put_prog equalb compare n t None v)) as (o & H1 & H2); auto.
        exists (Sys h trees []), o, ts. split; [exact H1|]. split; [reflexivity|]. rewrite H2. split; [discriminate|]. auto.
    - (* Remove *)
      destruct k as [k|].
      + destruct (KEYED m k (fun k => MRemove k) (fun n t => remove_prog equalb compare n t (Some k))) as (s' & o & ts' & H1 & H2 & H3 & H4 & H5);
          auto.
        * cbn [call_on]. now rewrite Nat.eqb_refl.
        * intros m' Hne. apply (no_call_other m); auto.
        * intros p z t fp n R N Bt Hn Hd Ha. pose proof (remove_call equalb compare h p z t fp n k R N Bt Hn) as H. cbv zeta in H.
          cbn [avl_step]. destruct (avl_remove equalb compare (mk_avl t z) (Some k)) as [[T' o]| |].
          -- destruct H as (h' & p' & fp' & H1 & H2 & H3 & H4 & H5 & _). eauto 10.
          -- destruct H as (h' & t' & H1 & _ & _ & _ & _ & _ & _ & Hq & _). destruct Hq as (-> & _); [apply quiet_one_sided; auto|exact H1].
          -- destruct H as (h' & t' & H1 & _ & _ & _ & _ & _ & _ & Hq & _). destruct Hq as (-> & _); [apply quiet_one_sided; auto|exact H1].
        * exists s', o, ts'. auto 10.
      + destruct (NIL m (fun n t => remove_prog equalb compare n t None)) as (o & H1 & H2); auto.
        exists (Sys h trees []), o, ts. split; [exact H1|]. split; [reflexivity|]. rewrite H2. split; [discriminate|]. auto.
    - (* Get *)
      destruct (KEYED m k (fun k => MGet k) (fun n t => get_prog equalb compare n t k)) as (s' & o & ts' & H1 & H2 & H3 & H4 & H5); auto.
      + cbn [call_on]. now rewrite Nat.eqb_refl.
      + intros m' Hne. apply (no_call_other m); auto.
      + intros p z t fp n R N Bt Hn _ _. rewrite (get_call equalb compare h p z t fp n k R Hn).
        cbn [avl_step]. destruct (avl_get equalb compare (mk_avl t z) k) as [o'| |]; cbn [rbind]; try reflexivity.
        exists h, p, fp. split; [reflexivity|]. split; [exact R|]. split; [exact N|]. split; [exact Bt|]. apply change_refl.
      + exists s', o, ts'. auto 10.
    - (* Size *)
      destruct (nth_error trees m) as [[p z]|] eqn:Em.
      + destruct (sinv_get _ _ _ _ _ _ (bi_mem _ _ _ _ _ _ _ _ B) Em) as (t & fp & Et & _).
        pose proof (bi_map _ _ _ _ _ _ _ _ B m p z t fp Em Et) as Hinv.
        exists (Sys h trees []), (Ok (POInt z)), ts. split; [|split; [reflexivity|split; [|split; [discriminate|auto]]]].
        * exists O. intros n _. unfold p_step, on_tree. cbn [s_trees s_heap s_iters hret snd]. rewrite Em. cbn [snd].
          now rewrite (upd_self _ _ _ Em).
        * intros _. split; [apply binv_refused; auto|].
          cbn [map_answer]. rewrite (NEARB _ _ Em). exists (inorder t). split.
          -- exact (avl_inv_lists equalb (fill compare) D eqv lt TK (hist m pre) (mk_avl t z) Hinv).
          -- destruct Hinv as (_ & _ & _ & Hz & _). cbn [avl_size avl_root] in Hz. rewrite Hz. reflexivity.
      + destruct (FAR m Em) as (Hf & Hle). exists (Sys h trees []), Err, ts. split; [|split; [reflexivity|split; [discriminate|split; [auto|lia]]]].
        exists O. intros n _. unfold p_step, on_tree. cbn [s_trees]. now rewrite Em.
  Qed.
  Lemma kept_snoc (ops : list (pop K V)) (os : list (res (pobs K V))) op o : length ops = length os ->
    kept (ops ++ [op]) (os ++ [o]) = kept ops os ++ (if returned o then [op] else []).
  Proof using Type.
    clear. unfold kept. revert os. induction ops as [|x ops IH]; intros [|y os]; cbn [length]; try discriminate.
    - intros _. cbn [app combine filter snd]. destruct (returned o); reflexivity.
    - intros [= H]. cbn [app combine filter snd]. specialize (IH os H). destruct (returned y); cbn [map fst app]; rewrite IH; reflexivity.
  Qed.

  Lemma panic_history (ops : list (pop K V)) : Forall (keys_in D) ops -> Forall map_call ops ->
    exists n0 s os ts, (forall n, (n0 <= n)%nat -> p_run equalb compare n sys0 ops = Some (s, os) /\
        p_run equalb compare n sys0 (kept ops os) = Some (s, filter returned os)) /\
      s_iters s = [] /\ length ops = length os /\ binv D eqv lt (kept ops os) (filter returned os) s ts [] /\
      forall j op o, nth_error ops j = Some op -> nth_error os j = Some o ->
        (returned o = true -> map_answer eqv (kept (firstn j ops) (firstn j os)) op o) /\
        (comparable eqv compare (kept (firstn j ops) (firstn j os)) op -> returned o = true).
  Proof.
    induction ops as [|op ops IH] using rev_ind; intros F M.
    - exists O, sys0, [], []. split; [split; reflexivity|]. split; [reflexivity|]. split; [reflexivity|]. split; [apply binv0|].
      intros [|] ? ? H; discriminate.
    - apply Forall_app in F. destruct F as (F & Fo). apply Forall_cons_iff in Fo. destruct Fo as (Fo & _).
      apply Forall_app in M. destruct M as (M & Mo). apply Forall_cons_iff in Mo. destruct Mo as (Mo & _).
      destruct (IH F M) as (n0 & s & os & ts & Hr & HI & L & B & HA).
      destruct (panic_step _ _ _ _ op B HI Fo Mo) as (s' & o & ts' & (n1 & Hs) & HI' & HB & HN & HC).
      exists (Nat.max n0 n1), s', (os ++ [o]), (if returned o then ts' else ts). split; [|split; [exact HI'|split; [|split]]].
      + intros n Hn. destruct (Hr n ltac:(lia)) as (R1 & R2). split; [eapply run_snoc; [exact R1|apply Hs; lia]|].
        rewrite kept_snoc by exact L. rewrite filter_app. cbn [filter]. destruct (returned o).
        * eapply run_snoc; [exact R2|apply Hs; lia].
        * rewrite !app_nil_r. rewrite (HN eq_refl). exact R2.
      + rewrite !app_length. cbn [length]. lia.
      + rewrite kept_snoc by exact L. rewrite filter_app. cbn [filter]. destruct (returned o).
        * apply HB. reflexivity.
        * rewrite !app_nil_r. rewrite (HN eq_refl). exact B.
      + intros j op' o' H1' H2'.
        assert (Hj : (j <= length ops)%nat) by (apply nth_lt in H1'; rewrite app_length in H1'; cbn [length] in H1'; lia).
        rewrite !firstn_app. replace (j - length ops)%nat with O by lia. replace (j - length os)%nat with O by lia.
        cbn [firstn]. rewrite !app_nil_r. destruct (Nat.eq_dec j (length ops)) as [->|Hne].
        * rewrite nth_error_app2 in H1' by lia. rewrite Nat.sub_diag in H1'. inv H1'.
          rewrite nth_error_app2 in H2' by lia. replace (length ops - length os)%nat with O in H2' by lia. inv H2'.
          rewrite firstn_all. rewrite L, firstn_all. split; [apply HB|].
          unfold comparable. destruct op' as [|m k v|m k|m k|m|m st en|i|i|i]; try contradiction; auto.
          -- intros _. specialize (Hs n1 (le_n _)). cbn [p_step] in Hs. injection Hs as _ <-. reflexivity.
          -- destruct k as [k|]; [intros (A1 & A2); auto|contradiction].
          -- destruct k as [k|]; [intros (A1 & A2); auto|contradiction].
          -- intros (A1 & A2); auto.
        * rewrite nth_error_app1 in H1' by lia. rewrite nth_error_app1 in H2' by lia. auto.
  Qed.
End OneSided.

(** ** Any Equal and Compare at all *)
Section Any.
  Context {K V : Type} (equalb : K -> K -> res bool) (compare : K -> K -> res Z).
  Notation tree := (tree K V).
  Notation heap := (@heap K V).
  Notation sys := (@sys K V).
  Notation step := (p_step equalb compare).

  Lemma rep_reads (h : heap) p (t : tree) fp : rep h p t fp -> reads h p (inorder t).
  Proof using Type. clear. induction 1; cbn [inorder]; econstructor; eauto. Qed.

  Lemma reads_fun (h : heap) p (l1 : list (K * V)) : reads h p l1 -> forall l2, reads h p l2 -> l1 = l2.
  Proof using Type.
    clear. induction 1 as [|a k v b l r xs ys H H1 IH1 H2 IH2]; intros l2 R; inv R; [reflexivity|].
    match goal with E : nth_error h a = Some _ |- _ => rewrite H in E; inv E end.
    f_equal; [auto|]. f_equal. auto.
  Qed.

  Notation survives := (survives equalb).

  Lemma any_step (s : sys) ts op : sinv (s_heap s) (s_trees s) ts -> map_call op ->
    exists s' (o : res (pobs K V)) ts', steps equalb compare s op s' o /\ sinv (s_heap s') (s_trees s') ts' /\ (returned o = false -> survives s s' op).
  Proof using Type.
    intros S Hmc. destruct s as [h trees its]. cbn [s_heap s_trees] in S.
    assert (NONE : forall m (prog : nat -> ptree -> @prog K V (ptree * pobs K V)),
      nth_error trees m = None -> (forall n, step n (Sys h trees its) op = on_tree (Sys h trees its) m (prog n)) ->
      steps equalb compare (Sys h trees its) op (Sys h trees its) Err).
    { intros m prog Hm Hs. exists O. intros n _. rewrite Hs. unfold on_tree. cbn [s_trees]. now rewrite Hm. }
    assert (SAME : survives (Sys h trees its) (Sys h trees its) op).
    { unfold survives. destruct op as [|m k v|m k|m k|m|m st en|i|i|i]; auto. destruct k as [k|]; [|reflexivity]. cbn [s_trees s_iters s_heap].
      split; [reflexivity|]. split; [reflexivity|]. intros m' p z Hm. destruct (sinv_get _ _ _ _ _ _ S Hm) as (t & fp & _ & R & _).
      apply rep_reads in R. exists (inorder t), (inorder t). split; [exact R|]. split; [exact R|]. split; [reflexivity|].
      split; [auto|]. split; [apply incl_refl|auto]. }
    destruct op as [|m k v|m k|m k|m|m st en|i|i|i]; try contradiction.
    - exists (Sys h (trees ++ [(None, 0)]) its), (Ok PODone), (ts ++ [(Leaf, [])]). split; [exists O; intros n _; reflexivity|].
      split; [cbn [s_heap s_trees]; apply sinv_new; exact S|discriminate].
    - destruct (nth_error trees m) as [[p z]|] eqn:Em.
      2:{ exists (Sys h trees its), Err, ts. split; [eapply NONE; eauto; reflexivity|]. split; auto. }
      destruct k as [k|].
      2:{ exists (Sys h trees its), Panic, ts. split; [|split; auto].
          exists O. intros n _. unfold p_step, on_tree. cbn [s_trees s_heap]. now rewrite Em. }
      destruct (sinv_get _ _ _ _ _ _ S Em) as (t & fp & Et & R & N & B).
      pose proof (put_call equalb compare h p z t fp (Datatypes.S (height t)) k v R N B (Nat.lt_succ_diag_r _)) as H.
      destruct (avl_put equalb compare (mk_avl t z) (Some k) v) as [[[t' z'] o]| |].
      + destruct H as (h' & p' & fp' & Hp & R' & N' & B' & C' & _). cbn [avl_root avl_size] in *.
        exists (Sys h' (upd trees m (p', z')) its), (Ok (POEntry o)), (upd ts m (t', fp')). split; [|split; [|discriminate]].
        * apply (steps_at _ _ (Datatypes.S (height t))). unfold p_step, on_tree. cbn [s_trees s_heap s_iters]. rewrite Em.
          unfold put_prog in Hp. rewrite Hp. reflexivity.
        * cbn [s_heap s_trees]. eapply sinv_update; eauto.
      + exists (Sys h trees its), Err, ts. split; [|split; auto]. apply (steps_at _ _ (Datatypes.S (height t))). unfold p_step, on_tree.
        cbn [s_trees s_heap s_iters]. rewrite Em. unfold put_prog in H. rewrite H. reflexivity.
      + exists (Sys h trees its), Panic, ts. split; [|split; auto]. apply (steps_at _ _ (Datatypes.S (height t))). unfold p_step, on_tree.
        cbn [s_trees s_heap s_iters]. rewrite Em. unfold put_prog in H. rewrite H. reflexivity.
    - destruct (nth_error trees m) as [[p z]|] eqn:Em.
      2:{ exists (Sys h trees its), Err, ts. split; [eapply NONE; eauto; reflexivity|]. split; auto. }
      destruct k as [k|].
      2:{ exists (Sys h trees its), Panic, ts. split; [|split; auto].
          exists O. intros n _. unfold p_step, on_tree. cbn [s_trees s_heap]. now rewrite Em. }
      destruct (sinv_get _ _ _ _ _ _ S Em) as (t & fp & Et & R & N & B).
      pose proof (remove_call equalb compare h p z t fp (Datatypes.S (height t)) k R N B (Nat.lt_succ_diag_r _)) as H. cbv zeta in H.
      assert (STOP : forall r, (r = Err \/ r = Panic) ->
        (exists h' t', remove_prog equalb compare (Datatypes.S (height t)) (p, z) (Some k) h = Some (h', r) /\
          rep h' p t' fp /\ bal t' /\ height t' = height t /\ change h h' fp fp /\ same_links h h' /\
          incl (inorder t') (inorder t) /\ (quiet equalb compare k t -> h' = h /\ t' = t) /\
          (unique equalb (inorder t) -> inorder t' = inorder t \/ copied_over equalb k (inorder t) (inorder t'))) ->
        exists s' (o : res (pobs K V)) ts', steps equalb compare (Sys h trees its) (PRemove m (Some k)) s' o /\
          sinv (s_heap s') (s_trees s') ts' /\ (returned o = false -> survives (Sys h trees its) s' (PRemove m (Some k)))).
      { intros r Hr (h' & t' & Hp & R' & B' & _ & C' & _ & I' & _ & U').
        pose proof (sinv_update h h' trees ts m p z t fp p z t' fp S Em Et R' N B' C') as S'. rewrite (upd_self _ _ _ Em) in S'.
        exists (Sys h' trees its), (match r with Err => Err | _ => Panic end), (upd ts m (t', fp)).
        split; [|split; [exact S'|]].
        - apply (steps_at _ _ (Datatypes.S (height t))). unfold p_step, on_tree. cbn [s_trees s_heap s_iters]. rewrite Em.
          unfold remove_prog in Hp. rewrite Hp. destruct Hr as [-> | ->]; reflexivity.
        - intros _. cbn [survives s_trees s_iters s_heap]. split; [reflexivity|]. split; [reflexivity|].
          intros m' p' z0 Hm'. destruct (Nat.eq_dec m' m) as [->|Hne].
          + rewrite Em in Hm'. inv Hm'. exists (inorder t), (inorder t'). split; [eapply rep_reads; eauto|]. split; [eapply rep_reads; eauto|].
            split; [rewrite <- (rep_length _ _ _ _ R), <- (rep_length _ _ _ _ R'); reflexivity|]. split; [congruence|]. split; [exact I'|exact U'].
          + destruct (sinv_get _ _ _ _ _ _ S Hm') as (t2 & f2 & E2 & R2 & _).
            destruct (sinv_get _ _ _ _ _ _ S' Hm') as (t3 & f3 & E3 & R3 & _). rewrite upd_ne in E3 by congruence.
            rewrite E2 in E3. inv E3. exists (inorder t3), (inorder t3). split; [eapply rep_reads; eauto|]. split; [eapply rep_reads; eauto|].
            split; [reflexivity|]. split; [auto|]. split; [apply incl_refl|auto]. }
      destruct (avl_remove equalb compare (mk_avl t z) (Some k)) as [[[t' z'] o]| |]; [|apply (STOP Err); auto|apply (STOP Panic); auto].
      destruct H as (h' & p' & fp' & Hp & R' & N' & B' & C' & _). cbn [avl_root avl_size] in *.
      exists (Sys h' (upd trees m (p', z')) its), (Ok (POEntry o)), (upd ts m (t', fp')). split; [|split; [|discriminate]].
      * apply (steps_at _ _ (Datatypes.S (height t))). unfold p_step, on_tree. cbn [s_trees s_heap s_iters]. rewrite Em.
        unfold remove_prog in Hp. rewrite Hp. reflexivity.
      * cbn [s_heap s_trees]. eapply sinv_update; eauto.
    - destruct (nth_error trees m) as [[p z]|] eqn:Em.
      2:{ exists (Sys h trees its), Err, ts. split; [eapply NONE; eauto; reflexivity|]. split; auto. }
      destruct (sinv_get _ _ _ _ _ _ S Em) as (t & fp & Et & R & N & B).
      pose proof (get_call equalb compare h p z t fp (Datatypes.S (height t)) k R (Nat.lt_succ_diag_r _)) as H.
      destruct (avl_get equalb compare (mk_avl t z) k) as [o| |]; cbn [rbind] in H.
      + exists (Sys h trees its), (Ok (POEntry o)), ts. split; [|split; auto]. apply (steps_at _ _ (Datatypes.S (height t))). unfold p_step, on_tree.
        cbn [s_trees s_heap s_iters]. rewrite Em. unfold get_prog in H. rewrite H. now rewrite (upd_self _ _ _ Em).
      + exists (Sys h trees its), Err, ts. split; [|split; auto]. apply (steps_at _ _ (Datatypes.S (height t))). unfold p_step, on_tree.
        cbn [s_trees s_heap s_iters]. rewrite Em. unfold get_prog in H. rewrite H. reflexivity.
      + exists (Sys h trees its), Panic, ts. split; [|split; auto]. apply (steps_at _ _ (Datatypes.S (height t))). unfold p_step, on_tree.
        cbn [s_trees s_heap s_iters]. rewrite Em. unfold get_prog in H. rewrite H. reflexivity.
    - destruct (nth_error trees m) as [[p z]|] eqn:Em.
      2:{ exists (Sys h trees its), Err, ts. split; [|split; auto]. exists O. intros n _. unfold p_step, on_tree. cbn [s_trees]. now rewrite Em. }
      exists (Sys h trees its), (Ok (POInt z)), ts. split; [|split; auto]. exists O. intros n _. unfold p_step, on_tree.
      cbn [s_trees s_heap s_iters hret snd]. rewrite Em. cbn [snd]. now rewrite (upd_self _ _ _ Em).
  Qed.

  (** A step, whatever its fuel. *)
  Lemma any_step_at n (s : sys) ts op s' (o : res (pobs K V)) : sinv (s_heap s) (s_trees s) ts -> step n s op = Some (s', o) ->
    (exists ts', sinv (s_heap s') (s_trees s') ts') /\ (returned o = false -> survives s s' op).
  Proof using Type.
    intros S H.
    assert (MAP : map_call op -> (exists ts', sinv (s_heap s') (s_trees s') ts') /\ (returned o = false -> survives s s' op)).
    { intros M. destruct (any_step s ts op S M) as (s1 & o1 & ts1 & (n0 & Hs) & S1 & HV).
      apply (step_mono equalb compare n (Nat.max n n0)) in H; [|lia]. rewrite Hs in H by lia. inv H. eauto. }
    destruct op as [|m k v|m k|m k|m|m st en|i|i|i]; try (apply MAP; exact I).
    - unfold p_step in H. destruct (nth_error (s_trees s) m) as [t0|]; [|inv H; split; [eauto|reflexivity]].
      destruct (i_new compare n (fst t0) st en (s_heap s)) as [[it| |]|]; inv H; cbn [s_heap s_trees]; (split; [eauto|first [discriminate|reflexivity]]).
    - unfold p_step, on_iter in H. destruct (nth_error (s_iters s) i) as [it|]; [|inv H; split; [eauto|cbn [survives]; auto]].
      match type of H with match ?X with _ => _ end = _ => destruct X as [[it' r]|]; inv H end.
      cbn [survives s_heap s_trees]. split; [eauto|auto].
    - unfold p_step, on_iter in H. destruct (nth_error (s_iters s) i) as [it|]; [|inv H; split; [eauto|cbn [survives]; auto]].
      match type of H with match ?X with _ => _ end = _ => destruct X as [[it' r]|]; inv H end.
      cbn [survives s_heap s_trees]. split; [eauto|auto].
    - unfold p_step, on_iter in H. destruct (nth_error (s_iters s) i) as [it|]; [|inv H; split; [eauto|cbn [survives]; auto]].
      match type of H with match ?X with _ => _ end = _ => destruct X as [[it' r]|]; inv H end.
      cbn [survives s_heap s_trees]. split; [eauto|auto].
  Qed.

  Lemma any_run n (ops : list (pop K V)) : forall (s : sys) ts s' os, sinv (s_heap s) (s_trees s) ts ->
    p_run equalb compare n s ops = Some (s', os) -> exists ts', sinv (s_heap s') (s_trees s') ts'.
  Proof using Type.
    induction ops as [|op ops IH]; intros s ts s' os S H; cbn [p_run] in H; [inv H; eauto|].
    destruct (step n s op) as [[s1 o]|] eqn:E; [|discriminate].
    destruct (any_step_at _ _ _ _ _ _ S E) as ((ts1 & S1) & _).
    destruct (p_run equalb compare n s1 ops) as [[s2 os2]|] eqn:E2; [|discriminate]. inv H. eapply IH; eauto.
  Qed.
End Any.
