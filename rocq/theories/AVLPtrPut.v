(** * Put and Get on linked nodes. *)
From Coq Require Import List ZArith Bool Lia Arith.
From Verif Require Import Base BaseProofs AVLModel AVLSpec AVLProofs AVLPtrModel AVLPtrProofs AVLPtrRot AVLPtrOps.
Import ListNotations.
Local Open Scope Z_scope.

Section Put.
  Context {K V : Type} (equalb : K -> K -> res bool) (compare : K -> K -> res Z).
  Notation tree := (tree K V).
  Notation heap := (@heap K V).

  (** A node with the subtree [c] on side [dir] and [o] on the other side; its cells. *)
  Definition mk_node (dir : bool) (k : K) (v : V) (b : Z) (o c : tree) : tree :=
    if dir then Node k v b o c else Node k v b c o.
  Definition join (dir : bool) (fo : list nat) (a : nat) (f : list nat) : list nat :=
    if dir then fo ++ a :: f else f ++ a :: fo.

  Lemma in_join dir fo a f x : In x (join dir fo a f) <-> In x fo \/ x = a \/ In x f.
  Proof using Type.
    clear. destruct dir; cbn [join]; rewrite in_app_iff; cbn [In]; split; intros H; try tauto;
      repeat (destruct H as [H|H]; subst; try tauto).
  Qed.
  Lemma nodup_join dir fo a f : NoDup (join dir fo a f) <->
    NoDup fo /\ NoDup f /\ ~ In a fo /\ ~ In a f /\ (forall x, In x fo -> In x f -> False).
  Proof using Type.
    clear. destruct dir; cbn [join]; rewrite nodup_mid; [tauto|]. split; intros (H1 & H2 & H3 & H4 & H5); repeat split; auto;
      intros x Hx Hy; eapply H5; eauto.
  Qed.

  (** A node seen from the side [dir]. *)
  Lemma rep_side (h : heap) a (t : tree) fp dir : rep h (Some a) t fp ->
    exists c o s fo fs, nth_error h a = Some c /\ t = mk_node dir (c_key c) (c_val c) (c_bal c) o s /\ fp = join dir fo a fs /\
      rep h (c_link c (negb dir)) o fo /\ rep h (c_link c dir) s fs.
  Proof using Type.
    clear. intros R. destruct (rep_inv _ _ _ _ R) as (k & v & b & l & r & pl & pr & fl & fr & -> & -> & E & Rl & Rr).
    destruct dir; do 5 eexists; (split; [exact E|]); (split; [reflexivity|]); (split; [reflexivity|]); split; assumption.
  Qed.

  (** [root.link[dir] = p] with a subtree that is in place. *)
  Lemma relink (h : heap) a c dir p (o s : tree) fo fs :
    nth_error h a = Some c -> rep h (c_link c (negb dir)) o fo -> rep h p s fs -> NoDup (join dir fo a fs) ->
    rep (upd h a (with_link dir p c)) (Some a) (mk_node dir (c_key c) (c_val c) (c_bal c) o s) (join dir fo a fs).
  Proof using Type.
    clear. intros E Ro Rs N. destruct c as [k v b pl pr].
    destruct dir; cbn [mk_node join with_link c_key c_val c_bal c_l c_r c_link negb] in *; eapply rep_write; eauto.
  Qed.

  (** [root.balance = b]. *)
  Lemma rebal (h : heap) a c dir b (o s : tree) fo fs :
    nth_error h a = Some c -> rep h (Some a) (mk_node dir (c_key c) (c_val c) (c_bal c) o s) (join dir fo a fs) ->
    NoDup (join dir fo a fs) ->
    rep (upd h a (with_bal b c)) (Some a) (mk_node dir (c_key c) (c_val c) b o s) (join dir fo a fs).
  Proof using Type.
    clear. intros E R N.
    assert (G : exists pl pr l r fl fr, c_l c = pl /\ c_r c = pr /\ rep h pl l fl /\ rep h pr r fr /\
      join dir fo a fs = fl ++ a :: fr /\ mk_node dir (c_key c) (c_val c) b o s = Node (c_key c) (c_val c) b l r).
    { destruct (rep_inv _ _ _ _ R) as (k & v & b0 & l & r & pl & pr & fl & fr & Et & Ef & E0 & Rl & Rr).
      rewrite E in E0. inv E0. exists (c_l (Cell k v b0 pl pr)), (c_r (Cell k v b0 pl pr)), l, r, fl, fr.
      repeat split; auto. destruct dir; cbn [mk_node] in *; inv Et; reflexivity. }
    destruct G as (pl & pr & l & r & fl & fr & <- & <- & Rl & Rr & Ej & Em).
    rewrite Ej in *. rewrite Em. eapply rep_write; eauto.
  Qed.

  Lemma rep_alloc (h : heap) c p (t : tree) fp : rep h p t fp -> rep (h ++ [c]) p t fp.
  Proof using Type.
    clear. intros R. apply (rep_frame _ _ _ _ _ R). intros x Hx. apply nth_error_app1. eapply rep_lt; eauto.
  Qed.

  (** Every cell keeps its links. *)
  Definition same_links (h h' : heap) : Prop :=
    forall x c, nth_error h x = Some c -> exists c', nth_error h' x = Some c' /\ c_l c' = c_l c /\ c_r c' = c_r c.

  (** Cell [a] is a fresh node that holds [e]. *)
  Definition is_copy (h : heap) (a : nat) (e : K * V) : Prop := nth_error h a = Some (Cell (fst e) (snd e) 0 None None).

  (** putR: where Equal and Compare do not panic, the new heap represents the new tree; the returned node is a fresh copy.
      Where they panic, nothing has changed. *)
  Definition putR_spec key value (t : tree) (h : heap) p fp n : Prop :=
    match putR equalb compare key value t with
    | Ok (t', o, done) =>
        bal t' /\ zh t' = zh t + (if done then 0 else 1) /\ (done = false -> t = Leaf \/ tbal t' <> 0) /\
        exists h' p' q fp', p_putR equalb compare n key value p h = Some (h', Ok (p', q, done)) /\
          rep h' p' t' fp' /\ NoDup fp' /\ keeps fp h h' /\ length h' = S (length h) /\
          match o with
          | None => q = None /\ exists f1 f2, fp = f1 ++ f2 /\ fp' = f1 ++ length h :: f2
          | Some e => done = true /\ p' = p /\ fp' = fp /\ same_links h h' /\
              q = Some (length h) /\ is_copy h' (length h) e
          end
    | Err => p_putR equalb compare n key value p h = Some (h, Err)
    | Panic => p_putR equalb compare n key value p h = Some (h, Panic)
    end.

  Lemma putR_ref key value : forall (t : tree) (h : heap) p fp n,
    rep h p t fp -> NoDup fp -> bal t -> (height t < n)%nat -> putR_spec key value t h p fp n.
  Proof using Type.
    induction t as [|k v b l IHl r IHr]; intros h p fp n R N B Hn; unfold putR_spec.
    - destruct n as [|n]; [lia|]. destruct (rep_leaf_ptr _ _ _ R) as (-> & ->). cbn [putR].
      split; [cbn; lia|]. split; [cbn [zh]; lia|]. split; [tauto|].
      exists (h ++ [Cell key value 0 None None]), (Some (length h)), None, [length h].
      split; [reflexivity|]. split; [|split; [repeat constructor; auto|split; [|split]]].
      + change [length h] with ([] ++ length h :: []). eapply rep_node; [|constructor|constructor].
        rewrite nth_error_app2 by lia. now rewrite Nat.sub_diag.
      + split; [rewrite app_length; lia|]. intros x Hx _. now apply nth_error_app1.
      + rewrite app_length. cbn. lia.
      + split; [reflexivity|]. exists [], []. auto.
    - destruct n as [|n]; [lia|].
      destruct (rep_node_ptr _ _ _ _ _ _ _ _ R) as (a & pl & pr & fl & fr & -> & -> & Ea & Rl & Rr).
      assert (La : (a < length h)%nat) by (eapply nth_lt; eauto).
      cbn [putR p_putR]. rewrite (bind_ok _ _ _ _ _ (load_some _ _ _ Ea)). cbn [c_key c_val].
      destruct (equalb k key) as [[|]| |]; cbn [rbind].
      + (* found *)
        cbn [bal] in B. split; [cbn [bal]; tauto|]. split; [cbn [zh]; lia|]. split; [discriminate|].
        set (h1 := h ++ [Cell k v 0 None None]).
        assert (E1 : nth_error h1 a = Some (Cell k v b pl pr)) by (unfold h1; rewrite nth_error_app1 by lia; exact Ea).
        exists (upd h1 a (Cell key value b pl pr)), (Some a), (Some (length h)), (fl ++ a :: fr).
        split; [|split; [|split; [exact N|split; [|split]]]].
        * erewrite bind_ok; [|reflexivity]. cbn [hlift]. erewrite bind_ok; [|reflexivity].
          fold h1. rewrite (bind_ok _ _ _ _ _ (store_some _ _ _ _ E1)). reflexivity.
        * eapply rep_write; [exact E1|apply rep_alloc; exact Rl|apply rep_alloc; exact Rr|exact N].
        * split; [rewrite upd_length; unfold h1; rewrite app_length; lia|]. intros x Hx Hnx.
          rewrite upd_ne by (intros ->; apply Hnx, in_mid). unfold h1. now apply nth_error_app1.
        * rewrite upd_length. unfold h1. rewrite app_length. cbn. lia.
        * split; [reflexivity|]. split; [reflexivity|]. split; [reflexivity|]. split.
          { intros x c Hx. destruct (Nat.eq_dec a x) as [<-|Hne].
            - rewrite (upd_get _ _ _ _ E1). rewrite Ea in Hx. inv Hx. eexists. split; [reflexivity|]. split; reflexivity.
            - rewrite upd_ne by exact Hne. unfold h1. rewrite nth_error_app1 by (eapply nth_lt; eauto). eauto. }
          split; [reflexivity|]. unfold is_copy.
          rewrite upd_ne by lia. unfold h1. rewrite nth_error_app2 by lia. now rewrite Nat.sub_diag.
      + (* descend *)
        destruct (direction compare k key) as [dir| |]; cbn [rbind].
        2:{ reflexivity. }
        2:{ reflexivity. }
        set (T := Node k v b l r) in *.
        assert (IH : forall h p fp n, rep h p (if dir then r else l) fp -> NoDup fp -> bal (if dir then r else l) ->
          (height (if dir then r else l) < n)%nat -> putR_spec key value (if dir then r else l) h p fp n) by (destruct dir; [exact IHr|exact IHl]).
        assert (Ep : (if dir then putR equalb compare key value r else putR equalb compare key value l) =
          putR equalb compare key value (if dir then r else l)) by (destruct dir; reflexivity).
        rewrite Ep. clear Ep IHl IHr.
        destruct (rep_side _ _ _ _ dir R) as (c & o & s & fo & fs & Ec & Et & Ef & Ro & Rs).
        rewrite Ea in Ec. inv Ec. cbn [c_key c_val c_bal] in Et.
        assert (Es : (if dir then r else l) = s) by (unfold T in Et; destruct dir; cbn [mk_node] in Et; inv Et; reflexivity).
        rewrite Es in IH |- *.
        assert (Bs : bal s) by (rewrite <- Es; unfold T in B; cbn [bal] in B; destruct dir; tauto).
        assert (Bo : bal o) by (unfold T in Et, B; cbn [bal] in B; destruct dir; cbn [mk_node] in Et; inv Et; tauto).
        assert (Hs : (height s < n)%nat) by (rewrite <- Es; unfold T in Hn; cbn [height] in Hn; destruct dir; lia).
        rewrite Ef in *. pose proof (proj1 (nodup_join _ _ _ _) N) as (No & Ns & Ao & As & Dj).
        specialize (IH h _ fs n Rs Ns Bs Hs). unfold putR_spec in IH.
        erewrite bind_ok; [|reflexivity]. cbv beta iota. erewrite bind_ok; [|reflexivity]. cbv beta iota.
        destruct (putR equalb compare key value s) as [[[s' on] done]| |]; cbn [rbind].
        2:{ rewrite (bind_err _ _ _ _ IH). reflexivity. }
        2:{ rewrite (bind_panic _ _ _ _ IH). reflexivity. }
        destruct IH as (Bs' & Zs & Hx & h1 & ps & q & fs' & H1 & R1 & N1 & K1 & L1 & Hq).
        rewrite (bind_ok _ _ _ _ _ H1). cbv beta iota.
        assert (E1 : nth_error h1 a = Some (Cell k v b pl pr)) by (rewrite (proj2 K1); auto).
        assert (Ro1 : rep h1 (c_link (Cell k v b pl pr) (negb dir)) o fo).
        { apply (rep_frame h); [exact Ro|]. intros x Hx0. apply (proj2 K1); [eapply rep_lt; eauto|].
          intros Hx1. eapply Dj; eauto. }
        assert (Hfs : forall x, In x fs' -> In x fs \/ x = length h).
        { intros x Hx0. destruct on as [e|].
          - destruct Hq as (_ & _ & -> & _). auto.
          - destruct Hq as (_ & f1 & f2 & -> & ->). rewrite in_app_iff in *. cbn [In] in Hx0. intuition. }
        assert (Nj : NoDup (join dir fo a fs')).
        { apply nodup_join. split; [exact No|]. split; [exact N1|]. split; [exact Ao|]. split.
          - intros Hi. destruct (Hfs _ Hi) as [Hi'|Hi']; [auto|lia].
          - intros x Hi Hi2. destruct (Hfs _ Hi2) as [Hi'|Hi']; [eapply Dj; eauto|]. pose proof (rep_lt _ _ _ _ Ro x Hi). lia. }
        rewrite (bind_ok _ _ _ _ _ (store_some _ _ _ _ E1)).
        set (c1 := with_link dir ps (Cell k v b pl pr)).
        set (h2 := upd h1 a c1).
        assert (R2 : rep h2 (Some a) (mk_node dir k v b o s') (join dir fo a fs')).
        { apply (relink h1 a (Cell k v b pl pr) dir ps o s' fo fs' E1 Ro1 R1 Nj). }
        assert (E2 : nth_error h2 a = Some c1) by (unfold h2; eapply upd_get; exact E1).
        assert (K2 : keeps (join dir fo a fs) h h2).
        { eapply keeps_trans; [eapply keeps_incl; [exact K1|intros x Hx0; apply in_join; auto]|].
          apply keeps_upd. apply in_join. auto. }
        assert (L2 : length h2 = length h1) by (unfold h2; apply upd_length).
        assert (Hq2 : match on with
          | None => q = None /\ exists f1 f2, join dir fo a fs = f1 ++ f2 /\ join dir fo a fs' = f1 ++ length h :: f2
          | Some e => done = true /\ join dir fo a fs' = join dir fo a fs /\ same_links h h2 /\
              q = Some (length h) /\ is_copy h2 (length h) e
          end).
        { destruct on as [e|].
          - destruct Hq as (Hd & Hp & Hf & Hl & -> & He). split; [exact Hd|]. split; [now rewrite Hf|]. split.
            + intros y cy Hy. destruct (Nat.eq_dec a y) as [<-|Hne].
              * rewrite E2. rewrite Ea in Hy. inv Hy. eexists. split; [reflexivity|].
                unfold c1. destruct dir; cbn; auto.
              * unfold h2. rewrite upd_ne by exact Hne. apply Hl. exact Hy.
            + split; [reflexivity|]. unfold is_copy, h2. rewrite upd_ne by lia. exact He.
          - destruct Hq as (Hqn & f1 & f2 & -> & ->). split; [exact Hqn|]. destruct dir; cbn [join].
            + exists (fo ++ a :: f1), f2. rewrite <- !app_assoc. auto.
            + exists f1, (f2 ++ a :: fo). rewrite <- !app_assoc. auto. }
        assert (Esl : set_link T dir s' = Ok (mk_node dir k v b o s')).
        { unfold T in *. destruct dir; cbn [mk_node] in *; inv Et; reflexivity. }
        rewrite Esl. cbn [rbind].
        assert (Eb : b = if dir then zh s - zh o else zh o - zh s).
        { unfold T in *. cbn [bal] in B. destruct dir; cbn [mk_node] in *; inv Et; tauto. }
        assert (Rb : -1 <= b <= 1) by (unfold T in B; cbn [bal] in B; tauto).
        assert (ZT : zh T = 1 + Z.max (zh o) (zh s)).
        { rewrite Et. destruct dir; cbn [mk_node zh]; lia. }
        assert (Bm : forall b', b' = (if dir then zh s' - zh o else zh o - zh s') -> -1 <= b' <= 1 ->
          bal (mk_node dir k v b' o s')).
        { intros b' Hb' Hr'. destruct dir; cbn [mk_node bal]; tauto. }
        assert (Zm : forall b', zh (mk_node dir k v b' o s') = 1 + Z.max (zh o) (zh s')).
        { intros b'. destruct dir; cbn [mk_node zh]; lia. }
        destruct done.
        { split; [apply Bm; [destruct dir; lia|lia]|]. split; [rewrite Zm, ZT; lia|]. split; [discriminate|].
          exists h2, (Some a), q, (join dir fo a fs'). split; [reflexivity|]. split; [exact R2|]. split; [exact Nj|].
          split; [exact K2|]. split; [lia|].
          destruct on as [e|]; [|exact Hq2]. destruct Hq2 as (_ & H3 & H4 & H5). auto. }
        assert (Hon : on = None) by (destruct on; [destruct Hq2 as (? & _); discriminate|reflexivity]). subst on.
        rewrite (bind_ok _ _ _ _ _ (balance_some _ _ _ E2)).
        assert (Ecb : c_bal c1 = b) by (unfold c1; destruct dir; reflexivity).
        assert (Eck : c_key c1 = k) by (unfold c1; destruct dir; reflexivity).
        assert (Ecv : c_val c1 = v) by (unfold c1; destruct dir; reflexivity).
        rewrite Ecb. cbv zeta beta.
        assert (Esb : set_balance (mk_node dir k v b o s') (b + dirbal dir) = Ok (mk_node dir k v (b + dirbal dir) o s'))
          by (destruct dir; reflexivity).
        rewrite Esb. cbn [rbind].
        rewrite (bind_ok _ _ _ _ _ (store_some _ _ _ _ E2)).
        set (b' := b + dirbal dir) in *. set (h3 := upd h2 a (with_bal b' c1)).
        assert (R3 : rep h3 (Some a) (mk_node dir k v b' o s') (join dir fo a fs')).
        { pose proof (rebal h2 a c1 dir b' o s' fo fs' E2) as HR. rewrite Eck, Ecv, Ecb in HR. apply HR; assumption. }
        assert (K3 : keeps (join dir fo a fs) h h3).
        { eapply keeps_trans; [exact K2|]. apply keeps_upd. apply in_join. auto. }
        assert (L3 : length h3 = length h1) by (unfold h3; rewrite upd_length; exact L2).
        assert (Eb' : b' = if dir then zh s' - zh o else zh o - zh s').
        { unfold b'. rewrite Zs. destruct dir; cbn [dirbal]; lia. }
        destruct (b' =? 0) eqn:E0; [|destruct ((b' =? 1) || (b' =? -1)) eqn:E01].
        { split; [apply Bm; [exact Eb'|lia]|]. split; [rewrite Zm, ZT; destruct dir; lia|]. split; [discriminate|].
          exists h3, (Some a), q, (join dir fo a fs'). split; [reflexivity|]. split; [exact R3|]. split; [exact Nj|].
          split; [exact K3|]. split; [lia|exact Hq2]. }
        { split; [apply Bm; [exact Eb'|lia]|].
          split; [rewrite Zm, ZT; unfold b' in *; destruct dir; cbn [dirbal] in *; lia|].
          split; [intros _; right; destruct dir; cbn [mk_node tbal]; lia|].
          exists h3, (Some a), q, (join dir fo a fs'). split; [reflexivity|]. split; [exact R3|]. split; [exact Nj|].
          split; [exact K3|]. split; [lia|exact Hq2]. }
        assert (Hb2 : b' = 2 * dirbal dir) by (unfold b' in *; destruct dir; cbn [dirbal] in *; lia).
        assert (PB : exists t3, put_balance (mk_node dir k v b' o s') dir = Ok t3 /\ bal t3 /\
          zh t3 = zh (mk_node dir k v b' o s') - 1).
        { assert (Hl : tbal s' <> 0).
          { destruct (Hx eq_refl) as [->|H]; [|exact H]. exfalso. cbn [zh] in Zs. pose proof (zh_nonneg o).
            unfold b' in Eb'. cbn [zh] in Eb. destruct dir; cbn [dirbal] in *; lia. }
          destruct dir; cbn [mk_node] in *.
          - destruct (put_balance_ok k v b' o s' true) as (t3 & H3 & _ & B3 & Z3); auto. eauto.
          - destruct (put_balance_ok k v b' s' o false) as (t3 & H3 & _ & B3 & Z3); auto. eauto. }
        destruct PB as (t3 & H3 & B3 & Z3). rewrite H3. cbn [rbind].
        destruct (put_balance_ref h3 _ _ _ dir t3 R3 Nj H3) as (h4 & p4 & H4 & R4 & K4 & L4).
        split; [exact B3|]. split; [rewrite Z3, Zm, ZT; unfold b' in *; destruct dir; cbn [dirbal] in *; lia|].
        split; [discriminate|].
        exists h4, p4, q, (join dir fo a fs'). split; [rewrite (bind_ok _ _ _ _ _ H4); reflexivity|].
        split; [exact R4|]. split; [exact Nj|]. split; [|split; [lia|exact Hq2]].
        split; [pose proof (proj1 K3); lia|]. intros x Hx0 Hx1. rewrite (proj2 K4).
        * apply (proj2 K3); assumption.
        * lia.
        * intros Hi. apply in_join in Hi. destruct Hi as [Hi|[Hi|Hi]].
          -- apply Hx1, in_join. auto.
          -- apply Hx1, in_join. auto.
          -- destruct (Hfs _ Hi) as [Hi'|Hi']; [apply Hx1, in_join; auto|lia].
      + (* Equal returned an error *) reflexivity.
      + (* Equal panicked *) reflexivity.
  Qed.
End Put.
