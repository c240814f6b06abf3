(** * Remove and Get on linked nodes. *)
From Coq Require Import List ZArith Bool Lia Arith.
From Verif Require Import Base BaseProofs AVLModel AVLSpec AVLProofs AVLPtrModel AVLPtrProofs AVLPtrRot AVLPtrOps AVLPtrPut AVLPtrSpec.
Import ListNotations.
Local Open Scope Z_scope.

Section Remove.
  Context {K V : Type} (equalb : K -> K -> res bool) (compare : K -> K -> res Z).
  Notation tree := (tree K V).
  Notation heap := (@heap K V).

  (** The part of removeR after the test for equality. *)
  Definition remove_cont (key : K) (k : K) (v : V) (b : Z) (l r : tree) (found : option (K * V)) :
      res (tree * option (K * V) * bool) :=
    let? dir := direction compare k key in
    let? (child, node, done) := (if dir then removeR equalb compare key r else removeR equalb compare key l) in
    remove_finish k v b l r dir (match found with Some _ => found | None => node end) child done.

  (** Where a node with two children has a key equal to [key], the removal of its predecessor does not panic. *)
  Definition quiet_at (k : K) (v : V) (b : Z) (l r : tree) : Prop :=
    match l, r with
    | Node lk lv _ _ lr, Node _ _ _ _ _ =>
        let (hk, hv) := heir lk lv lr in exists x, remove_cont hk hk hv b l r (Some (k, v)) = Ok x
    | _, _ => True
    end.
  Fixpoint quiet (key : K) (t : tree) : Prop :=
    match t with
    | Leaf => True
    | Node k v b l r => (equalb k key = Ok true -> quiet_at k v b l r) /\ quiet key l /\ quiet key r
    end.
  Notation unique := (@unique K V equalb).

  Lemma quiet_none key (t : tree) : Forall (fun e => equalb (fst e) key <> Ok true) (inorder t) -> quiet key t.
  Proof using Type.
    clear. induction t as [|k v b l IHl r IHr]; cbn [inorder quiet]; [auto|].
    rewrite Forall_app, Forall_cons_iff. cbn [fst]. intros (H1 & H2 & H3). split; [intros H; contradiction|auto].
  Qed.

  Lemma quiet_last key v0 (t : tree) l0 : unique (inorder t) -> inorder t = l0 ++ [(key, v0)] -> quiet key t.
  Proof using Type.
    clear. revert l0. induction t as [|k v b l IHl r IHr]; intros l0 U E; cbn [quiet]; [auto|].
    cbn [inorder] in *. unfold unique in U. rewrite fop_app, fop_cons in U. destruct U as (Ul & (Fr & Ur) & Ulr).
    destruct r as [|rk rv rb rl rr].
    - cbn [inorder] in E. change ((k, v) :: []) with ([(k, v)]) in E. apply app_inj_tail in E. destruct E as (E1 & E2). inv E2.
      split; [intros _; destruct l; exact I|]. split; [|cbn; auto]. apply quiet_none. apply Forall_forall. intros e He.
      apply (Ulr e (key, v0) He). now left.
    - set (R := Node rk rv rb rl rr) in *.
      assert (G : exists l1, inorder R = l1 ++ [(key, v0)]).
      { destruct (heir_last rk rv rb rl rr) as (l1 & H1). fold R in H1. exists l1. rewrite H1 in E |- *. f_equal.
        rewrite app_comm_cons, app_assoc in E. apply app_inj_tail in E. destruct E as (_ & ->). reflexivity. }
      destruct G as (l1 & G). split; [|split].
      + intros Hq. exfalso. rewrite Forall_forall in Fr. destruct (Fr (key, v0)) as (Fr1 & _); [rewrite G; apply in_or_app; right; now left|].
        exact (Fr1 Hq).
      + apply quiet_none. apply Forall_forall. intros e He. apply (Ulr e (key, v0) He).
        right. rewrite G. apply in_or_app. right. now left.
      + apply (IHr l1); assumption.
  Qed.

  Lemma quiet_heir (lk : K) (lv : V) lb (ll lr r : tree) k v hk hv :
    unique (inorder (Node lk lv lb ll lr) ++ (k, v) :: inorder r) -> heir lk lv lr = (hk, hv) ->
    quiet hk (Node lk lv lb ll lr) /\ quiet hk r.
  Proof using Type.
    clear. intros U E. destruct (heir_last lk lv lb ll lr) as (l0 & H0). rewrite E in H0.
    unfold unique in U. rewrite fop_app, fop_cons in U. destruct U as (Ul & (Fr & Ur) & Ulr). split.
    - eapply quiet_last; eauto.
    - apply quiet_none. apply Forall_forall. intros e He.
      apply (Ulr (hk, hv) e); [rewrite H0; apply in_or_app; right; now left|now right].
  Qed.

  (** The cells added since [h] have no links. *)
  Definition blank (h h' : heap) : Prop :=
    forall x c, (length h <= x)%nat -> nth_error h' x = Some c -> c_l c = None /\ c_r c = None.

  Lemma blank_same (h h' : heap) : length h' = length h -> blank h h'.
  Proof using Type. clear. intros E x c Hx Hc. pose proof (nth_lt _ _ _ Hc). lia. Qed.
  Lemma blank_trans fp (h h2 h' : heap) : blank h h2 -> keeps fp h2 h' -> (forall x, In x fp -> (x < length h)%nat) ->
    blank h2 h' -> blank h h'.
  Proof using Type.
    clear. intros B1 Hk B Hb x c Hx Hc. destruct (le_lt_dec (length h2) x) as [L|L]; [eapply Hb; eauto|].
    rewrite (proj2 Hk) in Hc; [eapply B1; eauto|exact L|]. intros Hi. apply B in Hi. lia.
  Qed.

  Notation copied_over := (@copied_over K V equalb).

  (** Remove stopped by a panic in Equal or Compare: the shape is the old one, and at most one entry has changed. *)
  Definition stopped (key : K) (h : heap) p fp (T : tree) (q u : Prop) (r : res (ptr * ptr * bool))
      (out : option (heap * res (ptr * ptr * bool))) : Prop :=
    exists h' T', out = Some (h', r) /\ rep h' p T' fp /\ bal T' /\ zh T' = zh T /\ keeps fp h h' /\ blank h h' /\ same_links h h' /\
      incl (inorder T') (inorder T) /\ (q -> h' = h /\ T' = T) /\
      (u -> inorder T' = inorder T \/ copied_over key (inorder T) (inorder T')).

  Definition finished (lo : nat) (ex : list nat) (h : heap) p fp (T : tree) t' (o : option (K * V)) (done : bool)
      (out : option (heap * res (ptr * ptr * bool))) : Prop :=
    bal t' /\ zh t' = zh T - (if done then 0 else 1) /\
    exists h' p' q fp', out = Some (h', Ok (p', q, done)) /\ rep h' p' t' fp' /\ NoDup fp' /\ keeps fp h h' /\ blank h h' /\
      (fp' = fp \/ exists f1 x f2, fp = f1 ++ x :: f2 /\ fp' = f1 ++ f2 /\ nth_error h' x = nth_error h x /\ ~ In x ex) /\
      match o with
      | None => q = None /\ fp' = fp /\ p' = p /\ done = true /\ t' = T /\ same_links h h'
      | Some e => exists a, q = Some a /\ (lo <= a)%nat /\ ~ In a fp /\ is_copy h' a e
      end.

  Definition removeR_spec key (T : tree) (h : heap) p fp n : Prop :=
    let out := p_removeR equalb compare n key p h in
    match removeR equalb compare key T with
    | Ok (t', o, done) => finished (length h) [] h p fp T t' o done out
    | Err => stopped key h p fp T (quiet key T) (unique (inorder T)) Err out
    | Panic => stopped key h p fp T (quiet key T) (unique (inorder T)) Panic out
    end.

  (** An entry found before is what is returned. *)
  Lemma remove_cont_found key k v b (l r : tree) e t' o done :
    remove_cont key k v b l r (Some e) = Ok (t', o, done) -> o = Some e.
  Proof using Type.
    clear. unfold remove_cont, remove_finish. intros H.
    destruct (direction compare k key) as [dir| |]; cbn [rbind] in H; try discriminate.
    destruct (if dir then removeR equalb compare key r else removeR equalb compare key l) as [[[c nd] d]| |];
      cbn [rbind] in H; try discriminate.
    destruct (set_link (Node k v b l r) dir c) as [r1| |]; cbn [rbind] in H; try discriminate.
    destruct d; [now inv H|]. cbv zeta in H.
    destruct (set_balance r1 (b - dirbal dir)) as [r2| |]; cbn [rbind] in H; try discriminate.
    destruct ((b - dirbal dir =? 1) || (b - dirbal dir =? -1)); [now inv H|].
    destruct (b - dirbal dir =? 0); [now inv H|].
    destruct (remove_balance r2 dir) as [[r3 d3]| |]; cbn [rbind] in H; try discriminate. now inv H.
  Qed.

  Lemma same_links_refl (h : heap) : same_links h h.
  Proof using Type. clear. intros x c H. eauto. Qed.
  Lemma same_links_trans (h1 h2 h3 : heap) : same_links h1 h2 -> same_links h2 h3 -> same_links h1 h3.
  Proof using Type.
    clear. intros A B x c H. destruct (A x c H) as (c' & H' & E1 & E2). destruct (B x c' H') as (c'' & H'' & E3 & E4).
    exists c''. split; [exact H''|]. split; congruence.
  Qed.
  Lemma same_links_upd (h : heap) a c c' : nth_error h a = Some c -> c_l c' = c_l c -> c_r c' = c_r c -> same_links h (upd h a c').
  Proof using Type.
    clear. intros E H1 H2 x cx Hx. destruct (Nat.eq_dec a x) as [<-|Hn].
    - rewrite E in Hx. inv Hx. exists c'. rewrite (upd_get _ _ _ _ E). auto.
    - rewrite upd_ne by exact Hn. eauto.
  Qed.

  Lemma upd_same {A} (l : list A) i x : nth_error l i = Some x -> upd l i x = l.
  Proof using Type.
    clear. revert i. induction l as [|y l IH]; intros [|i] H; cbn in *; try discriminate; [congruence|]. f_equal. auto.
  Qed.

  (** The tree on both sides of a node, after one side has been replaced. *)
  Lemma down_ref key (k : K) (v : V) b (l r : tree) found q0 lo (h : heap) a fp n :
    rep h (Some a) (Node k v b l r) fp -> NoDup fp -> bal (Node k v b l r) ->
    (forall h p fp, rep h p l fp -> NoDup fp -> bal l -> removeR_spec key l h p fp n) ->
    (forall h p fp, rep h p r fp -> NoDup fp -> bal r -> removeR_spec key r h p fp n) ->
    (lo <= length h)%nat ->
    match found with
    | None => q0 = None
    | Some e => exists x, q0 = Some x /\ (lo <= x)%nat /\ ~ In x fp /\ is_copy h x e
    end ->
    let out := p_remove_down compare (p_removeR equalb compare n) (Some a) key q0 h in
    let T := Node k v b l r in
    match remove_cont key k v b l r found with
    | Ok (t', o, done) => finished lo [a] h (Some a) fp T t' o done out
    | Err => stopped key h (Some a) fp T (quiet key l /\ quiet key r) (unique (inorder l) /\ unique (inorder r)) Err out
    | Panic => stopped key h (Some a) fp T (quiet key l /\ quiet key r) (unique (inorder l) /\ unique (inorder r)) Panic out
    end.
  Proof using Type.
    intros R N B IHl IHr Hlo Hf out T.
    destruct (rep_node_ptr _ _ _ _ _ _ _ _ R) as (a' & pl & pr & fl & fr & Ha & -> & Ea & Rl & Rr).
    inversion Ha; subst a'. clear Ha.
    assert (La : (a < length h)%nat) by (eapply nth_lt; eauto).
    subst out. unfold remove_cont, p_remove_down. rewrite (bind_ok _ _ _ _ _ (load_some _ _ _ Ea)). cbn [c_key].
    assert (STOP : forall q u r0, stopped key h (Some a) (fl ++ a :: fr) T q u r0 (Some (h, r0))).
    { intros q u r0. exists h, T. split; [reflexivity|]. split; [exact R|]. split; [exact B|]. split; [reflexivity|].
      split; [apply keeps_refl|]. split; [apply blank_same; reflexivity|]. split; [apply same_links_refl|]. split; [apply incl_refl|]. auto. }
    destruct (direction compare k key) as [dir| |]; cbn [rbind].
    2:{ apply STOP. }
    2:{ apply STOP. }
    assert (IH : forall h p fp, rep h p (if dir then r else l) fp -> NoDup fp -> bal (if dir then r else l) ->
      removeR_spec key (if dir then r else l) h p fp n) by (destruct dir; assumption).
    assert (Ep : (if dir then removeR equalb compare key r else removeR equalb compare key l) =
      removeR equalb compare key (if dir then r else l)) by (destruct dir; reflexivity).
    rewrite Ep. clear Ep IHl IHr.
    destruct (rep_side _ _ _ _ dir R) as (c & o & s & fo & fs & Ec & Et & Ef & Ro & Rs).
    rewrite Ea in Ec. inv Ec. cbn [c_key c_val c_bal] in Et.
    assert (Es : (if dir then r else l) = s) by (destruct dir; cbn [mk_node] in Et; inv Et; reflexivity).
    assert (Eo : (if dir then l else r) = o) by (destruct dir; cbn [mk_node] in Et; inv Et; reflexivity).
    rewrite Es in IH |- *.
    assert (Bs : bal s) by (rewrite <- Es; cbn [bal] in B; destruct dir; tauto).
    assert (Bo : bal o) by (rewrite <- Eo; cbn [bal] in B; destruct dir; tauto).
    rewrite Ef in *. pose proof (proj1 (nodup_join _ _ _ _) N) as (No & Ns & Ao & As & Dj).
    specialize (IH h _ fs Rs Ns Bs). unfold removeR_spec in IH. cbv zeta in IH.
    erewrite bind_ok; [|reflexivity]. cbv beta iota.
    assert (STOP2 : forall r0, stopped key h (c_link (Cell k v b pl pr) dir) fs s (quiet key s) (unique (inorder s)) r0
        (p_removeR equalb compare n key (c_link (Cell k v b pl pr) dir) h) ->
        exists h', p_removeR equalb compare n key (c_link (Cell k v b pl pr) dir) h = Some (h', r0) /\
        stopped key h (Some a) (join dir fo a fs) T (quiet key l /\ quiet key r) (unique (inorder l) /\ unique (inorder r)) r0
          (Some (h', r0))).
    { intros r0 (h' & s' & Ho & R' & B' & Z' & K' & BL & SL & I' & Q' & U'). exists h'. split; [exact Ho|].
      exists h', (mk_node dir k v b o s'). split; [reflexivity|].
      assert (Ea' : exists c', nth_error h' a = Some c' /\ c' = Cell k v b pl pr).
      { exists (Cell k v b pl pr). split; [|reflexivity]. rewrite (proj2 K'); auto. }
      destruct Ea' as (c' & Ea' & ->).
      assert (Ro' : rep h' (c_link (Cell k v b pl pr) (negb dir)) o fo).
      { apply (rep_frame h); [exact Ro|]. intros x Hx. apply (proj2 K'); [eapply rep_lt; eauto|]. intros Hi. eapply Dj; eauto. }
      split; [|split; [|split; [|split; [|split; [|split; [|split; [|split]]]]]]].
      - destruct dir; cbn [mk_node join c_link negb c_l c_r] in *; eapply rep_node; eauto.
      - cbn [bal] in B. destruct dir; cbn [mk_node bal]; rewrite Z'; inv Et; tauto.
      - unfold T. rewrite Et. destruct dir; cbn [mk_node zh]; lia.
      - eapply keeps_incl; [exact K'|]. intros x Hx. apply in_join. auto.
      - exact BL.
      - exact SL.
      - unfold T. rewrite Et. intros e He. destruct dir; cbn [mk_node inorder] in *; rewrite in_app_iff in *; cbn [In] in *;
          intuition.
      - intros (Ql & Qr). assert (Qs : quiet key s) by (rewrite <- Es; destruct dir; assumption).
        destruct (Q' Qs) as (-> & ->). split; [reflexivity|]. unfold T. now rewrite Et.
      - intros (Ul & Ur). assert (Us : unique (inorder s)) by (rewrite <- Es; destruct dir; assumption).
        unfold T. rewrite Et. destruct (U' Us) as [HU|(l1 & x & y & l2 & E1 & E2 & Hk)];
          [left; destruct dir; cbn [mk_node inorder]; congruence|right].
        destruct dir; cbn [mk_node inorder]; rewrite E1, E2.
        + exists (inorder o ++ (k, v) :: l1), x, y, l2. rewrite <- !app_assoc. auto.
        + exists l1, x, y, (l2 ++ (k, v) :: inorder o). rewrite <- !app_assoc. auto. }
    destruct (removeR equalb compare key s) as [[[s' on] done]| |]; cbn [rbind].
    2:{ destruct (STOP2 Err IH) as (h' & Ho & HS). rewrite (bind_err _ _ _ _ Ho). exact HS. }
    2:{ destruct (STOP2 Panic IH) as (h' & Ho & HS). rewrite (bind_panic _ _ _ _ Ho). exact HS. }
    clear STOP STOP2.
    destruct IH as (Bs' & Zs & h1 & ps & q & fs' & H1 & R1 & N1 & K1 & BL1 & HF & Hq).
    rewrite (bind_ok _ _ _ _ _ H1). cbv beta iota.
    assert (L1 : (length h <= length h1)%nat) by exact (proj1 K1).
    assert (E1 : nth_error h1 a = Some (Cell k v b pl pr)) by (rewrite (proj2 K1); auto).
    assert (Ro1 : rep h1 (c_link (Cell k v b pl pr) (negb dir)) o fo).
    { apply (rep_frame h); [exact Ro|]. intros x Hx0. apply (proj2 K1); [eapply rep_lt; eauto|].
      intros Hx1. eapply Dj; eauto. }
    assert (Hfs : incl fs' fs).
    { destruct HF as [->|(f1 & x & f2 & -> & -> & _)]; [apply incl_refl|].
      intros y Hy. rewrite in_app_iff in *. cbn [In]. tauto. }
    assert (Nj : NoDup (join dir fo a fs')).
    { apply nodup_join. split; [exact No|]. split; [exact N1|]. split; [exact Ao|]. split.
      - intros Hi. apply As, Hfs, Hi.
      - intros x Hi Hi2. eapply Dj; eauto. }
    rewrite (bind_ok _ _ _ _ _ (store_some _ _ _ _ E1)).
    set (c1 := with_link dir ps (Cell k v b pl pr)).
    set (h2 := upd h1 a c1).
    assert (R2 : rep h2 (Some a) (mk_node dir k v b o s') (join dir fo a fs')).
    { apply (relink h1 a (Cell k v b pl pr) dir ps o s' fo fs' E1 Ro1 R1 Nj). }
    assert (E2 : nth_error h2 a = Some c1) by (unfold h2; eapply upd_get; exact E1).
    assert (K2 : keeps (join dir fo a fs) h h2).
    { eapply keeps_trans; [eapply keeps_incl; [exact K1|intros x Hx0; apply in_join; auto]|].
      apply keeps_upd. apply in_join. auto. }
    assert (L2 : length h2 = length h1) by (unfold h2; apply upd_length).
    assert (BL2 : blank h h2).
    { apply (blank_trans [a] h h1 h2); [exact BL1|apply keeps_upd; now left|intros x [<-|[]]; exact La|apply blank_same; exact L2]. }
    assert (Lj : forall x, In x (join dir fo a fs') -> (x < length h)%nat).
    { intros x Hx. apply (rep_lt _ _ _ _ R). apply in_join. apply in_join in Hx. destruct Hx as [Hx|[Hx|Hx]]; auto. }
    (* the removed cell and the returned node survive what happens to the cells in use *)
    assert (HF2 : forall h4, keeps (join dir fo a fs') h2 h4 ->
      join dir fo a fs' = join dir fo a fs \/
      exists f1 x f2, join dir fo a fs = f1 ++ x :: f2 /\ join dir fo a fs' = f1 ++ f2 /\
        nth_error h4 x = nth_error h x /\ ~ In x [a]).
    { intros h4 K4. destruct HF as [->|(f1 & x & f2 & Ef1 & Ef2 & Hx & _)]; [auto|right].
      assert (Hxa : x <> a) by (intros ->; apply As; rewrite Ef1; apply in_mid).
      assert (Lx : (x < length h)%nat) by (eapply (rep_lt _ _ _ _ Rs); rewrite Ef1; apply in_mid).
      assert (Hx4 : nth_error h4 x = nth_error h x).
      { rewrite (proj2 K4); [|lia|].
        - unfold h2. rewrite upd_ne by congruence. exact Hx.
        - intros Hi. apply in_join in Hi. destruct Hi as [Hi|[Hi|Hi]]; [|contradiction|].
          + eapply Dj; [exact Hi|]. rewrite Ef1. apply in_mid.
          + rewrite Ef1 in Ns. apply nodup_mid in Ns. rewrite Ef2, in_app_iff in Hi. tauto. }
      assert (~ In x [a]) by (intros [H|[]]; congruence).
      subst fs fs'. destruct dir; cbn [join].
      - exists (fo ++ a :: f1), x, f2. rewrite <- !app_assoc. auto.
      - exists f1, x, (f2 ++ a :: fo). rewrite <- !app_assoc. auto. }
    set (found' := match found with Some _ => found | None => on end).
    set (q' := match q0 with Some _ => q0 | None => q end).
    assert (Hq' : forall h4, keeps (join dir fo a fs') h2 h4 ->
      match found' with
      | None => q' = None /\ q = None /\ fs' = fs /\ ps = c_link (Cell k v b pl pr) dir /\ done = true /\ s' = s /\ same_links h h1
      | Some e => exists x, q' = Some x /\ (lo <= x)%nat /\ ~ In x (join dir fo a fs) /\ is_copy h4 x e
      end).
    { intros h4 K4. subst found' q'. destruct found as [e|].
      - destruct Hf as (x & -> & Hx1 & Hx2 & Hx3). exists x. split; [reflexivity|]. split; [exact Hx1|]. split; [exact Hx2|].
        unfold is_copy in *. pose proof (nth_lt _ _ _ Hx3) as Lx.
        rewrite (proj2 K4), (proj2 K2), Hx3; auto; [lia|].
        intros Hi. apply Hx2. apply in_join in Hi. apply in_join. destruct Hi as [Hi|[Hi|Hi]]; auto.
      - rewrite Hf. destruct on as [e|].
        + destruct Hq as (x & -> & Hx1 & Hx2 & Hx3). exists x. split; [reflexivity|]. split; [lia|].
          assert (Hx4 : ~ In x (join dir fo a fs)).
          { intros Hi. apply in_join in Hi. destruct Hi as [Hi|[Hi|Hi]]; [|lia|auto].
            pose proof (rep_lt _ _ _ _ Ro x Hi). lia. }
          split; [exact Hx4|]. unfold is_copy in *. pose proof (nth_lt _ _ _ Hx3) as Lx. rewrite (proj2 K4).
          * unfold h2. rewrite upd_ne by lia. exact Hx3.
          * lia.
          * intros Hi. apply Hx4. apply in_join in Hi. apply in_join. destruct Hi as [Hi|[Hi|Hi]]; auto.
        + destruct Hq as (-> & -> & -> & -> & -> & Hsl). auto 10. }
    assert (Eb : b = if dir then zh s - zh o else zh o - zh s).
    { cbn [bal] in B. rewrite <- Es, <- Eo. destruct dir; tauto. }
    assert (Rb : -1 <= b <= 1) by (cbn [bal] in B; tauto).
    assert (ZT : zh T = 1 + Z.max (zh o) (zh s)) by (unfold T; rewrite Et; destruct dir; cbn [mk_node zh]; lia).
    assert (Bm : forall b', b' = (if dir then zh s' - zh o else zh o - zh s') -> -1 <= b' <= 1 ->
      bal (mk_node dir k v b' o s')).
    { intros b' Hb' Hr'. destruct dir; cbn [mk_node bal]; tauto. }
    assert (Zm : forall b', zh (mk_node dir k v b' o s') = 1 + Z.max (zh o) (zh s')).
    { intros b'. destruct dir; cbn [mk_node zh]; lia. }
    unfold remove_finish.
    assert (Esl : set_link (Node k v b l r) dir s' = Ok (mk_node dir k v b o s')).
    { rewrite <- Eo. destruct dir; reflexivity. }
    rewrite Esl. cbn [rbind]. fold found'. cbv zeta. fold q'.
    destruct done.
    { split; [apply Bm; [destruct dir; lia|lia]|]. split; [rewrite Zm, ZT; lia|].
      exists h2, (Some a), q', (join dir fo a fs'). split; [reflexivity|]. split; [exact R2|]. split; [exact Nj|].
      split; [exact K2|]. split; [exact BL2|]. split; [apply HF2; apply keeps_refl|].
      specialize (Hq' h2 (keeps_refl _ _)). destruct found' as [e|]; [exact Hq'|].
      destruct Hq' as (Hq1 & _ & Hfs' & Hps & _ & Hs' & Hsl). split; [exact Hq1|]. split; [now rewrite Hfs'|].
      split; [reflexivity|]. split; [reflexivity|]. split; [subst s'; unfold T; now rewrite Et|].
      eapply same_links_trans; [exact Hsl|]. unfold h2. eapply same_links_upd; [exact E1| |]; unfold c1; rewrite Hps;
        destruct dir; reflexivity. }
    assert (Hfd : exists e, found' = Some e).
    { destruct found' as [e|]; [eauto|]. specialize (Hq' h2 (keeps_refl _ _)). destruct Hq' as (_ & _ & _ & _ & Hd & _). discriminate. }
    destruct Hfd as (e & Hfd). rewrite Hfd in *.
    rewrite (bind_ok _ _ _ _ _ (balance_some _ _ _ E2)).
    assert (Ecb : c_bal c1 = b) by (unfold c1; destruct dir; reflexivity).
    assert (Eck : c_key c1 = k) by (unfold c1; destruct dir; reflexivity).
    assert (Ecv : c_val c1 = v) by (unfold c1; destruct dir; reflexivity).
    rewrite Ecb.
    assert (Esb : set_balance (mk_node dir k v b o s') (b - dirbal dir) = Ok (mk_node dir k v (b - dirbal dir) o s'))
      by (destruct dir; reflexivity).
    rewrite Esb. cbn [rbind].
    rewrite (bind_ok _ _ _ _ _ (store_some _ _ _ _ E2)).
    set (b' := b - dirbal dir) in *. set (h3 := upd h2 a (with_bal b' c1)).
    assert (R3 : rep h3 (Some a) (mk_node dir k v b' o s') (join dir fo a fs')).
    { pose proof (rebal h2 a c1 dir b' o s' fo fs' E2) as HR. rewrite Eck, Ecv, Ecb in HR. apply HR; assumption. }
    assert (K23 : keeps (join dir fo a fs') h2 h3) by (apply keeps_upd; apply in_join; auto).
    assert (K3 : keeps (join dir fo a fs) h h3).
    { eapply keeps_trans; [exact K2|]. apply keeps_upd. apply in_join. auto. }
    assert (Eb' : b' = if dir then zh s' - zh o else zh o - zh s').
    { unfold b'. rewrite Zs. destruct dir; cbn [dirbal]; lia. }
    destruct ((b' =? 1) || (b' =? -1)) eqn:E01; [|destruct (b' =? 0) eqn:E0].
    { split; [apply Bm; [exact Eb'|lia]|].
      split; [rewrite Zm, ZT; unfold b' in *; destruct dir; cbn [dirbal] in *; lia|].
      exists h3, (Some a), q', (join dir fo a fs'). split; [reflexivity|]. split; [exact R3|]. split; [exact Nj|].
      split; [exact K3|]. split; [apply (blank_trans _ _ _ _ BL2 K23 Lj); apply blank_same; unfold h3; apply upd_length|].
      split; [exact (HF2 h3 K23)|exact (Hq' h3 K23)]. }
    { split; [apply Bm; [exact Eb'|lia]|].
      split; [rewrite Zm, ZT; unfold b' in *; destruct dir; cbn [dirbal] in *; lia|].
      exists h3, (Some a), q', (join dir fo a fs'). split; [reflexivity|]. split; [exact R3|]. split; [exact Nj|].
      split; [exact K3|]. split; [apply (blank_trans _ _ _ _ BL2 K23 Lj); apply blank_same; unfold h3; apply upd_length|].
      split; [exact (HF2 h3 K23)|exact (Hq' h3 K23)]. }
    assert (Hb2 : b' = - (2 * dirbal dir)) by (unfold b' in *; destruct dir; cbn [dirbal] in *; lia).
    assert (PB : exists t3 d3, remove_balance (mk_node dir k v b' o s') dir = Ok (t3, d3) /\ bal t3 /\
      zh t3 = zh (mk_node dir k v b' o s') - (if d3 : bool then 0 else 1)).
    { destruct dir; cbn [mk_node] in *.
      - destruct (remove_balance_ok k v b' o s' true) as (t3 & d3 & H3 & _ & B3 & Z3); auto. eauto.
      - destruct (remove_balance_ok k v b' s' o false) as (t3 & d3 & H3 & _ & B3 & Z3); auto. eauto. }
    destruct PB as (t3 & d3 & H3 & B3 & Z3). rewrite H3. cbn [rbind].
    destruct (remove_balance_ref h3 _ _ _ dir t3 d3 R3 Nj H3) as (h4 & p4 & H4 & R4 & K4 & L4).
    assert (K24 : keeps (join dir fo a fs') h2 h4) by (eapply keeps_trans; eauto).
    split; [exact B3|]. split; [rewrite Z3, Zm, ZT; unfold b' in *; destruct dir, d3; cbn [dirbal] in *; lia|].
    exists h4, p4, q', (join dir fo a fs'). split; [rewrite (bind_ok _ _ _ _ _ H4); reflexivity|].
    split; [exact R4|]. split; [exact Nj|].
    split; [|split; [|split; [exact (HF2 h4 K24)|exact (Hq' h4 K24)]]].
    2:{ apply (blank_trans _ _ _ _ BL2 K24 Lj). apply blank_same. rewrite L4. unfold h3. apply upd_length. }
    eapply keeps_trans; [exact K3|]. eapply keeps_incl; [exact K4|]. intros x Hi. apply in_join in Hi. apply in_join.
    destruct Hi as [Hi|[Hi|Hi]]; auto.
  Qed.

  (** The loop that finds the in-order predecessor reads only. *)
  Lemma heir_ref : forall (r : tree) (h : heap) a k v b (l : tree) fp n,
    rep h (Some a) (Node k v b l r) fp -> (height r < n)%nat ->
    exists x c, p_heir n (Some a) h = Some (h, Ok (Some x)) /\ nth_error h x = Some c /\ (c_key c, c_val c) = heir k v r.
  Proof using Type.
    clear. induction r as [|k' v' b' l' _ r' IHr]; intros h a k v b l fp n R Hn;
      destruct (rep_node_ptr _ _ _ _ _ _ _ _ R) as (a' & pl & pr & fl & fr & Ha & -> & Ea & Rl & Rr); inv Ha;
      (destruct n as [|n]; [lia|]); cbn [p_heir]; rewrite (bind_ok _ _ _ _ _ (link_some _ _ _ true Ea)); cbn [c_link c_r].
    - destruct (rep_leaf_ptr _ _ _ Rr) as (-> & ->). exists a', (Cell k v b pl None). auto.
    - destruct (rep_node_ptr _ _ _ _ _ _ _ _ Rr) as (x & _ & _ & _ & _ & -> & _).
      cbn [height] in Hn. destruct (IHr h x k' v' b' l' fr n Rr) as (y & c & H1 & H2 & H3); [lia|].
      exists y, c. auto.
  Qed.

  Lemma removeR_ref : forall (t : tree) key (h : heap) p fp n,
    rep h p t fp -> NoDup fp -> bal t -> (height t < n)%nat -> removeR_spec key t h p fp n.
  Proof using Type.
    induction t as [|k v b l IHl r IHr]; intros key h p fp n R N B Hn; unfold removeR_spec; cbv zeta.
    - destruct n as [|n]; [lia|]. destruct (rep_leaf_ptr _ _ _ R) as (-> & ->). cbn [removeR].
      split; [exact I|]. split; [cbn [zh]; lia|]. exists h, None, None, [].
      split; [reflexivity|]. split; [constructor|]. split; [constructor|]. split; [apply keeps_refl|].
      split; [apply blank_same; reflexivity|]. split; [auto|].
      split; [reflexivity|]. split; [reflexivity|]. split; [reflexivity|]. split; [reflexivity|]. split; [reflexivity|].
      apply same_links_refl.
    - destruct n as [|n]; [lia|]. cbn [height] in Hn.
      assert (IHl' : forall key h p fp, rep h p l fp -> NoDup fp -> bal l -> removeR_spec key l h p fp n)
        by (intros; apply IHl; auto; lia).
      assert (IHr' : forall key h p fp, rep h p r fp -> NoDup fp -> bal r -> removeR_spec key r h p fp n)
        by (intros; apply IHr; auto; lia).
      destruct (rep_node_ptr _ _ _ _ _ _ _ _ R) as (a & pl & pr & fl & fr & -> & -> & Ea & Rl & Rr).
      assert (La : (a < length h)%nat) by (eapply nth_lt; eauto).
      rewrite removeR_node. cbn [p_removeR]. rewrite (bind_ok _ _ _ _ _ (load_some _ _ _ Ea)). cbn [c_key c_val c_l c_r].
      set (T := Node k v b l r) in *.
      assert (STOP : forall q u r0, stopped key h (Some a) (fl ++ a :: fr) T q u r0 (Some (h, r0))).
      { intros q u r0. exists h, T. split; [reflexivity|]. split; [exact R|]. split; [exact B|]. split; [reflexivity|].
        split; [apply keeps_refl|]. split; [apply blank_same; reflexivity|]. split; [apply same_links_refl|]. split; [apply incl_refl|]. auto. }
      destruct (equalb k key) as [e| |] eqn:Ee; cbn [rbind].
      2:{ apply STOP. }
      2:{ apply STOP. }
      erewrite bind_ok; [|reflexivity]. cbv beta. destruct e.
      + (* found here *)
        set (h1 := h ++ [Cell k v 0 None None]).
        assert (E1 : nth_error h1 a = Some (Cell k v b pl pr)) by (unfold h1; rewrite nth_error_app1 by lia; exact Ea).
        assert (Ka : forall f, keeps f h h1).
        { intros f. split; [unfold h1; rewrite app_length; lia|]. intros x Hx _. now apply nth_error_app1. }
        assert (Bl1 : blank h h1).
        { intros x c Hx Hc. unfold h1 in Hc. rewrite nth_error_app2 in Hc by exact Hx.
          destruct (x - length h)%nat as [|[|]]; inv Hc. auto. }
        assert (Efr : is_copy h1 (length h) (k, v)).
        { unfold is_copy, h1. rewrite nth_error_app2 by lia. now rewrite Nat.sub_diag. }
        assert (Nfr : ~ In (length h) (fl ++ a :: fr)).
        { intros Hi. pose proof (rep_lt _ _ _ _ R _ Hi). lia. }
        erewrite bind_ok; [|reflexivity]. fold h1. cbv beta.
        assert (ONE : forall s ps fs, rep h ps s fs -> bal s -> NoDup fs -> zh s = zh T - 1 ->
          (exists f1 x f2, fl ++ a :: fr = f1 ++ x :: f2 /\ fs = f1 ++ f2 /\ x = a) ->
          finished (length h) [] h (Some a) (fl ++ a :: fr) T s (Some (k, v)) false (Some (h1, Ok (ps, Some (length h), false)))).
        { intros s ps fs Rs Bs Ns Zs (f1 & x & f2 & Hf1 & Hf2 & ->). split; [exact Bs|]. split; [exact Zs|].
          exists h1, ps, (Some (length h)), fs. split; [reflexivity|]. split; [apply rep_alloc; exact Rs|]. split; [exact Ns|].
          split; [apply Ka|]. split; [exact Bl1|]. split.
          - right. exists f1, a, f2. split; [exact Hf1|]. split; [exact Hf2|]. split; [now rewrite E1, Ea|]. intros [].
          - exists (length h). split; [reflexivity|]. split; [lia|]. split; assumption. }
        pose proof (proj1 (nodup_mid _ _ _) N) as (Nl & Nr & _).
        pose proof B as B0. unfold T in B0. cbn [bal] in B0. destruct B0 as (Eb & Rb & Bl & Br).
        destruct l as [|lk lv lb ll lr].
        { destruct (rep_leaf_ptr _ _ _ Rl) as (-> & ->). cbn [app].
          apply (ONE r pr fr Rr Br Nr); [unfold T; cbn [zh] in *; pose proof (zh_nonneg r); lia|].
          exists [], a, fr. auto. }
        destruct (rep_node_ptr _ _ _ _ _ _ _ _ Rl) as (al & pll & plr & fll & flr & -> & Efl & El & Rll & Rlr).
        destruct r as [|rk rv rb rl rr].
        { destruct (rep_leaf_ptr _ _ _ Rr) as (-> & ->).
          apply (ONE _ (Some al) fl Rl Bl Nl); [unfold T; cbn [zh] in *; pose proof (zh_nonneg ll); pose proof (zh_nonneg lr); lia|].
          exists fl, a, []. rewrite app_nil_r. auto. }
        destruct (rep_node_ptr _ _ _ _ _ _ _ _ Rr) as (ar & _ & _ & _ & _ & -> & _).
        set (L := Node lk lv lb ll lr) in *. set (R0 := Node rk rv rb rl rr) in *.
        assert (Rl1 : rep h1 (Some al) L fl) by (apply rep_alloc; exact Rl).
        destruct (heir_ref lr h1 al lk lv lb ll fl n Rl1) as (x & c & Hh & Hx & Hc);
          [unfold L in Hn; cbn [height] in Hn; lia|].
        rewrite (bind_ok _ _ _ _ _ Hh). rewrite (bind_ok _ _ _ _ _ (load_some _ _ _ Hx)).
        destruct (heir lk lv lr) as [hk hv] eqn:Eh. inversion Hc as [[Hck Hcv]].
        rewrite (bind_ok _ _ _ _ _ (store_some _ _ _ _ E1)). unfold with_entry. cbn [c_bal c_l c_r].
        rewrite Hck, Hcv. clear Hc Hck Hcv. set (h2 := upd h1 a (Cell hk hv b (Some al) (Some ar))).
        set (T2 := Node hk hv b L R0).
        assert (R2 : rep h2 (Some a) T2 (fl ++ a :: fr)).
        { unfold h2, T2. eapply rep_write; [exact E1|exact Rl1|apply rep_alloc; exact Rr|exact N]. }
        assert (B2 : bal T2) by exact B.
        assert (L2 : length h2 = S (length h)).
        { unfold h2, h1. rewrite upd_length, app_length. cbn. lia. }
        assert (K2 : keeps (fl ++ a :: fr) h h2).
        { eapply keeps_trans; [apply Ka|]. apply keeps_upd. apply in_mid. }
        assert (SL2 : same_links h h2).
        { intros y cy Hy. destruct (Nat.eq_dec a y) as [<-|Hne].
          - rewrite Ea in Hy. inv Hy. unfold h2. rewrite (upd_get _ _ _ _ E1). eexists. split; [reflexivity|]. split; reflexivity.
          - unfold h2. rewrite upd_ne by exact Hne. unfold h1. rewrite nth_error_app1 by (eapply nth_lt; eauto). eauto. }
        assert (BL2 : blank h h2).
        { apply (blank_trans [a] h h1 h2); [exact Bl1|apply keeps_upd; now left|intros y [<-|[]]; exact La|].
          apply blank_same. unfold h2. apply upd_length. }
        assert (Efr2 : is_copy h2 (length h) (k, v)).
        { unfold is_copy, h2. rewrite upd_ne by lia. exact Efr. }
        destruct (heir_last lk lv lb ll lr) as (l0 & H0). rewrite Eh in H0. fold L in H0.
        pose proof (down_ref hk hk hv b L R0 (Some (k, v)) (Some (length h)) (length h) h2 a (fl ++ a :: fr) n R2 N B2
          (IHl' hk) (IHr' hk)) as HD.
        cbv zeta in HD. specialize (HD ltac:(lia)).
        assert (HF : exists x0, Some (length h) = Some x0 /\ (length h <= x0)%nat /\ ~ In x0 (fl ++ a :: fr) /\ is_copy h2 x0 (k, v))
          by (exists (length h); auto).
        specialize (HD HF). clear HF.
        change (let? dir := direction compare hk hk in
          let? (child, _, done) := if dir then removeR equalb compare hk R0 else removeR equalb compare hk L in
          remove_finish hk hv b L R0 dir (Some (k, v)) child done) with (remove_cont hk hk hv b L R0 (Some (k, v))).
        set (out := p_remove_down compare (p_removeR equalb compare n) (Some a) hk (Some (length h)) h2) in *.
        assert (STOP2 : (forall y, remove_cont hk hk hv b L R0 (Some (k, v)) <> Ok y) -> forall r0, stopped hk h2 (Some a) (fl ++ a :: fr) T2 (quiet hk L /\ quiet hk R0)
            (unique (inorder L) /\ unique (inorder R0)) r0 out ->
            stopped key h (Some a) (fl ++ a :: fr) T (quiet key T) (unique (inorder T)) r0 out).
        { intros Hr0 r0 (h' & T' & Ho & R' & B' & Z' & K' & BL' & S' & I' & Q' & U'). exists h', T'.
          split; [exact Ho|]. split; [exact R'|]. split; [exact B'|]. split; [exact Z'|].
          split; [eapply keeps_trans; eauto|]. split; [exact (blank_trans _ _ _ _ BL2 K' (rep_lt _ _ _ _ R) BL')|].
          split; [eapply same_links_trans; eauto|].
          assert (Hin : In (hk, hv) (inorder L)) by (rewrite H0; apply in_mid).
          split; [|split].
          - intros y Hy. apply I' in Hy. unfold T2, T in *. cbn [inorder] in *. rewrite in_app_iff in *. cbn [In] in *.
            destruct Hy as [Hy|[<-|Hy]]; auto.
          - intros HQ. exfalso. unfold T in HQ. cbn [quiet] in HQ. destruct HQ as (HQ & _). specialize (HQ Ee).
            unfold quiet_at, L, R0 in HQ. rewrite Eh in HQ. destruct HQ as (y & HQ). exact (Hr0 y HQ).
          - intros HU. right. unfold T in HU. cbn [inorder] in HU.
            destruct (Q' (quiet_heir lk lv lb ll lr R0 k v hk hv HU Eh)) as (_ & ->).
            exists l0, (hk, hv), (k, v), (inorder R0). unfold T, T2.
            change (inorder (Node k v b L R0)) with (inorder L ++ (k, v) :: inorder R0).
            change (inorder (Node hk hv b L R0)) with (inorder L ++ (hk, hv) :: inorder R0).
            rewrite H0, <- !app_assoc. auto. }
        destruct (remove_cont hk hk hv b L R0 (Some (k, v))) as [[[t' o] done]| |] eqn:ER.
        2:{ apply STOP2; [discriminate|]. exact HD. }
        2:{ apply STOP2; [discriminate|]. exact HD. }
        clear STOP2 ONE STOP.
        destruct HD as (Bt & Zt & h' & p' & q & fp' & Ho & R' & N' & K' & BL' & HFP & HO).
        split; [exact Bt|]. split; [exact Zt|]. exists h', p', q, fp'. split; [exact Ho|]. split; [exact R'|].
        split; [exact N'|]. split; [eapply keeps_trans; eauto|].
        split; [exact (blank_trans _ _ _ _ BL2 K' (rep_lt _ _ _ _ R) BL')|]. split.
        * destruct HFP as [->|(f1 & y & f2 & Hf1 & Hf2 & Hy & Hya)]; [auto|right].
          exists f1, y, f2. split; [exact Hf1|]. split; [exact Hf2|]. split; [|intros []].
          rewrite Hy. unfold h2. rewrite upd_ne by (intros ->; apply Hya; now left). unfold h1. apply nth_error_app1.
          eapply (rep_lt _ _ _ _ R). rewrite Hf1. apply in_mid.
        * apply remove_cont_found in ER. subst o. exact HO.
      + (* further down *)
        change (let? dir := direction compare k key in
          let? (child, node, done) := if dir then removeR equalb compare key r else removeR equalb compare key l in
          remove_finish k v b l r dir node child done) with (remove_cont key k v b l r None).
        pose proof (down_ref key k v b l r None None (length h) h a (fl ++ a :: fr) n R N B (IHl' key) (IHr' key)) as HD.
        cbv zeta in HD. specialize (HD (le_n _) eq_refl). fold T in HD.
        set (out := p_remove_down compare (p_removeR equalb compare n) (Some a) key None h) in *.
        assert (STOP2 : forall r0, stopped key h (Some a) (fl ++ a :: fr) T (quiet key l /\ quiet key r)
            (unique (inorder l) /\ unique (inorder r)) r0 out ->
            stopped key h (Some a) (fl ++ a :: fr) T (quiet key T) (unique (inorder T)) r0 out).
        { intros r0 (h' & T' & Ho & R' & B' & Z' & K' & BL' & S' & I' & Q' & U'). exists h', T'.
          split; [exact Ho|]. split; [exact R'|]. split; [exact B'|]. split; [exact Z'|].
          split; [exact K'|]. split; [exact BL'|]. split; [exact S'|]. split; [exact I'|]. split.
          - intros HQ. apply Q'. unfold T in HQ. cbn [quiet] in HQ. tauto.
          - intros HU. apply U'. unfold T, unique in HU. cbn [inorder] in HU. rewrite fop_app, fop_cons in HU. tauto. }
        destruct (remove_cont key k v b l r None) as [[[t' o] done]| |].
        2:{ apply STOP2. exact HD. }
        2:{ apply STOP2. exact HD. }
        destruct HD as (Bt & Zt & h' & p' & q & fp' & Ho & R' & N' & K' & BL' & HFP & HO).
        split; [exact Bt|]. split; [exact Zt|]. exists h', p', q, fp'. split; [exact Ho|]. split; [exact R'|].
        split; [exact N'|]. split; [exact K'|]. split; [exact BL'|]. split; [|exact HO].
        destruct HFP as [->|(f1 & y & f2 & Hf1 & Hf2 & Hy & Hya)]; [auto|right].
        exists f1, y, f2. split; [exact Hf1|]. split; [exact Hf2|]. split; [exact Hy|intros []].
  Qed.
End Remove.
