(** * Tries over nodes in shared memory: Get, Set, and the removal of a node. *)
From Coq Require Import List NArith ZArith Bool Lia Arith.
From Coq Require Import Strings.Byte.
From Verif Require Import Base BaseProofs CmpModel CmpSpec CmpProofs KeyModel ValueModel
  AVLModel MapSpec AVLSpec AVLProofs AVLHistory AVLProps TrieModel TrieObjModel TrieObjSpec TrieObjProofs TrieObjKids.
Import ListNotations.

Lemma descend_ok P (PF : prefix_free P) h : inv P h -> forall ks r, r < length h -> Forall (key_from P) ks ->
  (exists a, descend h r ks = Ok a /\ a < length h /\ at_path (views h) r ks a) \/
  (descend h r ks = Panic /\ forall a, ~ at_path (views h) r ks a).
Proof.
  intros I. induction ks as [|k ks IH]; intros r L F.
  - left. exists r. repeat split; [exact L|constructor].
  - inversion F as [|? ? Dk F']; subst. cbn [descend]. destruct (lt_nth h r L) as (x & E). rewrite E.
    destruct (I _ _ E) as [N Hc]. destruct (kid_ok P PF r x k N Dk) as [(c & -> & H)|(-> & H)]; cbn [rbind].
    + destruct (IH c (Hc _ _ H) F') as [(a & E1 & L1 & A)|(E1 & A)].
      * left. exists a. split; [exact E1|]. split; [exact L1|]. apply (at_below _ r (view x) k c); [now apply is_node_view|exact H|exact A].
      * right. split; [exact E1|]. intros a A'. inversion A' as [|? y ? c' ? ? Hy Hk A2]; subst.
        destruct (is_node_inv _ _ _ Hy) as (y' & Ey & ->). rewrite E in Ey. inv Ey. cbn [view a_kids] in Hk.
        pose proof (entry_unique _ _ _ _ (proj1 (proj2 (proj1 N))) H Hk) as W. inv W. exact (A _ A2).
    + right. split; [reflexivity|]. intros a A'. inversion A' as [|? y ? c' ? ? Hy Hk A2]; subst.
      destruct (is_node_inv _ _ _ Hy) as (y' & Ey & ->). rewrite E in Ey. inv Ey. exact (H _ Hk).
Qed.

(** A path leads to one node. *)
Lemma at_path_fun P h : inv P h -> forall ks r a b, at_path (views h) r ks a -> at_path (views h) r ks b -> a = b.
Proof.
  intros I. induction ks as [|k ks IH]; intros r a b A B.
  - inversion A; inversion B; subst. reflexivity.
  - inversion A as [|? x ? c ? ? Hx Hk A']; inversion B as [|? y ? d ? ? Hy Hk' B']; subst.
    unfold is_node in *. rewrite Hx in Hy. inv Hy. destruct (is_node_inv _ _ _ Hx) as (x' & E & ->).
    pose proof (entry_unique _ _ _ _ (proj1 (proj2 (proj1 (proj1 (I _ _ E))))) Hk Hk') as W. inv W. eauto.
Qed.
Lemma at_path_app ns ks : forall r q b, at_path ns r (ks ++ q) b -> exists a, at_path ns r ks a /\ at_path ns a q b.
Proof.
  induction ks as [|k ks IH]; intros r q b H; [exists r; split; [constructor|exact H]|].
  cbn [app] in H. inversion H as [|? x ? c ? ? Hx Hk H']; subst. destruct (IH _ _ _ H') as (a & A & B).
  exists a. split; [|exact B]. econstructor; eauto.
Qed.
Lemma at_path_snoc ns ks k r a : at_path ns r (ks ++ [k]) a ->
  exists p y, at_path ns r ks p /\ is_node ns p y /\ In (k, Some a) (a_kids y).
Proof.
  intros H. destruct (at_path_app ns ks r [k] a H) as (p & A & B). inversion B as [|? y ? c ? ? Hy Hk B']; subst.
  inversion B'; subst. eauto.
Qed.
Lemma at_path_trans ns ks : forall r q a b, at_path ns r ks a -> at_path ns a q b -> at_path ns r (ks ++ q) b.
Proof.
  induction ks as [|k ks IH]; intros r q a b A B; inversion A; subst; [exact B|]. cbn [app]. econstructor; eauto.
Qed.

(** From a root, a node has one path. *)
Lemma at_path_inj ns r : linked ns -> is_root ns r -> forall ks ks' a,
  at_path ns r ks a -> at_path ns r ks' a -> ks = ks'.
Proof.
  intros LK (x0 & R0 & R1).
  intros ks. induction ks as [|k ks IH] using rev_ind; intros ks' a A B.
  - inversion A; subst a. destruct ks' as [|k' q] using rev_ind; [reflexivity|]. exfalso.
    destruct (at_path_snoc _ _ _ _ _ B) as (p & y & _ & Hy & Hk).
    destruct (LK _ _ _ _ Hy Hk) as (c & z & Ec & Hz & Hp & _). inv Ec. unfold is_node in *. congruence.
  - destruct (at_path_snoc _ _ _ _ _ A) as (p & y & A' & Hy & Hk).
    destruct (LK _ _ _ _ Hy Hk) as (c & z & Ec & Hz & Hp & Hz2). inv Ec.
    destruct ks' as [|k' q _] using rev_ind.
    + exfalso. inversion B; subst c. unfold is_node in *. congruence.
    + destruct (at_path_snoc _ _ _ _ _ B) as (p' & y' & B' & Hy' & Hk').
      destruct (LK _ _ _ _ Hy' Hk') as (c' & z' & Ec & Hz' & Hp' & Hz2'). inv Ec. unfold is_node in *.
      rewrite Hz in Hz'. inv Hz'. rewrite Hp in Hp'. inv Hp'. now rewrite (IH _ _ A' B').
Qed.

(** ** Removal *)
(** [h'] has the nodes of [h], and the children of [h] except those in [gone]. *)
Definition trimmed (gone : nat -> Prop) (ns ns' : list anode) : Prop :=
  length ns' = length ns /\
  forall q x x', is_node ns q x -> is_node ns' q x' ->
    a_parent x' = a_parent x /\ a_key x' = a_key x /\ a_data x' = a_data x /\ a_buf x' = a_buf x /\ a_off x' = a_off x /\
    forall k o, In (k, o) (a_kids x') <-> In (k, o) (a_kids x) /\ ~ exists c, o = Some c /\ gone c.
(** [a] is found among the children of its parent, and so on up to the root [r]. *)
Inductive attached (h : nodes) (r : nat) : nat -> Prop :=
| att_root : forall x, nth_error h r = Some x -> nd_parent x = None -> attached h r r
| att_below : forall a x p y, nth_error h a = Some x -> nd_parent x = Some p -> nth_error h p = Some y -> kid y (nd_key x) = Ok a ->
    In (nd_key x, Some a) (entries (nd_kids y)) -> attached h r p -> attached h r a.

Lemma descend_app h ks : forall q r, descend h r (ks ++ q) = let? a := descend h r ks in descend h a q.
Proof.
  induction ks as [|k ks IH]; intros q r; [reflexivity|]. cbn [app descend]. destruct (nth_error h r); [|reflexivity].
  destruct (kid n k); cbn [rbind]; auto.
Qed.
Lemma descend_attached P h r : inv P h -> linked (views h) -> is_root (views h) r -> forall ks a, Forall (key_from P) ks ->
  descend h r ks = Ok a -> attached h r a.
Proof.
  intros IV LK (x0 & R0 & R1). destruct (is_node_inv _ _ _ R0) as (x1 & E1 & ->).
  intros ks. induction ks as [|k ks IH] using rev_ind; intros a F A.
  - inv A. econstructor; eauto.
  - rewrite descend_app in A. apply rbind_ok in A. destruct A as (p & A & B). apply Forall_app in F. destruct F as [F1 F2].
    cbn [descend] in B. destruct (nth_error h p) as [y|] eqn:Ey; [|discriminate]. apply rbind_ok in B. destruct B as (c & Kc & B). inv B.
    inversion F2 as [|? ? Dk _]; subst.
    destruct (kid_any p y k) as [(c & Kc' & Hk)|(Kc' & _)]; [|exact (key_in_any P k Dk)| |congruence].
    { destruct (IV _ _ Ey) as [(K & N) _]. split; [exact (kids_any P _ K)|exact N]. }
    rewrite Kc in Kc'. inv Kc'. destruct (LK p (view y) k (Some c) (is_node_view _ _ _ Ey) Hk) as (c' & z & Ec & Hz & Hp & Hz2).
    injection Ec as <-. destruct (is_node_inv _ _ _ Hz) as (z1 & Ez & ->). cbn [view a_parent a_key] in Hp, Hz2. rewrite <- Hz2 in Hk, Kc. eapply att_below; eauto.
Qed.

Lemma attached_agree P h h' r p : inv P h -> attached h r p ->
  (forall q, q < p -> nth_error h' q = nth_error h q) ->
  (forall x, nth_error h p = Some x -> exists x', nth_error h' p = Some x' /\ nd_parent x' = nd_parent x /\ nd_key x' = nd_key x) ->
  attached h' r p.
Proof.
  intros I A. induction A as [x Hx Hp|a x p y Hx Hp Hy Hk Hi A IH]; intros Ag At.
  - destruct (At _ Hx) as (x' & Hx' & Ep & _). rewrite Hp in Ep. econstructor; eauto.
  - destruct (At _ Hx) as (x' & Hx' & Ep & Ek). rewrite Hp in Ep.
    destruct (I _ _ Hx) as [(_ & _ & Lp) _]. rewrite Hp in Lp.
    assert (Hy' : nth_error h' p = Some y) by (rewrite Ag by exact Lp; exact Hy).
    eapply att_below; [exact Hx'|exact Ep|exact Hy'|rewrite Ek; exact Hk|rewrite Ek; exact Hi|].
    apply IH.
    + intros q Hq. apply Ag. lia.
    + intros z Hz. exists z. rewrite Ag by exact Lp. auto.
Qed.

Lemma is_node_fun ns a x y : is_node ns a x -> is_node ns a y -> x = y.
Proof. unfold is_node. congruence. Qed.
Lemma is_node_same_length ns ns' a x : length ns' = length ns -> is_node ns a x -> exists x', is_node ns' a x'.
Proof. unfold is_node. intros E H. apply lt_nth. rewrite E. apply nth_lt in H. exact H. Qed.

Lemma trimmed_refl gone ns : (forall q x k c, is_node ns q x -> In (k, Some c) (a_kids x) -> ~ gone c) -> trimmed gone ns ns.
Proof.
  intros H. split; [reflexivity|]. intros q x x' Hx Hx'. rewrite (is_node_fun _ _ _ _ Hx' Hx). repeat split; try tauto.
  intros (c & -> & G). exact (H _ _ _ _ Hx H0 G).
Qed.
Lemma trimmed_trans g1 g2 ns1 ns2 ns3 : trimmed g1 ns1 ns2 -> trimmed g2 ns2 ns3 -> trimmed (fun b => g1 b \/ g2 b) ns1 ns3.
Proof.
  intros [L1 T1] [L2 T2]. split; [congruence|]. intros q x x3 Hx Hx3.
  destruct (is_node_same_length _ _ _ _ L1 Hx) as (x2 & Hx2).
  destruct (T1 _ _ _ Hx Hx2) as (A1 & A2 & A3 & A4 & A5 & A6). destruct (T2 _ _ _ Hx2 Hx3) as (B1 & B2 & B3 & B4 & B5 & B6).
  repeat split; try congruence.
  - apply B6 in H. destruct H as [H _]. apply A6 in H. tauto.
  - apply B6 in H. destruct H as [H N2]. apply A6 in H. destruct H as [_ N1]. intros (c & -> & [G|G]); [apply N1|apply N2]; eauto.
  - intros [H N]. apply B6. split; [apply A6; split; [exact H|]|]; intros (c & -> & G); apply N; eauto.
Qed.
Lemma trimmed_linked g ns ns' : trimmed g ns ns' -> linked ns -> linked ns'.
Proof.
  intros [L T] LK a x' k o Hx' Hk. destruct (is_node_same_length ns' ns a x' (eq_sym L) Hx') as (x & Hx).
  destruct (T _ _ _ Hx Hx') as (_ & _ & _ & _ & _ & B). apply B in Hk. destruct Hk as [Hk _].
  destruct (LK _ _ _ _ Hx Hk) as (c & y & -> & Hy & Hp & Ek). destruct (is_node_same_length ns ns' c y L Hy) as (y' & Hy').
  destruct (T _ _ _ Hy Hy') as (E1 & E2 & _). exists c, y'. repeat split; [exact Hy'|congruence|congruence].
Qed.

Lemma no_entries (l : list (gslice * option nat)) : (forall k o, ~ In (k, o) l) -> l = [].
Proof. destruct l as [|[k o] l]; [reflexivity|]. intros H. exfalso. apply (H k o). now left. Qed.

Lemma unlink_ok P r : forall f h a, a < f -> inv P h -> linked (views h) -> attached h r a ->
  exists gone,
    inv P (fst (unlink f h a)) /\ trimmed gone (views h) (views (fst (unlink f h a))) /\ gone a /\
    (forall b, gone b -> b <> a -> bare (views (fst (unlink f h a))) b) /\
    (forall b x p, gone b -> is_node (views h) b x -> a_parent x = Some p -> (gone p <-> bare (views (fst (unlink f h a))) p)) /\
    (forall b x, gone b -> is_node (views h) b x -> a_parent x = None -> b = r) /\
    (forall b, gone b -> b <= a) /\
    (snd (unlink f h a) = Ok tt /\ ~ gone r \/ snd (unlink f h a) = Panic /\ gone r).
Proof.
  induction f as [|f IH]; intros h a Hf I LK A; [lia|]. cbn [unlink].
  inversion A as [xc Ex Hp|a0 xc p yc Ex Hp Ey Hkid Hk A']; subst.
  - pose proof (is_node_view _ _ _ Ex) as Hx. rewrite Ex, Hp. cbn [fst snd].
    exists (fun b => b = a). split; [exact I|]. split; [|split; [reflexivity|]].
    { apply trimmed_refl. intros q z k c Hz Hc ->. destruct (LK _ _ _ _ Hz Hc) as (c' & w & Ec & Hw & Hpw & _). inv Ec.
      rewrite (is_node_fun _ _ _ _ Hw Hx) in Hpw. cbn in Hpw. congruence. }
    split; [intros b -> Hn; now elim Hn|]. split.
    { intros b z p -> Hz Hpz. rewrite (is_node_fun _ _ _ _ Hz Hx) in Hpz. cbn in Hpz. congruence. }
    split; [intros b z -> _ _; reflexivity|]. split; [intros b ->; lia|]. right. auto.
  - pose proof (is_node_view _ _ _ Ex) as Hx. pose proof (is_node_view _ _ _ Ey) as Hy. rewrite Ex, Hp, Ey.
    destruct (I _ _ Ex) as [(_ & _ & Lp) _]. rewrite Hp in Lp. destruct (I _ _ Ey) as [(K & Ho & Hpp) Hc].
    assert (Dk : key_in P (nd_key xc)).
    { destruct K as [Hd _]. unfold in_dom in Hd. rewrite Forall_forall in Hd. exact (Hd _ Hk). }
    unfold remove_kid. destruct (kid_found _ _ _ Hkid) as (kf & Ef).
    destruct (remove_found P (nd_kids yc) (nd_key xc) _ K Dk Ef) as (m' & o & -> & K' & M). cbn [rbind].
    set (y' := with_kids yc m'). set (h1 := set_nth h p y').
    assert (Lpl : p < length h) by exact (nth_lt _ _ _ Ey).
    assert (N1 : forall q, q <> p -> nth_error (views h1) q = nth_error (views h) q).
    { intros q Hq. rewrite !view_node. unfold h1. rewrite set_nth_other by congruence. reflexivity. }
    assert (N2 : is_node (views h1) p (view y')).
    { apply is_node_view. unfold h1. apply set_nth_same, Lpl. }
    assert (I1 : inv P h1).
    { unfold h1. apply inv_set; [exact I|repeat split; try assumption; apply K'|]. cbn. intros k c H0. apply M in H0. destruct H0 as [H0 _].
      exact (Hc _ _ H0). }
    assert (T1 : trimmed (fun b => b = a) (views h) (views h1)).
    { split; [rewrite !views_length; apply set_nth_length|]. intros q z z' Hz Hz'. destruct (Nat.eq_dec q p) as [->|Hq].
      - rewrite (is_node_fun _ _ _ _ Hz Hy). rewrite (is_node_fun _ _ _ _ Hz' N2). cbn [view y' with_kids a_parent a_key a_data a_buf a_off a_kids nd_parent nd_key nd_data nd_kids nd_buf nd_off].
        split; [reflexivity|]. split; [reflexivity|]. split; [reflexivity|]. split; [reflexivity|]. split; [reflexivity|].
        intros k o'. rewrite M. cbn [fst]. split; intros [H1 H2]; (split; [exact H1|]).
        + intros (c & -> & ->). apply H2. destruct (LK _ _ _ _ Hy H1) as (c & w & Ec & Hw & _ & Ek). inv Ec.
          rewrite (is_node_fun _ _ _ _ Hw Hx). reflexivity.
        + intros ->. apply H2. pose proof (entry_unique _ _ _ _ (proj1 (proj2 K)) H1 Hk). subst. eauto.
      - unfold is_node in Hz'. rewrite N1 in Hz' by exact Hq. rewrite (is_node_fun _ _ _ _ Hz' Hz). repeat split; try tauto.
        intros (c & -> & ->). destruct (LK _ _ _ _ Hz H) as (c & w & Ec & Hw & Hpw & _). inv Ec.
        rewrite (is_node_fun _ _ _ _ Hw Hx) in Hpw. cbn in Hpw. congruence. }
    assert (LK1 : linked (views h1)) by exact (trimmed_linked _ _ _ T1 LK).
    assert (A1 : attached h1 r p).
    { apply (attached_agree P h h1 r p I A').
      - intros q Hq. unfold h1. rewrite set_nth_other by lia. reflexivity.
      - intros z Hz. exists y'. unfold h1. rewrite set_nth_same by exact Lpl. rewrite Ey in Hz. inv Hz. auto. }
    assert (Hr : r <= p).
    { clear - I A'. induction A' as [|b z q w Ez Hq Hw Hk Hi A IH]; [lia|].
      destruct (I _ _ Ez) as [(_ & _ & L) _]. rewrite Hq in L. lia. }
    assert (Sz : (avl_size (nd_kids y') =? 0)%Z = true <-> a_kids (view y') = []).
    { cbn. destruct K' as (_ & _ & _ & ->). unfold zlen. rewrite Z.eqb_eq. split; [|intros ->; reflexivity].
      destruct (entries m'); [reflexivity|cbn [length]; lia]. }
    destruct ((avl_size (nd_kids y') =? 0)%Z && match nd_data y' with Some _ => false | None => true end) eqn:Et.
    + apply andb_true_iff in Et. destruct Et as [Et1 Et2]. apply Sz in Et1.
      destruct (IH h1 p ltac:(lia) I1 LK1 A1) as (g & J1 & J2 & J3 & J4 & J5 & J6 & J7 & J8).
      assert (Bp : bare (views (fst (unlink f h1 p))) p).
      { destruct (is_node_same_length _ _ _ _ (proj1 J2) N2) as (z & Hz). exists z. split; [exact Hz|].
        destruct (proj2 J2 _ _ _ N2 Hz) as (_ & _ & Ed & _ & _ & Ek). split.
        - apply no_entries. intros k o' H. apply Ek in H. destruct H as [H _]. rewrite Et1 in H. destruct H.
        - rewrite Ed. cbn. cbn in Et2. destruct (nd_data yc); [discriminate|reflexivity]. }
      exists (fun b => b = a \/ g b). split; [exact J1|]. split; [exact (trimmed_trans _ _ _ _ _ T1 J2)|]. split; [now left|]. split.
      { intros b [->|G] Hn; [now elim Hn|]. destruct (Nat.eq_dec b p) as [->|Hb]; [exact Bp|]. apply J4; assumption. }
      split.
      { intros b z q [->|G] Hz Hq.
        - rewrite (is_node_fun _ _ _ _ Hz Hx) in Hq. cbn in Hq. rewrite Hp in Hq. inv Hq. split; auto.
        - destruct (is_node_same_length _ _ _ _ (proj1 T1) Hz) as (z1 & Hz1).
          destruct (proj2 T1 _ _ _ Hz Hz1) as (Epz & _). rewrite Hq in Epz. pose proof (J5 _ _ _ G Hz1 Epz) as W. split.
          + intros [->|G']; [|now apply W]. exfalso. pose proof (J7 _ G).
            destruct (is_node_inv _ _ _ Hz) as (zc & Ez & ->). destruct (I _ _ Ez) as [(_ & _ & L) _]. cbn in Hq. rewrite Hq in L. lia.
          + intros B. right. now apply W. }
      split.
      { intros b z [->|G] Hz Hq.
        - rewrite (is_node_fun _ _ _ _ Hz Hx) in Hq. cbn in Hq. congruence.
        - destruct (is_node_same_length _ _ _ _ (proj1 T1) Hz) as (z1 & Hz1).
          destruct (proj2 T1 _ _ _ Hz Hz1) as (Epz & _). rewrite Hq in Epz. exact (J6 _ _ G Hz1 Epz). }
      split; [intros b [->|G]; [lia|]; specialize (J7 _ G); lia|].
      destruct J8 as [[J8 J9]|[J8 J9]]; [left|right]; (split; [exact J8|]); [|now right].
      intros [->|G]; [lia|auto].
    + exists (fun b => b = a). cbn [fst snd]. split; [exact I1|]. split; [exact T1|]. split; [reflexivity|].
      split; [intros b -> Hn; now elim Hn|]. split.
      { intros b z q -> Hz Hq. rewrite (is_node_fun _ _ _ _ Hz Hx) in Hq. cbn in Hq. rewrite Hp in Hq. inv Hq. split; [lia|].
        intros (w & Hw & Ek & Ed). exfalso. rewrite (is_node_fun _ _ _ _ Hw N2) in Ek, Ed. apply Sz in Ek. rewrite Ek in Et.
        cbn in Ed, Et. rewrite Ed in Et. discriminate. }
      split.
      { intros b z -> Hz Hq. rewrite (is_node_fun _ _ _ _ Hz Hx) in Hq. cbn in Hq. congruence. }
      split; [intros b ->; lia|]. left. split; [reflexivity|]. lia.
Qed.

(** ** Set *)
(** Storing data keeps the shape. *)
Lemma data_paths ns ns' : (forall q x, is_node ns q x -> exists x', is_node ns' q x' /\ a_kids x' = a_kids x) ->
  forall ks r a, at_path ns r ks a -> at_path ns' r ks a.
Proof.
  intros H. induction ks as [|k ks IH]; intros r a A; inversion A as [|? x ? c ? ? Hx Hk A']; subst; [constructor|].
  destruct (H _ _ Hx) as (x' & Hx' & E). apply (at_below _ r x' k c); [exact Hx'|now rewrite E|auto].
Qed.

Section SetData.
  Context (h : nodes) (a : nat) (y : node) (d : option value) (Ey : nth_error h a = Some y).
  Let h1 := set_nth h a (with_data y d).

  Lemma set_data_node q x : is_node (views h) q x ->
    is_node (views h1) q (mk_anode (a_parent x) (a_key x) (if Nat.eqb q a then d else a_data x) (a_kids x) (a_buf x) (a_off x)).
  Proof.
    intros H. destruct (is_node_inv _ _ _ H) as (z & Ez & ->). destruct (Nat.eqb_spec q a) as [->|Hq].
    - rewrite Ey in Ez. inv Ez. apply (is_node_view h1 a (with_data z d)). unfold h1. apply set_nth_same. exact (nth_lt _ _ _ Ey).
    - apply (is_node_view h1 q z). unfold h1. rewrite set_nth_other by congruence. exact Ez.
  Qed.
  Lemma set_data_back q x : is_node (views h1) q x -> exists x0, is_node (views h) q x0 /\
    x = mk_anode (a_parent x0) (a_key x0) (if Nat.eqb q a then d else a_data x0) (a_kids x0) (a_buf x0) (a_off x0).
  Proof.
    intros H. destruct (is_node_same_length (views h1) (views h) q x) as (x0 & H0); [|exact H|].
    - rewrite !views_length. unfold h1. now rewrite set_nth_length.
    - exists x0. split; [exact H0|]. apply set_data_node in H0. exact (is_node_fun _ _ _ _ H H0).
  Qed.
  Lemma set_data_path r ks b : at_path (views h1) r ks b <-> at_path (views h) r ks b.
  Proof.
    split; apply data_paths.
    - intros q x H. destruct (set_data_back q x H) as (x0 & H0 & ->). eauto.
    - intros q x H. eexists. split; [apply set_data_node, H|reflexivity].
  Qed.
  Lemma set_data_linked : linked (views h) -> linked (views h1).
  Proof.
    intros LK q x k o Hx Hk. destruct (set_data_back q x Hx) as (x0 & H0 & ->). cbn [a_kids] in Hk.
    destruct (LK _ _ _ _ H0 Hk) as (c & z & -> & Hz & Hp & Ek). eexists c, _. split; [reflexivity|].
    split; [apply set_data_node, Hz|]. auto.
  Qed.
  Lemma set_data_root r : is_root (views h) r -> is_root (views h1) r.
  Proof. intros (x & Hx & Hp). eexists. split; [apply set_data_node, Hx|exact Hp]. Qed.
  Lemma set_data_descend ks : forall r, descend h1 r ks = descend h r ks.
  Proof.
    induction ks as [|k ks IH]; intros r; [reflexivity|]. cbn [descend]. unfold h1 at 1. destruct (Nat.eq_dec r a) as [->|Hr].
    - rewrite set_nth_same by exact (nth_lt _ _ _ Ey). rewrite Ey. change (kid (with_data y d) k) with (kid y k).
      destruct (kid y k); cbn [rbind]; [apply IH|reflexivity|reflexivity].
    - rewrite set_nth_other by congruence. destruct (nth_error h r) as [x|]; [|reflexivity].
      destruct (kid x k); cbn [rbind]; [apply IH|reflexivity|reflexivity].
  Qed.
  Lemma set_data_inv P : inv P h -> inv P h1.
  Proof. intros I. destruct (I _ _ Ey) as [N Hc]. apply inv_set; assumption. Qed.
End SetData.

(** What is left in a trie after node [a], reached by [ks], was cleared and unlinked. *)
Lemma unlink_contents P h r ks a : inv P h -> linked (views h) -> is_root (views h) r -> attached h r a ->
  at_path (views h) r ks a -> ks <> [] -> a < length h ->
  (forall x, is_node (views h) a x -> a_data x = None) ->
  let h' := fst (unlink (S a) h a) in
  inv P h' /\ linked (views h') /\ is_root (views h') r /\ length h' = length h /\
  (forall q v, holds_at (views h') r q v <-> holds_at (views h) r q v /\ ~ starts_with ks q) /\
  (snd (unlink (S a) h a) = Ok tt /\ ~ bare (views h') r \/ snd (unlink (S a) h a) = Panic /\ bare (views h') r).
Proof.
  intros I LK R At A Hne La Hd. cbn zeta.
  destruct (unlink_ok P r (S a) h a (Nat.lt_succ_diag_r a) I LK At)
    as (g & J1 & J2 & J3 & J4 & J5 & J6 & J7 & J8).
  set (h' := fst (unlink (S a) h a)) in *.
  assert (Back : forall q b, at_path (views h') r q b -> at_path (views h) r q b).
  { intros q. generalize r. induction q as [|k q IH]; intros r0 b H; inversion H as [|? x ? c ? ? Hx Hk H']; subst; [constructor|].
    destruct (is_node_same_length (views h') (views h) r0 x (eq_sym (proj1 J2)) Hx) as (x0 & H0).
    destruct (proj2 J2 _ _ _ H0 Hx) as (_ & _ & _ & _ & _ & W). apply W in Hk. destruct Hk as [Hk _].
    econstructor; [exact H0|exact Hk|auto]. }
  assert (Hra : r <> a).
  { intros ->. apply Hne. apply (at_path_inj (views h) a LK R ks [] a A). constructor. }
  assert (Fwd : forall q b, at_path (views h) r q b -> ~ starts_with ks q -> ~ g b -> at_path (views h') r q b).
  { intros q. induction q as [|k q IH] using rev_ind; intros b H N G.
    - inversion H; subst. constructor.
    - destruct (at_path_snoc _ _ _ _ _ H) as (p & x & H' & Hx & Hk).
      destruct (is_node_same_length (views h) (views h') p x (proj1 J2) Hx) as (x' & Hx').
      destruct (proj2 J2 _ _ _ Hx Hx') as (_ & _ & _ & _ & _ & W).
      assert (Hk' : In (k, Some b) (a_kids x')) by (apply W; split; [exact Hk|intros (c & Ec & Gc); inv Ec; auto]).
      assert (Gp : ~ g p).
      { intros Gp. destruct (Nat.eq_dec p a) as [->|Hp].
        - apply N. exists [k]. f_equal. symmetry. exact (at_path_inj _ _ LK R _ _ _ A H').
        - destruct (J4 _ Gp Hp) as (w & Hw & Ew & _). rewrite (is_node_fun _ _ _ _ Hw Hx') in Ew. rewrite Ew in Hk'. destruct Hk'. }
      apply (at_path_trans _ q r [k] p b).
      + apply IH; [exact H'| |exact Gp]. intros (rest & ->). apply N. exists (rest ++ [k]). now rewrite app_assoc.
      + econstructor; [exact Hx'|exact Hk'|constructor]. }
  split; [exact J1|]. split; [exact (trimmed_linked _ _ _ J2 LK)|]. split; [|split; [|split]].
  - destruct R as (x & Hx & Hp). destruct (is_node_same_length (views h) (views h') r x (proj1 J2) Hx) as (x' & Hx').
    exists x'. split; [exact Hx'|]. destruct (proj2 J2 _ _ _ Hx Hx') as (-> & _). exact Hp.
  - destruct J2 as [J2 _]. now rewrite !views_length in J2.
  - intros q v. split.
    + intros (b & x & H & Hx & Dx). pose proof (Back _ _ H) as H0.
      destruct (is_node_same_length (views h') (views h) b x (eq_sym (proj1 J2)) Hx) as (x0 & Hx0).
      destruct (proj2 J2 _ _ _ Hx0 Hx) as (_ & _ & E & _). split.
      * exists b, x0. split; [exact H0|]. split; [exact Hx0|congruence].
      * intros (rest & ->). destruct (at_path_app _ _ _ _ _ H) as (c & Hc & _).
        pose proof (at_path_fun P h I _ _ _ _ (Back _ _ Hc) A) as ->.
        destruct (exists_last Hne) as (ks0 & k & Eks). rewrite Eks in Hc. destruct (at_path_snoc _ _ _ _ _ Hc) as (p & w & _ & Hw & Hk).
        destruct (is_node_same_length (views h') (views h) p w (eq_sym (proj1 J2)) Hw) as (w0 & Hw0).
        destruct (proj2 J2 _ _ _ Hw0 Hw) as (_ & _ & _ & _ & _ & W). apply W in Hk. destruct Hk as [_ Hk]. apply Hk. eauto.
    + intros ((b & x & H & Hx & Dx) & N).
      destruct (is_node_same_length (views h) (views h') b x (proj1 J2) Hx) as (x' & Hx').
      destruct (proj2 J2 _ _ _ Hx Hx') as (_ & _ & E & _).
      assert (G : ~ g b).
      { intros G. destruct (Nat.eq_dec b a) as [->|Hb]; [rewrite (Hd _ Hx) in Dx; discriminate|].
        destruct (J4 _ G Hb) as (w & Hw & _ & Ew). rewrite (is_node_fun _ _ _ _ Hw Hx') in Ew. congruence. }
      exists b, x'. split; [auto|]. split; [exact Hx'|congruence].
  - destruct J8 as [[J8 J9]|[J8 J9]]; [left|right]; (split; [exact J8|]); [|auto].
    intros B. destruct ks as [|k ks]; [congruence|]. inversion A as [|? x ? c ? ? Hx Hk A']; subst.
    destruct (LK _ _ _ _ Hx Hk) as (c' & z & Ec & Hz & Hp & _). inv Ec.
    assert (G : ~ g c') by (intros G; apply J9, (J5 _ _ _ G Hz Hp), B).
    destruct B as (w & Hw & Ew & _). destruct (proj2 J2 _ _ _ Hx Hw) as (_ & _ & _ & _ & _ & W). rewrite Ew in W.
    apply (W k (Some c')). split; [exact Hk|]. intros (c & Ec & Gc). inv Ec. auto.
Qed.

(** In every case: [descend] leads to a node along the path, or panics. *)
Lemma descend_any P h : inv P h -> forall ks r, r < length h -> Forall (key_from P) ks ->
  (exists a, descend h r ks = Ok a /\ a < length h /\ at_path (views h) r ks a) \/
  (descend h r ks = Panic /\ ((forall a, ~ at_path (views h) r ks a) \/
     exists q k rest p x, ks = q ++ k :: rest /\ at_path (views h) r q p /\ is_node (views h) p x /\ clashes k (a_kids x))).
Proof.
  intros IV. induction ks as [|k ks IH]; intros r L F.
  - left. exists r. repeat split; [exact L|constructor].
  - inversion F as [|? ? Dk F']; subst. cbn [descend]. destruct (lt_nth h r L) as (x & E). rewrite E.
    destruct (IV _ _ E) as [N Hc].
    assert (N' : node_ok any r x) by (destruct N as (K & N); split; [exact (kids_any P _ K)|exact N]).
    destruct (kid_any r x k N' (key_in_any P k Dk)) as [(c & -> & H)|(-> & [H|H])]; cbn [rbind].
    + destruct (IH c (Hc _ _ H) F') as [(a & E1 & L1 & A)|(E1 & [A|A])].
      * left. exists a. split; [exact E1|]. split; [exact L1|]. apply (at_below _ r (view x) k c); [now apply is_node_view|exact H|exact A].
      * right. split; [exact E1|]. left. intros a A'. inversion A' as [|? y ? c' ? ? Hy Hk A2]; subst.
        destruct (is_node_inv _ _ _ Hy) as (y' & Ey & ->). rewrite E in Ey. inv Ey. cbn [view a_kids] in Hk.
        pose proof (entry_unique _ _ _ _ (proj1 (proj2 (proj1 N))) H Hk) as W. inv W. exact (A _ A2).
      * right. split; [exact E1|]. right. destruct A as (q & k1 & rest & p & y & -> & A1 & A2 & A3).
        exists (k :: q), k1, rest, p, y. split; [reflexivity|]. split; [|auto].
        apply (at_below _ r (view x) k c); [now apply is_node_view|exact H|exact A1].
    + right. split; [reflexivity|]. left. intros a A'. inversion A' as [|? y ? c' ? ? Hy Hk A2]; subst.
      destruct (is_node_inv _ _ _ Hy) as (y' & Ey & ->). rewrite E in Ey. inv Ey. exact (H _ Hk).
    + right. split; [reflexivity|]. right. exists [], k, ks, r, (view x). split; [reflexivity|].
      split; [constructor|]. split; [now apply is_node_view|exact H].
Qed.

Lemma trie_step_inv P h c : inv P h -> legal P (views h) c ->
  (match c with TrGet _ _ | TrSet _ _ _ => True | _ => False end) -> inv P (fst (tstep h c)).
Proof.
  intros I L T. destruct c; try contradiction; cbn [tstep legal] in *; unfold on_node.
  - destruct (nth_error h r); exact I.
  - destruct L as (L & F & Q). destruct (exists_node _ _ L) as (x & E). rewrite E. destruct (ikey_is_empty k).
    + cbn [fst]. apply (set_data_inv h r x d E P I).
    + destruct (descend_any P h I (ikey_keys k) r (nth_lt _ _ _ E) F) as [(a & D & La & A)|(D & _)]; rewrite D; [|exact I].
      destruct (lt_nth h a La) as (y & Ey). rewrite Ey. pose proof (set_data_inv h a y d Ey P I) as I1. destruct d as [v|]; [exact I1|].
      destruct (Q eq_refl) as [LK R]. destruct (unlink_ok P r (S a) (set_nth h a (with_data y None)) a (Nat.lt_succ_diag_r a) I1) as (g & J & _).
      * apply (set_data_linked h a y None Ey LK).
      * apply (descend_attached P _ r I1 (set_data_linked h a y None Ey LK) (set_data_root h a y None Ey r R) (ikey_keys k) a F).
        now rewrite (set_data_descend h a y None Ey).
      * destruct (unlink (S a) (set_nth h a (with_data y None)) a) as [h2 r2]. exact J.
Qed.

Lemma reachable_inv P (PF : prefix_free P) h : reachable P h -> inv P h.
Proof.
  induction 1 as [|h c R IH L].
  - intros a x E. destruct a; discriminate.
  - destruct c; try (apply (node_step P PF); [exact IH|exact L|exact I]); apply (trie_step_inv P); try exact IH; try exact L; exact I.
Qed.
