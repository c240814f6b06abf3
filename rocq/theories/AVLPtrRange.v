(** * Iterators with bounds over a map whose keys do not change. *)
From Coq Require Import List ZArith Bool Lia Arith.
From Verif Require Import Base BaseProofs AVLModel MapSpec AVLSpec MapProofs AVLProofs AVLHistory AVLIter AVLPtrModel AVLPtrProofs AVLPtrOps AVLPtrPut
  AVLPtrRemove AVLPtrCalls AVLPtrMono AVLPtrSpec AVLPtrIter AVLPtrSys AVLPtrHistory AVLPtrWalk AVLPtrCalm.
Import ListNotations.
Local Open Scope Z_scope.

Section Range.
  Context {K V : Type} (equalb : K -> K -> res bool) (compare : K -> K -> res Z).
  Context (D : K -> Prop) (eqv lt : K -> K -> Prop) (TK : total_keys D eqv lt equalb compare).
  Notation tree := (tree K V).
  Notation heap := (@heap K V).
  Notation sys := (@sys K V).
  Notation entries := (list (K * V)).

  Definition ltb (a b : K) : bool := match compare a b with Ok c => c <? 0 | _ => false end.
  Lemma ltb_lt a b : D a -> D b -> (ltb a b = true <-> lt a b).
  Proof. intros Da Db. unfold ltb. destruct (tk_compare _ _ _ _ _ TK a b Da Db) as (c & -> & Hc & _). rewrite <- Hc. apply Z.ltb_lt. Qed.
  Lemma ltb_eqv a a' b b' : D a -> D a' -> D b -> D b' -> eqv a a' -> eqv b b' -> ltb a b = ltb a' b'.
  Proof.
    intros Da Da' Db Db' Ea Eb. pose proof (ltb_lt a b Da Db) as H1. pose proof (ltb_lt a' b' Da' Db') as H2.
    assert (H : lt a b <-> lt a' b').
    { split; intros H.
      - eapply tk_lt_r; [exact TK| |exact Eb]. eapply tk_lt_l; [exact TK| |exact H]. eapply tk_sym; eauto.
      - eapply tk_lt_r; [exact TK| |eapply tk_sym; [exact TK|exact Eb]]. eapply tk_lt_l; [exact TK|exact Ea|exact H]. }
    destruct (ltb a b), (ltb a' b'); intuition congruence.
  Qed.

  Definition dom_opt (o : option K) : Prop := match o with None => True | Some k => D k end.
  Notation rng := (range_list (V := V) ltb).
  Notation bef := (before_end (V := V) ltb).

  Lemma filter_prefix e (l : entries) : dom_opt e -> in_dom D l -> ascending lt l -> filter (bef e) l = firstn (length (filter (bef e) l)) l.
  Proof.
    intros De Hd Ha. induction l as [|[k v] l IH]; [reflexivity|]. apply Forall_cons_iff in Hd. destruct Hd as [Dk Hd]. cbn [fst] in Dk.
    unfold ascending in Ha. rewrite fop_cons in Ha. destruct Ha as [Ha0 Ha]. cbn [filter]. destruct (bef e (k, v)) eqn:E.
    - cbn [length firstn]. f_equal. apply IH; assumption.
    - replace (filter (bef e) l) with (@nil (K * V)); [reflexivity|]. symmetry. apply filter_none. intros [k' v'] Hx.
      destruct e as [b|]; [|discriminate]. cbn [before_end fst] in *. destruct (ltb k' b) eqn:E2; [|reflexivity]. exfalso.
      rewrite Forall_forall in Ha0, Hd. specialize (Ha0 _ Hx). specialize (Hd _ Hx). cbn [fst] in *.
      apply ltb_lt in E2; [|exact Hd|exact De]. assert (H : lt k b) by (eapply tk_lt_trans; eauto).
      apply ltb_lt in H; try assumption. congruence.
  Qed.
  Lemma rng_prefix s e (l : entries) : dom_opt e -> in_dom D l -> ascending lt l -> rng s e l = firstn (length (rng s e l)) l.
  Proof.
    intros De Hd Ha. unfold range_list. destruct s as [a|]; [|now apply filter_prefix]. destruct l as [|[k v] l]; [reflexivity|].
    destruct (ltb a k); [reflexivity|]. now apply filter_prefix.
  Qed.

  Definition same_keys (l l' : entries) : Prop := Forall2 (fun a b => eqv (fst a) (fst b)) l l'.
  Lemma rng_same s e (l l' : entries) : dom_opt s -> dom_opt e -> in_dom D l -> in_dom D l' -> same_keys l l' ->
    length (rng s e l) = length (rng s e l').
  Proof.
    intros Ds De Hd Hd' S.
    assert (F : length (filter (bef e) l) = length (filter (bef e) l')).
    { clear Ds. induction S as [|[k v] [k' v'] l l' Hk S IH]; [reflexivity|]. apply Forall_cons_iff in Hd, Hd'. destruct Hd as [Dk Hd], Hd' as [Dk' Hd'].
      cbn [fst] in *. specialize (IH Hd Hd'). cbn [filter]. assert (E : bef e (k, v) = bef e (k', v')).
      { destruct e as [b|]; [|reflexivity]. cbn [before_end fst]. apply ltb_eqv; auto. eapply tk_refl; eauto. }
      rewrite E. destruct (bef e (k', v')); cbn [length]; lia. }
    unfold range_list. destruct s as [a|]; [|exact F]. destruct S as [|[k v] [k' v'] l l' Hk S]; [reflexivity|].
    apply Forall_cons_iff in Hd, Hd'. destruct Hd as [Dk Hd], Hd' as [Dk' Hd']. cbn [fst] in *.
    rewrite (ltb_eqv a a k k'); auto; [|eapply tk_refl; eauto]. destruct (ltb a k'); [reflexivity|exact F].
  Qed.

  (** Two sorted lists with the same keys have them at the same places. *)
  Lemma keys_line_up (l : entries) : forall l', in_dom D l -> in_dom D l' -> ascending lt l -> ascending lt l' ->
    (forall x, In x l -> exists y, In y l' /\ eqv (fst x) (fst y)) -> (forall y, In y l' -> exists x, In x l /\ eqv (fst x) (fst y)) ->
    same_keys l l'.
  Proof.
    induction l as [|x l IH]; intros l' Hd Hd' Ha Ha' F B.
    - destruct l' as [|y l']; [constructor|]. destruct (B y (or_introl eq_refl)) as (x & [] & _).
    - destruct l' as [|y l']; [destruct (F x (or_introl eq_refl)) as (y & [] & _)|].
      unfold in_dom in Hd, Hd'. apply Forall_cons_iff in Hd, Hd'. destruct Hd as [Dx Hd], Hd' as [Dy Hd'].
      unfold ascending in Ha, Ha'. rewrite fop_cons in Ha, Ha'. destruct Ha as [Hx Ha], Ha' as [Hy Ha'].
      rewrite Forall_forall in Hx, Hy.
      assert (E : eqv (fst x) (fst y)).
      { destruct (F x (or_introl eq_refl)) as (y1 & [-> | I1] & E1); [exact E1|].
        destruct (B y (or_introl eq_refl)) as (x1 & [-> | I2] & E2); [exact E2|]. exfalso.
        apply (tk_irrefl _ _ _ _ _ TK (fst x) (fst x)); [eapply tk_refl; eauto|].
        eapply tk_lt_trans; [exact TK|exact (Hx _ I2)|]. eapply tk_lt_l; [exact TK|exact E2|]. eapply tk_lt_r; [exact TK|exact (Hy _ I1)|].
        eapply tk_sym; eauto. }
      constructor; [exact E|]. apply IH; auto.
      + intros z I. destruct (F z (or_intror I)) as (w & [<- | I1] & E1); [|eauto]. exfalso.
        apply (tk_irrefl _ _ _ _ _ TK (fst x) (fst z)); [|exact (Hx _ I)]. eapply tk_trans; [exact TK|exact E|]. eapply tk_sym; eauto.
      + intros w I. destruct (B w (or_intror I)) as (z & [<- | I1] & E1); [|eauto]. exfalso.
        apply (tk_irrefl _ _ _ _ _ TK (fst y) (fst w)); [|exact (Hy _ I)]. eapply tk_trans; [exact TK| |exact E1]. eapply tk_sym; eauto.
  Qed.

  (** A calm call keeps the keys. *)
  Lemma calm_keys pre m op z t z' t' : keys_in D op -> calm_call eqv pre m op ->
    avl_inv D eqv lt (hist m pre) (mk_avl t z) -> avl_inv D eqv lt (hist m (pre ++ [op])) (mk_avl t' z') ->
    same_keys (inorder t) (inorder t').
  Proof.
    intros Ko Hc (Hd & Ha & _ & _ & Hh) (Hd' & Ha' & _ & _ & Hh'). cbn [avl_root] in *.
    assert (HD : forall k v, stored eqv (hist m pre) k v -> D k).
    { intros k v H. apply Hh in H. unfold in_dom in Hd. rewrite Forall_forall in Hd. exact (Hd _ H). }
    assert (X : (forall k v, stored eqv (hist m pre) k v -> exists k' v', stored eqv (hist m (pre ++ [op])) k' v' /\ eqv k k') /\
                (forall k' v', stored eqv (hist m (pre ++ [op])) k' v' -> exists k v, stored eqv (hist m pre) k v /\ eqv k k')).
    { rewrite hist_snoc.
      assert (SAME : (forall k v, stored eqv (hist m pre) k v -> exists k' v', stored eqv (hist m pre ++ []) k' v' /\ eqv k k') /\
                     (forall k' v', stored eqv (hist m pre ++ []) k' v' -> exists k v, stored eqv (hist m pre) k v /\ eqv k k')).
      { rewrite app_nil_r. split; intros k v H; exists k, v; (split; [exact H|]); apply (tk_refl _ _ _ _ _ TK), (HD _ _ H). }
      destruct (m <? maps pre)%nat; [|exact SAME].
      destruct op as [|m0 k0 v0|m0 k0|m0 k0|m0|m0 st en|i|i|i]; cbn [call_on]; try exact SAME.
      - destruct k0 as [k0|]; [|exact SAME]. destruct (Nat.eqb_spec m0 m) as [->|]; [|exact SAME].
        cbn in Ko. cbn [calm_call] in Hc. destruct (Hc eq_refl) as (k1 & v1 & E1 & H1). unfold held in H1. split.
        + intros k v H. destruct (tk_equal _ _ _ _ _ TK k k0 (HD _ _ H) Ko) as (b & _ & Hb). destruct b.
          * exists k0, v0. split; [apply stored_snoc; now left|]. now apply Hb.
          * exists k, v. split; [apply stored_snoc; right; split; [|exact H]|apply (tk_refl _ _ _ _ _ TK), (HD _ _ H)].
            cbn [touches]. intros C. apply Hb in C. discriminate.
        + intros k v H. apply stored_snoc in H. destruct H as [H|[_ H]].
          * inv H. exists k1, v1. split; [exact H1|]. eapply tk_sym; eauto.
          * exists k, v. split; [exact H|]. apply (tk_refl _ _ _ _ _ TK), (HD _ _ H).
      - destruct k0 as [k0|]; [|exact SAME]. destruct (Nat.eqb_spec m0 m) as [->|]; [|exact SAME].
        cbn [calm_call] in Hc. specialize (Hc eq_refl). unfold held in Hc. split.
        + intros k v H. exists k, v. split; [apply stored_snoc; right; split; [|exact H]|apply (tk_refl _ _ _ _ _ TK), (HD _ _ H)].
          cbn [touches]. intros C. apply (Hc k v); [eapply tk_sym; eauto|exact H].
        + intros k v H. apply stored_snoc in H. destruct H as [H|[_ H]]; [discriminate|].
          exists k, v. split; [exact H|]. apply (tk_refl _ _ _ _ _ TK), (HD _ _ H).
      - destruct (Nat.eqb_spec m0 m) as [->|]; [|exact SAME]. split.
        + intros k v H. exists k, v. split; [apply stored_snoc; right; split; [intros []|exact H]|apply (tk_refl _ _ _ _ _ TK), (HD _ _ H)].
        + intros k v H. apply stored_snoc in H. destruct H as [H|[_ H]]; [discriminate|].
          exists k, v. split; [exact H|]. apply (tk_refl _ _ _ _ _ TK), (HD _ _ H). }
    destruct X as [X1 X2]. apply keys_line_up; auto.
    - intros [k v] I. apply Hh in I. destruct (X1 k v I) as (k' & v' & H & E). exists (k', v'). split; [now apply Hh'|exact E].
    - intros [k v] I. apply Hh' in I. destruct (X2 k v I) as (k' & v' & H & E). exists (k', v'). split; [now apply Hh|exact E].
  Qed.

  (** The entries in a list of cells. *)
  Definition ent (h : heap) (fp : list nat) : entries :=
    flat_map (fun x => match nth_error h x with Some c => [(c_key c, c_val c)] | None => [] end) fp.
  Lemma ent_app h a b : ent h (a ++ b) = ent h a ++ ent h b.
  Proof using Type. clear. apply flat_map_app. Qed.
  Lemma rep_ent h p (t : tree) fp : rep h p t fp -> ent h fp = inorder t.
  Proof using Type.
    clear. induction 1 as [|a k v b pl pr l r fl fr E Hl IHl Hr IHr]; [reflexivity|]. cbn [inorder].
    rewrite ent_app. cbn [ent flat_map]. rewrite E. cbn [app c_key c_val]. unfold ent in *. now rewrite IHl, IHr.
  Qed.
  Lemma ent_skipn h fp : (forall x, In x fp -> nth_error h x <> None) -> forall q, ent h (skipn q fp) = skipn q (ent h fp).
  Proof using Type.
    clear. induction fp as [|x fp IH]; intros H q; [destruct q; reflexivity|]. destruct q as [|q]; [reflexivity|].
    cbn [skipn ent flat_map]. destruct (nth_error h x) eqn:E; [|destruct (H x (or_introl eq_refl) E)]. cbn [app skipn].
    apply IH. intros y I. apply H. now right.
  Qed.
  Lemma rep_cells h p (t : tree) fp : rep h p t fp -> forall x, In x fp -> nth_error h x <> None.
  Proof using Type.
    clear. induction 1 as [|a k v b pl pr l r fl fr E Hl IHl Hr IHr]; intros x I; [destruct I|].
    apply in_app_or in I. destruct I as [I|[<- | I]]; [auto|congruence|auto].
  Qed.

  (** Nothing more comes. *)
  Definition ended (i : @piter K) : Prop := hi_curr i = None /\ hi_paths i = [].
  (** The cells [rest] lie before the iterator; its bounds let [n] of them through, the first ones. *)
  Definition bpos (h : heap) (i : @piter K) (rest : list nat) (n : nat) : Prop :=
    (ended i /\ n = O) \/
    (n = length (rng (hi_start i) (hi_end i) (ent h rest)) /\ dom_opt (hi_start i) /\ dom_opt (hi_end i) /\
     ((hi_pos i = 0 /\ hi_curr i <> None /\ after h (hi_curr i :: hi_paths i) rest) \/
      (hi_pos i = 1 /\ hi_start i = None /\ exists a c fr rest', hi_curr i = Some a /\ nth_error h a = Some c /\ shape h (c_r c) fr /\
        after h (hi_paths i) rest' /\ rest = fr ++ rest'))).
  (** The same after advance. *)
  Definition bfront (h : heap) (i : @piter K) (rest : list nat) (n : nat) : Prop :=
    (ended i /\ n = O) \/
    (n = length (rng None (hi_end i) (ent h rest)) /\ n <> O /\ hi_start i = None /\ dom_opt (hi_end i) /\
     hi_pos i = 0 /\ hi_curr i <> None /\ after h (hi_curr i :: hi_paths i) rest).

  Lemma front_bpos (h : heap) i rest n : bfront h i rest n -> bpos h i rest n.
  Proof using Type.
    clear. intros [H|(H1 & H2 & H3 & H4 & H5 & H6 & H7)]; [now left|]. right. rewrite H3. split; [exact H1|]. split; [exact I|]. split; [exact H4|]. auto.
  Qed.
  Lemma bfront_cur (h : heap) i rest n : bfront h i rest n -> hi_pos i = 1 -> forall a, hi_curr i = Some a -> False.
  Proof using Type. clear. intros [((H & _) & _)|(_ & _ & _ & _ & H & _)] P a E; congruence. Qed.

  (** The start filter drops everything above the start. *)
  Lemma start_loop_ends (h : heap) s : D s -> forall m a c fr ps rest i, (length (fr ++ rest) < m)%nat -> hi_curr i = Some a -> hi_paths i = ps ->
    nth_error h a = Some c -> shape h (c_r c) fr -> after h ps rest ->
    Forall (fun x => D (fst x) /\ lt s (fst x)) (ent h (a :: fr ++ rest)) ->
    exists i', runs (fun n => i_start_loop compare n s) h i i' (Ok true) /\ ended i'.
  Proof.
    intros Ds. induction m as [|m IH]; intros a c fr ps rest i Hn Hcur Hps Ha Hs Hp F; [lia|].
    cbn [ent flat_map] in F. rewrite Ha in F. cbn [app] in F. apply Forall_cons_iff in F. cbn [fst] in F. destruct F as [Fa Ft].
    fold (ent h (fr ++ rest)) in Ft.
    destruct (tk_compare _ _ _ _ _ TK s (c_key c) Ds (proj1 Fa)) as (cc & Hcc & Hneg & _).
    assert (cc <? 0 = true) as B by (apply Z.ltb_lt, Hneg, Fa).
    assert (ST : forall n, i_start_loop compare (S n) s h i = match c_r c with
      | Some r => i_start_loop compare n s h (PIt (hi_paths i) (Some r) (hi_pos i) (hi_start i) (hi_end i))
      | None => match hi_paths i with
          | p :: ps => i_start_loop compare n s h (move ps p i)
          | [] => Some (PIt [] None (hi_pos i) (hi_start i) (hi_end i), Ok true)
          end
      end).
    { intros n. cbn [i_start_loop]. unfold ibind at 1. cbn [iget]. unfold ibind at 1, iload. rewrite Hcur, Ha. unfold ibind at 1, ilift. rewrite Hcc, B.
      destruct (c_r c); [reflexivity|]. destruct (hi_paths i); reflexivity. }
    rewrite Hps in ST. destruct (c_r c) as [y|] eqn:Er.
    - inversion Hs as [|y0 cy fl fr' Hy Sl Sr E1 E2]. subst y0.
      destruct (IH y cy fr' ps rest (PIt ps (Some y) (hi_pos i) (hi_start i) (hi_end i))) as (i' & R & E); try reflexivity; try assumption.
      + subst fr. rewrite !app_length in Hn. cbn [length] in Hn. rewrite app_length. lia.
      + subst fr. rewrite <- app_assoc, ent_app in Ft. apply Forall_app in Ft. apply Ft.
      + exists i'. split; [|exact E]. eapply runs_S; [|exact R]. exact ST.
    - inv Hs. cbn [app] in *. inversion Hp as [Ep Erest|b cb fb ps' r2 Hb Sb Ab Ep Erest].
      + rewrite <- Ep in ST. eexists. split; [|split; [|]]; [exists 1%nat; intros [|n] Hn'; [lia|apply ST]|reflexivity|reflexivity].
      + rewrite <- Ep in ST. subst rest.
        destruct (IH b cb fb ps' r2 (move ps' (Some b) i)) as (i' & R & E); try reflexivity; try assumption.
        * cbn [length] in Hn. lia.
        * exists i'. split; [|exact E]. eapply runs_S; [|exact R]. exact ST.
  Qed.

  (** The end filter pops everything if the first key is not below the end. *)
  Lemma end_loop_ends (h : heap) e : D e -> forall ps a c fr rest i, hi_curr i = Some a -> hi_paths i = ps ->
    nth_error h a = Some c -> shape h (c_r c) fr -> after h ps rest ->
    Forall (fun x => D (fst x) /\ ~ lt (fst x) e) (ent h (a :: fr ++ rest)) ->
    exists i', runs (fun n => i_end_loop compare n e) h i i' (Ok tt) /\ ended i'.
  Proof.
    intros De. induction ps as [|p ps IH]; intros a c fr rest i Hcur Hps Ha Hs Hp F.
    all: cbn [ent flat_map] in F; rewrite Ha in F; cbn [app] in F; apply Forall_cons_iff in F; cbn [fst] in F; destruct F as [Fa Ft].
    all: fold (ent h (fr ++ rest)) in Ft.
    all: destruct (tk_compare _ _ _ _ _ TK (c_key c) e (proj1 Fa) De) as (cc & Hcc & Hneg & _).
    all: assert (0 <=? cc = true) as B by (apply Z.leb_le; destruct (Z_lt_dec cc 0) as [L|L]; [destruct (proj2 Fa); now apply Hneg|lia]).
    all: assert (ST : forall n, i_end_loop compare (S n) e h i = match hi_paths i with
          | p :: ps => i_end_loop compare n e h (move ps p i)
          | [] => Some (PIt [] None (hi_pos i) (hi_start i) None, Ok tt)
          end) by
      (intros n; cbn [i_end_loop]; unfold ibind at 1; cbn [iget]; unfold ibind at 1, iload; rewrite Hcur, Ha; unfold ibind at 1, ilift; rewrite Hcc, B;
       destruct (hi_paths i); reflexivity).
    all: rewrite Hps in ST.
    - eexists. split; [|split; [|]]; [exists 1%nat; intros [|n] Hn'; [lia|apply ST]|reflexivity|reflexivity].
    - inversion Hp as [|b cb fb ps' r2 Hb Sb Ab Ep Erest]. subst ps' p.
      destruct (IH b cb fb r2 (move ps (Some b) i)) as (i' & R & E); try reflexivity; try assumption.
      + subst rest. rewrite ent_app in Ft. apply Forall_app in Ft. apply Ft.
      + exists i'. split; [|exact E]. eapply runs_S; [|exact R]. exact ST.
  Qed.

  Lemma start_loop_stays (h : heap) s n i a c : D s -> D (c_key c) -> hi_curr i = Some a -> nth_error h a = Some c -> ~ lt s (c_key c) ->
    i_start_loop compare (S n) s h i = Some (i, Ok false).
  Proof.
    intros Ds Dc Hcur Ha Hl. cbn [i_start_loop]. unfold ibind at 1. cbn [iget]. unfold ibind at 1, iload. rewrite Hcur, Ha. unfold ibind at 1, ilift.
    destruct (tk_compare _ _ _ _ _ TK s (c_key c) Ds Dc) as (cc & -> & Hneg & _).
    assert (cc <? 0 = false) as -> by (apply Z.ltb_ge; destruct (Z_lt_dec cc 0) as [L|L]; [destruct Hl; now apply Hneg|lia]). reflexivity.
  Qed.
  Lemma end_loop_stays (h : heap) e n i a c : D e -> D (c_key c) -> hi_curr i = Some a -> nth_error h a = Some c -> lt (c_key c) e ->
    i_end_loop compare (S n) e h i = Some (i, Ok tt).
  Proof.
    intros De Dc Hcur Ha Hl. cbn [i_end_loop]. unfold ibind at 1. cbn [iget]. unfold ibind at 1, iload. rewrite Hcur, Ha. unfold ibind at 1, ilift.
    destruct (tk_compare _ _ _ _ _ TK (c_key c) e Dc De) as (cc & -> & Hneg & _).
    assert (0 <=? cc = false) as -> by (apply Z.leb_gt; now apply Hneg). reflexivity.
  Qed.

  (** Both filters, from a cell on. *)
  Lemma filters_to (h : heap) i rest : in_dom D (ent h rest) -> ascending lt (ent h rest) -> dom_opt (hi_start i) -> dom_opt (hi_end i) ->
    hi_pos i = 0 -> hi_curr i <> None -> after h (hi_curr i :: hi_paths i) rest ->
    exists i', runs (i_filters compare) h i i' (Ok tt) /\ bfront h i' rest (length (rng (hi_start i) (hi_end i) (ent h rest))).
  Proof.
    intros Hd Ha Ds De P C A. inversion A as [|a c fr ps r2 Hx Sx Ax Ep Er]. subst ps.
    assert (EL : ent h rest = (c_key c, c_val c) :: ent h (fr ++ r2)) by (subst rest; cbn [ent flat_map]; rewrite Hx; reflexivity).
    assert (Dk : D (c_key c)) by (rewrite EL in Hd; apply Forall_cons_iff in Hd; apply Hd).
    assert (Lt : forall x, In x (ent h (fr ++ r2)) -> D (fst x) /\ lt (c_key c) (fst x)).
    { intros x I. rewrite EL in Hd, Ha. unfold in_dom in Hd. apply Forall_cons_iff in Hd. destruct Hd as [_ Hd]. unfold ascending in Ha. rewrite fop_cons in Ha.
      destruct Ha as [Ha _]. rewrite Forall_forall in Hd, Ha. split; [apply Hd, I|exact (Ha x I)]. }
    (* the end filter *)
    assert (END : forall i0, hi_start i0 = None -> hi_end i0 = hi_end i -> hi_pos i0 = 0 -> hi_curr i0 = Some a -> hi_paths i0 = hi_paths i ->
      exists n0 i', (forall n, (n0 <= n)%nat -> (match hi_end i with None => iret tt | Some e => i_end_loop compare n e end) h i0 = Some (i', Ok tt)) /\
        bfront h i' rest (length (rng None (hi_end i) (ent h rest)))).
    { intros i0 S0 E0 P0 C0 Pa0. destruct (hi_end i) as [e|] eqn:Ee.
      - destruct (ltb (c_key c) e) eqn:El.
        + assert (lt (c_key c) e) as L by (apply ltb_lt; assumption).
          exists 1%nat, i0. split; [intros [|n] Hn; [lia|]; eapply end_loop_stays; eauto|]. right. rewrite E0, C0, Pa0.
          split; [reflexivity|]. split; [|split; [exact S0|split; [exact De|split; [exact P0|split; [discriminate|]]]]].
          * rewrite EL. cbn [range_list filter before_end fst]. rewrite El. discriminate.
          * now rewrite Ep.
        + assert (~ lt (c_key c) e) as L by (intros L; apply ltb_lt in L; try assumption; congruence).
          assert (Fall : Forall (fun x => D (fst x) /\ ~ lt (fst x) e) (ent h (a :: fr ++ r2))).
          { cbn [ent flat_map]. rewrite Hx. cbn [app]. constructor; [split; assumption|]. apply Forall_forall. intros x I.
            destruct (Lt x I) as (Dx & Lx). split; [exact Dx|]. intros C0'. apply L. eapply tk_lt_trans; eauto. }
          destruct (end_loop_ends h e De (hi_paths i0) a c fr r2 i0 C0 eq_refl Hx Sx ltac:(rewrite Pa0; exact Ax) Fall) as (i' & (n0 & H1) & H2).
          exists n0, i'. split; [exact H1|].
          left. split; [exact H2|]. rewrite EL. unfold range_list. cbn [filter before_end fst]. rewrite El.
            rewrite (filter_none (bef (Some e))); [reflexivity|]. intros x I. cbn [before_end]. destruct (Lt x I) as (Dx & Lx).
            destruct (ltb (fst x) e) eqn:E2; [|reflexivity]. exfalso. apply ltb_lt in E2; try assumption. apply L. eapply tk_lt_trans; eauto.
      - exists O, i0. split; [reflexivity|]. right. rewrite E0, C0, Pa0. split; [reflexivity|]. split; [|split; [exact S0|split; [exact I|split; [exact P0|split; [discriminate|]]]]].
        + rewrite EL. discriminate.
        + now rewrite Ep. }
    rewrite Er. symmetry in Ep. destruct (hi_start i) as [s|] eqn:Es.
    - destruct (ltb s (c_key c)) eqn:El.
      + (* everything lies above the start *)
        assert (lt s (c_key c)) as L by (apply ltb_lt; assumption).
        assert (Fall : Forall (fun x => D (fst x) /\ lt s (fst x)) (ent h (a :: fr ++ r2))).
        { cbn [ent flat_map]. rewrite Hx. cbn [app]. constructor; [split; assumption|]. apply Forall_forall. intros x I.
          destruct (Lt x I) as (Dx & Lx). split; [exact Dx|]. eapply tk_lt_trans; eauto. }
        destruct (start_loop_ends h s Ds (S (length (fr ++ r2))) a c fr (hi_paths i) r2 i (Nat.lt_succ_diag_r _) Ep eq_refl Hx Sx Ax Fall)
          as (i' & (n0 & H1) & H2).
        exists i'. split.
        * exists n0. intros n Hn. pose proof (H1 n Hn) as M. cbv beta in M.
          unfold i_filters, ibind at 1. cbn [iget]. rewrite Es. unfold ibind at 1. unfold ibind at 1. rewrite M. reflexivity.
        * left. split; [exact H2|]. rewrite EL. cbn [range_list]. rewrite El. reflexivity.
      + assert (~ lt s (c_key c)) as L by (intros L; apply ltb_lt in L; try assumption; congruence).
        destruct (END (PIt (hi_paths i) (hi_curr i) (hi_pos i) None (hi_end i))) as (n0 & i' & H1 & H2); auto.
        exists i'. split.
        * exists (S n0). intros [|n] Hn; [lia|]. unfold i_filters, ibind at 1. cbn [iget]. rewrite Es. unfold ibind at 1. unfold ibind at 1.
          rewrite (start_loop_stays h s n i a c Ds Dk Ep Hx L). unfold ibind at 1. cbn [iget]. unfold ibind at 1. cbn [iset iret].
          unfold ibind. cbn [iget hi_end]. apply H1. lia.
        * rewrite EL in *. cbn [range_list] in *. rewrite El. exact H2.
    - destruct (END i) as (n0 & i' & H1 & H2); auto. exists i'. split; [|exact H2].
      exists n0. intros n Hn. unfold i_filters, ibind at 1. cbn [iget]. rewrite Es. unfold ibind at 1. cbn [iret]. unfold ibind. cbn [iget]. apply H1. lia.
  Qed.

  Lemma badvance_to (h : heap) i rest n : in_dom D (ent h rest) -> ascending lt (ent h rest) -> bpos h i rest n ->
    exists i', runs (i_advance compare) h i i' (Ok tt) /\ bfront h i' rest n.
  Proof.
    intros Hd Ha [((C & P) & ->)|(En & Ds & De & [(P & C & A)|(P & S0 & a & c & fr & rest' & C & Hx & S & A & E)])].
    - exists i. split; [|left; split; [split; assumption|reflexivity]]. exists O. intros m _. unfold i_advance, ibind. cbn [iget]. rewrite C, P. reflexivity.
    - destruct (filters_to h i rest Hd Ha Ds De P C A) as (i' & (n0 & H1) & H2). exists i'. split; [|subst n; exact H2].
      exists n0. intros m Hm. unfold i_advance, ibind at 1. cbn [iget]. destruct (hi_curr i) as [a|]; [|congruence].
      unfold i_switch, ibind at 1. cbn [iget]. rewrite P. change (0 =? 0) with true. cbv iota. apply H1. exact Hm.
    - assert (SW : forall n, i_advance compare n h i = match c_r c with
        | Some _ => (ibind (iset (move (hi_paths i) (c_r c) i)) (fun _ => ibind (i_walk_left n) (fun _ => i_filters compare n))) h i
        | None => match hi_paths i with
            | p :: ps => (ibind (iset (move ps p i)) (fun _ => i_filters compare n)) h i
            | [] => Some (PIt [] None (hi_pos i) None None, Ok tt)
            end
        end).
      { intros m. unfold i_advance, ibind at 1. cbn [iget]. rewrite C. unfold i_switch, ibind at 1. cbn [iget]. rewrite P.
        change (1 =? 0) with false. change (1 =? 1) with true. cbv iota. unfold ibind at 1, iload. rewrite C, Hx.
        destruct (c_r c); [reflexivity|]. destruct (hi_paths i); [|reflexivity]. reflexivity. }
      destruct (c_r c) as [y|] eqn:Er.
      + set (i1 := move (hi_paths i) (Some y) i).
        destruct (walk_to h y fr S i1 rest') as (i2 & (n0 & Hr) & W1 & W2 & W3 & W4 & W5); [reflexivity|reflexivity|exact A|].
        rewrite <- E in W5. destruct (filters_to h i2 rest Hd Ha) as (i' & (n1 & H1) & H2); try assumption.
        { rewrite W1. exact Ds. }
        { rewrite W2. exact De. }
        exists i'. split.
        * exists (Nat.max n0 n1). intros m Hm. rewrite SW. unfold ibind at 1. cbn [iset]. fold i1. unfold ibind. rewrite Hr by lia. apply H1. lia.
        * rewrite W1, W2 in H2. cbn [i1 move hi_start hi_end] in H2. subst n. exact H2.
      + inv S. cbn [app] in *. inversion A as [Ep Erest|b cb fb ps r2 Hb Sb Ab Ep Erest].
        * rewrite <- Ep in SW. exists (PIt [] None (hi_pos i) None None). split; [exists O; intros m _; apply SW|].
          left. split; [split; reflexivity|]. cbn [ent flat_map]. now rewrite range_list_nil.
        * rewrite <- Ep in SW.
          destruct (filters_to h (move ps (Some b) i) rest') as (i' & (n1 & H1) & H2); try assumption; try reflexivity; try discriminate.
          { cbn [move hi_curr hi_paths]. rewrite <- Erest. econstructor; eauto. }
          exists i'. split.
          -- exists n1. intros m Hm. rewrite SW. unfold ibind. cbn [iset]. apply H1. exact Hm.
          -- cbn [move hi_start hi_end] in H2. rewrite Erest. exact H2.
  Qed.

  Lemma bhas_next_to (h : heap) i rest n : in_dom D (ent h rest) -> ascending lt (ent h rest) -> bpos h i rest n ->
    exists i', runs (i_has_next compare) h i i' (Ok (negb (n =? 0)%nat)) /\ bfront h i' rest n.
  Proof.
    intros Hd Ha H. destruct (badvance_to h i rest n Hd Ha H) as (i' & (n0 & Hr) & F). exists i'. split; [|exact F].
    exists n0. intros m Hm. unfold i_has_next, ibind. rewrite Hr by exact Hm. cbn [iget iret].
    destruct F as [((C & P) & ->)|(_ & Hn & _ & _ & _ & C & A)]; unfold i_is_empty.
    - rewrite C, P. reflexivity.
    - destruct (Nat.eqb_spec n 0); [congruence|]. destruct (hi_curr i') as [a|]; [|congruence]. destruct (hi_paths i'); reflexivity.
  Qed.

  Definition bshown (h : heap) (rest : list nat) (n : nat) : option (K * V) := match n with O => None | S _ => shown h rest end.

  Lemma bpeek_to (h : heap) i rest n : in_dom D (ent h rest) -> ascending lt (ent h rest) -> bpos h i rest n ->
    exists i', runs (i_peek compare) h i i' (Ok (bshown h rest n)) /\ bfront h i' rest n.
  Proof.
    intros Hd Ha H. destruct (badvance_to h i rest n Hd Ha H) as (i' & (n0 & Hr) & F). exists i'. split; [|exact F].
    exists n0. intros m Hm. unfold i_peek, ibind at 1. rewrite Hr by exact Hm. unfold ibind at 1. cbn [iget].
    destruct F as [((C & P) & ->)|(_ & Hn & _ & _ & _ & C & A)]; unfold i_is_empty.
    - rewrite C, P. reflexivity.
    - destruct n as [|n]; [congruence|]. destruct (hi_curr i') as [a|] eqn:E; [|congruence]. inv A. destruct (hi_paths i'); unfold ibind, iload; cbn [bshown shown];
        match goal with H : nth_error h a = Some _ |- _ => rewrite H end; reflexivity.
  Qed.

  Lemma bnext_to (h : heap) i rest n : in_dom D (ent h rest) -> ascending lt (ent h rest) -> bpos h i rest n ->
    exists i', runs (i_next compare) h i i' (Ok (bshown h rest n)) /\ bpos h i' (tl rest) (pred n) /\
      (hi_pos i' = 1 -> forall a, hi_curr i' = Some a -> rest = a :: tl rest).
  Proof.
    intros Hd Ha H. destruct (badvance_to h i rest n Hd Ha H) as (i' & (n0 & Hr) & F).
    destruct F as [((C & P) & ->)|(En & Hn & S0 & De & P & C & A)].
    - exists i'. split; [|split; [left; split; [split; assumption|reflexivity]|congruence]].
      exists n0. intros m Hm. unfold i_next, ibind at 1. rewrite Hr by exact Hm. unfold ibind at 1. cbn [iget]. unfold i_is_empty.
      rewrite C, P. reflexivity.
    - destruct n as [|n]; [congruence|]. destruct (hi_curr i') as [a|] eqn:E; [|congruence]. inversion A as [|a' ca fr ps r2 Hx Sa Aa Ea Erest]. subst a' ps.
      exists (PIt (hi_paths i') (hi_curr i') 1 (hi_start i') (hi_end i')). split; [|split].
      + exists n0. intros m Hm. unfold i_next, ibind at 1. rewrite Hr by exact Hm. unfold ibind at 1. cbn [iget]. unfold i_is_empty.
        rewrite E. assert (Hb : match hi_paths i' with [] => false | _ => false end = false) by (destruct (hi_paths i'); reflexivity).
        rewrite Hb. unfold ibind at 1, iload. rewrite Hx. unfold ibind. cbn [iset iret bshown shown]. rewrite Hx. reflexivity.
      + right. cbn [tl pred hi_start hi_end hi_pos hi_curr hi_paths]. rewrite S0. split; [|split; [exact I|split; [exact De|]]].
        * rewrite <- Erest in En. cbn [ent flat_map] in En. rewrite Hx in En. cbn [app range_list filter] in En. cbn [range_list].
          destruct (bef (hi_end i') (c_key ca, c_val ca)) eqn:Eb; [cbn [length] in En; injection En; auto|]. exfalso.
          rewrite <- Erest in Hd, Ha. cbn [ent flat_map] in Hd, Ha. rewrite Hx in Hd, Ha. cbn [app] in Hd, Ha.
          pose proof (filter_prefix (hi_end i') _ De Hd Ha) as X. cbn [filter] in X. rewrite Eb in X. unfold ent in X.
          change (flat_map _ (fr ++ r2)) with (ent h (fr ++ r2)) in *. rewrite <- En in X. cbn [firstn] in X.
          assert (Y : In (c_key ca, c_val ca) (filter (bef (hi_end i')) (ent h (fr ++ r2)))) by (rewrite X; now left).
          apply filter_In in Y. destruct Y as [_ Y]. congruence.
        * right. split; [reflexivity|]. split; [reflexivity|]. exists a, ca, fr, r2. auto.
      + cbn [hi_pos hi_curr]. rewrite E. intros _ x Hx'. inv Hx'. reflexivity.
  Qed.
End Range.
