(** * Lemmas on the tree iterator. *)
From Coq Require Import List ZArith Bool Lia.
From Verif Require Import Base BaseProofs AVLModel MapSpec AVLSpec AVLProofs.
Import ListNotations.
Local Open Scope Z_scope.

Section Iter.
  Context {K V : Type} (compare : K -> K -> res Z).
  Notation tree := (tree K V).
  Notation iter := (iter K V).

  (** The entry of a node on the stack and everything to its right. *)
  Definition from_node (n : tree) : list (K * V) :=
    match n with Leaf => [] | Node k v _ _ r => (k, v) :: inorder r end.
  Definition is_node (n : tree) : Prop := n <> Leaf.

  (** What a state still has to deliver, ignoring the bounds. *)
  Definition rest (i : iter) : list (K * V) :=
    (if it_pos i =? 0 then from_node (it_curr i) else tl (from_node (it_curr i))) ++ flat_map from_node (it_paths i).

  Definition wf (i : iter) : Prop :=
    (it_pos i = 0 \/ it_pos i = 1) /\ Forall is_node (it_paths i) /\ (it_curr i = Leaf -> it_paths i = []).

  Lemma walk_left_spec n : forall ps, Forall is_node ps -> n <> Leaf ->
    exists ps' c, walk_left ps n = (ps', c) /\ Forall is_node ps' /\ c <> Leaf /\
      from_node c ++ flat_map from_node ps' = inorder n ++ flat_map from_node ps.
  Proof using Type.
    clear. induction n as [|k v b l IHl r IHr]; intros ps Hp Hn; [congruence|].
    destruct l as [|lk lv lb ll lr].
    - exists ps, (Node k v b Leaf r). repeat split; auto.
    - destruct (IHl (Node k v b (Node lk lv lb ll lr) r :: ps)) as (ps' & c & E & Hp' & Hc & Hr).
      + constructor; [discriminate|exact Hp].
      + discriminate.
      + exists ps', c. repeat split; auto. rewrite Hr. cbn [flat_map from_node inorder].
        rewrite <- !app_assoc. cbn [app]. reflexivity.
  Qed.

  Lemma ended_wf i s e : wf i -> wf (mk_iter [] Leaf (it_pos i) s e).
  Proof using Type. clear. intros (H & _ & _). repeat split; cbn; auto. Qed.

  Lemma ended_rest pos s e : rest (mk_iter [] Leaf pos s e) = [].
  Proof using Type. clear. unfold rest. cbn. now destruct (pos =? 0). Qed.

  (** advance without bounds moves to a state whose current node is the next entry. *)
  Definition moved (i : iter) (i1 : iter) : Prop :=
    wf i1 /\ rest i1 = rest i /\ (it_curr i1 = Leaf \/ it_pos i1 = 0).

  (** advance before the filters: a node to filter, or the end. *)
  Lemma advance_cases i : wf i ->
    (rest i = [] /\ advance compare i =
        Ok (if match it_curr i with Leaf => true | _ => false end then i else mk_iter [] Leaf (it_pos i) None None)) \/
    (exists i1, advance compare i = advance_filters compare i1 /\ wf i1 /\ rest i1 = rest i /\
       it_curr i1 <> Leaf /\ it_pos i1 = 0 /\ it_start i1 = it_start i /\ it_end i1 = it_end i).
  Proof using Type.
    clear. intros (Hpos & Hp & Hc). destruct i as [ps c pos s e]. cbn [it_paths it_curr it_pos it_start it_end] in *.
    unfold advance, rest. cbn [it_paths it_curr it_pos it_start it_end].
    destruct c as [|k v b l r].
    - rewrite (Hc eq_refl). left. split; [|reflexivity]. now destruct (pos =? 0).
    - destruct Hpos as [-> | ->]; cbn [Z.eqb].
      + right. eexists. split; [reflexivity|]. cbn [it_paths it_curr it_pos it_start it_end Z.eqb].
        repeat split; auto; discriminate.
      + replace (1 =? 0) with false by reflexivity. replace (1 =? 1) with true by reflexivity.
        cbn [get_link rbind from_node tl it_paths it_curr it_pos it_start it_end].
        destruct r as [|rk rv rb rl rr].
        * destruct ps as [|p ps].
          -- left. split; reflexivity.
          -- right. eexists. split; [reflexivity|]. cbn [it_paths it_curr it_pos it_start it_end].
             inversion Hp as [|x y Hx Hy Ex]; subst. repeat split; auto; intros Hx'; now elim Hx.
        * destruct (walk_left_spec (Node rk rv rb rl rr) ps Hp) as (ps' & c' & -> & Hp' & Hc' & Hr); [discriminate|].
          right. eexists. split; [reflexivity|]. cbn [it_paths it_curr it_pos it_start it_end].
          rewrite Z.eqb_refl. repeat split; auto. cbn; intros; congruence.
  Qed.

  Lemma is_empty_curr i : wf i -> it_is_empty i = match it_curr i with Leaf => true | _ => false end.
  Proof using Type.
    clear. intros (_ & _ & Hc). unfold it_is_empty. destruct (it_paths i), (it_curr i); try reflexivity.
    now specialize (Hc eq_refl).
  Qed.

  Lemma rest_curr i : wf i -> it_curr i = Leaf -> rest i = [].
  Proof using Type.
    clear. intros (_ & _ & Hc) E. unfold rest. rewrite (Hc E), E. now destruct (it_pos i =? 0).
  Qed.

  (** *** Iterating with an abstract specification of advance *)

  (** [A i l]: the calls on state [i] behave as those on list [l]. A simulation: advance keeps [l] and
      exposes its head; taking the head leaves the tail. *)
  Lemma simulation (A : iter -> list (K * V) -> Prop) :
    (forall i l, A i l -> exists i1, advance compare i = Ok i1 /\ A i1 l /\ wf i1 /\
       match l with
       | [] => it_curr i1 = Leaf
       | (k, v) :: l' => (exists b lt r, it_curr i1 = Node k v b lt r) /\
           A (mk_iter (it_paths i1) (it_curr i1) 1 (it_start i1) (it_end i1)) l'
       end) ->
    forall cs i l, A i l -> it_run compare i cs = Ok (list_iter l cs).
  Proof using Type.
    clear. intros Hadv. induction cs as [|c cs IH]; intros i l HA; [reflexivity|].
    destruct (Hadv i l HA) as (i1 & E & HA1 & W & Hl).
    cbn [it_run]. destruct c; unfold it_step, it_has_next, it_peek, it_next; rewrite E; cbn [rbind];
      rewrite (is_empty_curr i1 W).
    - rewrite (IH i1 l HA1). cbn [rbind list_iter]. destruct l as [|[k v] l'].
      + rewrite Hl. reflexivity.
      + destruct Hl as [(b & lt & r & ->) _]. reflexivity.
    - destruct l as [|[k v] l'].
      + rewrite Hl. cbn [rbind]. rewrite (IH i1 [] HA1). reflexivity.
      + destruct Hl as [(b & lt & r & ->) _]. cbn [rbind]. rewrite (IH i1 _ HA1). reflexivity.
    - destruct l as [|[k v] l'].
      + rewrite Hl. cbn [rbind]. rewrite (IH i1 [] HA1). reflexivity.
      + destruct Hl as [(b & lt & r & Ec) HA2]. rewrite Ec in *. cbn [node_entry rbind].
        rewrite (IH _ l' HA2). reflexivity.
  Qed.

  Lemma rest_head i k v l : wf i -> it_pos i = 0 -> rest i = (k, v) :: l ->
    exists b lt r, it_curr i = Node k v b lt r.
  Proof using Type.
    clear. intros W Hp Hr. destruct (it_curr i) as [|k0 v0 b lt r] eqn:E.
    - now rewrite (rest_curr i W E) in Hr.
    - unfold rest in Hr. rewrite Hp, E in Hr. cbn in Hr. injection Hr as -> -> _. eauto.
  Qed.

  Lemma rest_taken i : wf i -> it_pos i = 0 -> it_curr i <> Leaf ->
    wf (mk_iter (it_paths i) (it_curr i) 1 (it_start i) (it_end i)) /\
    rest (mk_iter (it_paths i) (it_curr i) 1 (it_start i) (it_end i)) = tl (rest i).
  Proof using Type.
    clear. intros (_ & Hp & Hc) H0 Hn. split.
    - repeat split; cbn; auto.
    - unfold rest. cbn [it_paths it_curr it_pos]. rewrite H0. destruct (it_curr i); [congruence|reflexivity].
  Qed.

  Lemma rest_nonempty i : wf i -> it_pos i = 0 -> it_curr i <> Leaf -> rest i <> [].
  Proof using Type.
    clear. intros W H0 Hn. unfold rest. rewrite H0. destruct (it_curr i); [congruence|discriminate].
  Qed.

  (** *** Iteration over everything *)
  Definition full_state (i : iter) (l : list (K * V)) : Prop :=
    wf i /\ it_start i = None /\ it_end i = None /\ rest i = l.

  Lemma full_advance i l : full_state i l -> exists i1, advance compare i = Ok i1 /\ full_state i1 l /\ wf i1 /\
       match l with
       | [] => it_curr i1 = Leaf
       | (k, v) :: l' => (exists b lt r, it_curr i1 = Node k v b lt r) /\
           full_state (mk_iter (it_paths i1) (it_curr i1) 1 (it_start i1) (it_end i1)) l'
       end.
  Proof using Type.
    clear. intros (W & Hs & He & Hr). destruct (advance_cases i W) as [[E0 E]|(i1 & E & W1 & R1 & N1 & P1 & S1 & E1)].
    - rewrite E. rewrite E0 in Hr. subst l. destruct (it_curr i) eqn:Ec.
      + exists i. repeat split; auto; apply W.
      + eexists. split; [reflexivity|]. repeat split; cbn; auto; try apply W.
        unfold rest. cbn. now destruct (it_pos i =? 0).
    - rewrite E. unfold advance_filters. rewrite S1, Hs. cbn [rbind]. rewrite E1, He.
      exists i1. split; [reflexivity|]. split; [repeat split; try apply W1; congruence|]. split; [exact W1|].
      destruct l as [|[k v] l'].
      + exfalso. rewrite Hr in R1. revert R1. now apply rest_nonempty.
      + split; [apply (rest_head i1 k v l'); congruence|].
        destruct (rest_taken i1 W1 P1 N1) as [W2 R2]. repeat split; cbn [it_start it_end]; try apply W2; try congruence.
        rewrite R2, R1, Hr. reflexivity.
  Qed.

  Lemma new_iter_full (t : tree) : exists i, new_iter compare t None None = Ok i /\ full_state i (inorder t).
  Proof using Type.
    clear. unfold new_iter. destruct t as [|k v b l r].
    - cbn [walk_left]. eexists. split; [reflexivity|]. repeat split; cbn; auto.
    - destruct (walk_left_spec (Node k v b l r) [] (Forall_nil _)) as (ps & c & -> & Hp & Hc & Hr); [discriminate|].
      eexists. split; [reflexivity|]. repeat split; cbn [it_paths it_curr it_pos it_start it_end]; auto.
      + congruence.
      + unfold rest. cbn [it_paths it_curr it_pos]. rewrite Z.eqb_refl, Hr. now rewrite app_nil_r.
  Qed.

  Lemma full_iteration (t : tree) cs :
    (let? i := new_iter compare t None None in it_run compare i cs) = Ok (list_iter (inorder t) cs).
  Proof using Type.
    clear. destruct (new_iter_full t) as (i & -> & Hi). cbn [rbind].
    apply (simulation full_state full_advance). exact Hi.
  Qed.

  (** *** Iteration with bounds *)
  Section Range.
    Context (equalb : K -> K -> res bool) (D : K -> Prop) (eqv lt : K -> K -> Prop).
    Context (TK : total_keys D eqv lt equalb compare).
    Context (ltb : K -> K -> bool) (Hltb : forall a b, D a -> D b -> (ltb a b = true <-> lt a b)).

    Definition before_end (e : option K) (x : K * V) : bool :=
      match e with None => true | Some k => ltb (fst x) k end.

    Definition in_dom_opt (o : option K) : Prop := match o with None => True | Some k => D k end.

    Lemma cmp_neg a b : D a -> D b -> exists c, compare a b = Ok c /\ (c <? 0) = ltb a b /\ (0 <? c) = ltb b a.
    Proof.
      intros Ha Hb. destruct (tk_compare _ _ _ _ _ TK a b Ha Hb) as (c & -> & H1 & H2).
      exists c. split; [reflexivity|]. split; apply eq_true_iff_eq; rewrite Z.ltb_lt, Hltb by assumption; assumption.
    Qed.

    Lemma cmp_ge a b : D a -> D b -> exists c, compare a b = Ok c /\ (0 <=? c) = negb (ltb a b).
    Proof.
      intros Ha Hb. destruct (cmp_neg a b Ha Hb) as (c & -> & H & _). exists c. split; [reflexivity|].
      rewrite <- H. lia.
    Qed.

    (** The nodes of the stack, from the current one on, have ascending keys. *)
    Lemma end_loop_ok e : D e -> forall ps c pos, Forall is_node ps -> c <> Leaf ->
      in_dom D (from_node c ++ flat_map from_node ps) ->
      ascending lt (from_node c ++ flat_map from_node ps) ->
      exists o, end_loop compare e ps c pos = Ok o /\
        match filter (before_end (Some e)) (from_node c ++ flat_map from_node ps) with
        | [] => o = None
        | _ => o = Some (ps, c, pos)
        end.
    Proof.
      intros De. induction ps as [|p ps IH]; intros c pos Hp Hc Hd Ha.
      - destruct c as [|k v b l r]; [congruence|]. cbn [flat_map] in *. rewrite app_nil_r in *.
        cbn [from_node] in *. cbn [end_loop].
        unfold in_dom in Hd. apply Forall_cons_iff in Hd. destruct Hd as [Dk Hd]. cbn in Dk.
        destruct (cmp_ge k e Dk De) as (cc & -> & Hcc). cbn [rbind]. rewrite Hcc.
        unfold ascending in Ha. rewrite fop_cons in Ha. destruct Ha as [Ha _].
        cbn [filter before_end fst]. destruct (ltb k e) eqn:El; cbn [negb].
        + eexists. split; reflexivity.
        + exists None. split; [reflexivity|].
          replace (filter (before_end (Some e)) (inorder r)) with (@nil (K * V)); [reflexivity|].
          symmetry. apply filter_none. intros x Hx. cbn [before_end].
          destruct (ltb (fst x) e) eqn:E2; [|reflexivity]. exfalso.
          rewrite Forall_forall in Ha, Hd. specialize (Ha x Hx). cbn [fst] in Ha.
          apply Hltb in E2; [|apply Hd, Hx|exact De].
          assert (lt k e) by (eapply (lt_tr equalb compare D eqv lt TK); eauto).
          apply Hltb in H; try assumption. congruence.
      - destruct c as [|k v b l r]; [congruence|]. inversion Hp as [|x y Hx Hy Ex]; subst.
        pose proof Hd as Hd0. pose proof Ha as Ha0.
        unfold in_dom in Hd0. cbn [from_node app] in Hd0. apply Forall_cons_iff in Hd0. destruct Hd0 as [Dk Hd0]. cbn in Dk.
        unfold ascending in Ha0. cbn [from_node app] in Ha0. rewrite fop_cons in Ha0. destruct Ha0 as [Ha0 Ha1].
        cbn [end_loop]. destruct (cmp_ge k e Dk De) as (cc & -> & Hcc). cbn [rbind]. rewrite Hcc.
        cbn [from_node app filter before_end fst]. destruct (ltb k e) eqn:El; cbn [negb].
        + eexists. split; reflexivity.
        + rewrite Forall_app in Hd0. rewrite fop_app in Ha1.
          destruct (IH p 0 Hy Hx) as (o & -> & Ho).
          * cbn [flat_map] in Hd0. apply Hd0.
          * cbn [flat_map] in Ha1. apply Ha1.
          * assert (N : forall x, In x (inorder r ++ flat_map from_node (p :: ps)) -> before_end (Some e) x = false).
            { intros x Hx'. cbn [before_end]. destruct (ltb (fst x) e) eqn:E2; [|reflexivity]. exfalso.
              rewrite <- Forall_app in Hd0. rewrite Forall_forall in Ha0, Hd0. specialize (Ha0 x Hx'). cbn [fst] in Ha0.
              apply Hltb in E2; [|apply Hd0, Hx'|exact De].
              assert (H : lt k e) by (eapply (lt_tr equalb compare D eqv lt TK); eauto).
              apply Hltb in H; try assumption. congruence. }
            rewrite (filter_none _ _ N).
            rewrite filter_none in Ho; [subst o; eexists; split; reflexivity|].
            intros x Hx'. apply N. cbn [flat_map]. apply in_app_iff. now right.
    Qed.

    (** The start filter when [s] is below the current key and all that follow: everything is dropped. *)
    Lemma start_loop_none s : D s -> forall ps c pos, Forall is_node ps -> c <> Leaf ->
      Forall (fun x => D (fst x) /\ lt s (fst x)) (from_node c ++ flat_map from_node ps) ->
      start_loop compare s ps c pos = Ok None.
    Proof.
      intros Ds. induction ps as [|p ps IH]; intros c; induction c as [|k v b l _ r IHr]; intros pos Hp Hc F;
        try congruence; cbn [start_loop].
      - pose proof F as F0. cbn [from_node app] in F0. apply Forall_cons_iff in F0. destruct F0 as [[Dk Hk] F0]. cbn in Dk, Hk.
        destruct (cmp_neg s k Ds Dk) as (cc & -> & Hcc & _). cbn [rbind]. rewrite Hcc.
        replace (ltb s k) with true by (symmetry; apply Hltb; assumption).
        destruct r as [|rk rv rb rl rr]; [reflexivity|].
        apply (IHr pos Hp); [discriminate|].
        rewrite Forall_app in F0. destruct F0 as [F1 F2]. rewrite Forall_app. split; [|exact F2].
        cbn [inorder from_node] in *. rewrite Forall_app in F1. apply F1.
      - pose proof F as F0. cbn [from_node app] in F0. apply Forall_cons_iff in F0. destruct F0 as [[Dk Hk] F0]. cbn in Dk, Hk.
        destruct (cmp_neg s k Ds Dk) as (cc & -> & Hcc & _). cbn [rbind]. rewrite Hcc.
        replace (ltb s k) with true by (symmetry; apply Hltb; assumption).
        destruct r as [|rk rv rb rl rr].
        + cbn [inorder app flat_map] in F0. inversion Hp as [|x y Hx Hy Ex]; subst. apply IH; assumption.
        + apply (IHr pos Hp); [discriminate|].
          rewrite Forall_app in F0. destruct F0 as [F1 F2]. rewrite Forall_app. split; [|exact F2].
          cbn [inorder from_node] in *. rewrite Forall_app in F1. apply F1.
    Qed.

    (** State of a bounded iteration: what it will deliver. *)
    Definition range_list (s e : option K) (l : list (K * V)) : list (K * V) :=
      match s, l with
      | Some s, (k, _) :: _ => if ltb s k then [] else filter (before_end e) l
      | _, _ => filter (before_end e) l
      end.

    Definition range_state (i : iter) (l : list (K * V)) : Prop :=
      wf i /\ in_dom D (rest i) /\ ascending lt (rest i) /\ in_dom_opt (it_start i) /\ in_dom_opt (it_end i) /\
      (it_start i <> None -> it_pos i = 0 \/ rest i = []) /\
      l = range_list (it_start i) (it_end i) (rest i).

    Lemma range_list_nil s e : range_list s e [] = [].
    Proof using Type. clear. now destruct s. Qed.

    Lemma end_filter i : wf i -> it_start i = None -> it_pos i = 0 -> it_curr i <> Leaf ->
      in_dom D (rest i) -> ascending lt (rest i) -> in_dom_opt (it_end i) ->
      exists i1, advance_filters compare i = Ok i1 /\ range_state i1 (filter (before_end (it_end i)) (rest i)) /\
        match filter (before_end (it_end i)) (rest i) with
        | [] => it_curr i1 = Leaf
        | (k, v) :: l' => (exists b lt r, it_curr i1 = Node k v b lt r) /\
            range_state (mk_iter (it_paths i1) (it_curr i1) 1 (it_start i1) (it_end i1)) l'
        end.
    Proof.
      intros W Hs P N Hd Ha De. unfold advance_filters. rewrite Hs. cbn [rbind].
      assert (Keep : range_state i (filter (before_end (it_end i)) (rest i))).
      { repeat split; try apply W; auto; rewrite ?Hs; cbn; auto; congruence. }
      assert (Head : forall k v l', filter (before_end (it_end i)) (rest i) = (k, v) :: l' ->
         before_end (it_end i) (hd (k, v) (rest i)) = true ->
         (exists b lt r, it_curr i = Node k v b lt r) /\
         range_state (mk_iter (it_paths i) (it_curr i) 1 (it_start i) (it_end i)) l').
      { intros k v l' Hf Hb. destruct (rest i) as [|x l] eqn:Er; [discriminate|]. cbn [hd] in Hb.
        cbn [filter] in Hf. rewrite Hb in Hf. injection Hf as -> Hf. split.
        - apply (rest_head i k v l W P Er).
        - destruct (rest_taken i W P N) as [W2 R2]. rewrite Er in R2. cbn [tl] in R2.
          unfold range_state. rewrite R2. cbn [it_start it_end]. rewrite Hs.
          unfold in_dom in Hd. apply Forall_cons_iff in Hd.
          unfold ascending in Ha. rewrite fop_cons in Ha.
          repeat split; try apply W2; try apply Hd; try apply Ha; auto; cbn; auto; congruence. }
      destruct (it_end i) as [e|] eqn:Ee.
      - cbn in De.
        assert (Er : rest i = from_node (it_curr i) ++ flat_map from_node (it_paths i)).
        { unfold rest. now rewrite P. }
        destruct (end_loop_ok e De (it_paths i) (it_curr i) (it_pos i)) as (o & -> & Ho);
          [apply W|exact N|now rewrite <- Er|now rewrite <- Er|].
        rewrite <- Er in Ho. cbn [rbind].
        destruct (filter (before_end (Some e)) (rest i)) as [|[k v] l'] eqn:Ef.
        + subst o. eexists. split; [reflexivity|]. split; [|reflexivity].
          unfold range_state. cbn [it_start it_end it_pos it_curr it_paths].
          rewrite ended_rest, Hs.
          split; [now apply ended_wf|]. repeat split; try constructor; cbn; auto; congruence.
        + subst o. exists i. split; [destruct i; cbn in *; subst; reflexivity|].
          split; [exact Keep|]. rewrite ?Ee. apply (Head k v l' eq_refl).
          destruct (rest i) as [|x l] eqn:Er0; [discriminate|]. cbn [hd].
          destruct (before_end (Some e) x) eqn:Hx; [reflexivity|]. exfalso.
          cbn [filter] in Ef. rewrite Hx in Ef.
          assert (Hin : In (k, v) (filter (before_end (Some e)) l)) by (rewrite Ef; now left).
          apply filter_In in Hin. destruct Hin as [Hin Hb]. cbn [before_end fst] in *.
          unfold in_dom in Hd. apply Forall_cons_iff in Hd. destruct Hd as [Dx Hd]. rewrite Forall_forall in Hd.
          unfold ascending in Ha. rewrite fop_cons in Ha. destruct Ha as [Ha _]. rewrite Forall_forall in Ha.
          specialize (Ha _ Hin). specialize (Hd _ Hin). cbn [fst] in *.
          apply Hltb in Hb; try assumption.
          assert (H : lt (fst x) e) by (eapply (lt_tr equalb compare D eqv lt TK); eauto).
          apply Hltb in H; try assumption. congruence.
      - exists i. split; [reflexivity|]. split; [exact Keep|].
        destruct (filter (before_end None) (rest i)) as [|[k v] l'] eqn:Ef.
        + exfalso. apply (rest_nonempty i W P N). rewrite filter_all in Ef; [exact Ef|reflexivity].
        + rewrite ?Ee. apply (Head k v l' eq_refl). reflexivity.
    Qed.

    Lemma range_advance i l : range_state i l -> exists i1, advance compare i = Ok i1 /\ range_state i1 l /\ wf i1 /\
       match l with
       | [] => it_curr i1 = Leaf
       | (k, v) :: l' => (exists b lt r, it_curr i1 = Node k v b lt r) /\
           range_state (mk_iter (it_paths i1) (it_curr i1) 1 (it_start i1) (it_end i1)) l'
       end.
    Proof.
      intros (W & Hd & Ha & Ds & De & Hp & ->).
      destruct (advance_cases i W) as [[E0 E]|(i1 & E & W1 & R1 & N1 & P1 & S1 & E1)].
      - rewrite E, E0, range_list_nil.
        destruct (it_curr i) eqn:Ec.
        + exists i. split; [reflexivity|]. split; [|split; [exact W|exact Ec]].
          unfold range_state. rewrite E0, range_list_nil. repeat split; try apply W; auto; constructor.
        + eexists. split; [reflexivity|]. split; [|split; [|reflexivity]].
          * unfold range_state. cbn [it_start it_end it_pos it_curr it_paths].
            rewrite ended_rest.
            split; [now apply ended_wf|]. repeat split; try constructor; cbn; auto; congruence.
          * now apply ended_wf.
      - rewrite E. rewrite <- R1 in *. rewrite <- S1 in *. rewrite <- E1 in *.
        destruct (it_start i1) as [s|] eqn:Es.
        + assert (Er : rest i1 = from_node (it_curr i1) ++ flat_map from_node (it_paths i1)).
          { unfold rest. now rewrite P1. }
          destruct (rest i1) as [|[k v] l] eqn:Er1; [exfalso; revert Er1; now apply rest_nonempty|].
          pose proof Hd as Hd0. unfold in_dom in Hd0. apply Forall_cons_iff in Hd0. destruct Hd0 as [Dk Hd0]. cbn in Dk.
          pose proof Ha as Ha0. unfold ascending in Ha0. rewrite fop_cons in Ha0. destruct Ha0 as [Ha0 _].
          cbn [range_list]. destruct (ltb s k) eqn:El.
          * unfold advance_filters. rewrite Es.
            rewrite (start_loop_none s Ds (it_paths i1) (it_curr i1) (it_pos i1)); [|apply W1|exact N1|].
            { cbn [rbind]. eexists. split; [reflexivity|]. split; [|split; [|reflexivity]].
              - unfold range_state. cbn [it_start it_end it_pos it_curr it_paths].
                rewrite ended_rest, range_list_nil.
                split; [now apply ended_wf|]. repeat split; try constructor; cbn; auto.
              - now apply ended_wf. }
            { rewrite <- Er. apply Hltb in El; try assumption. constructor; [cbn; auto|].
              rewrite Forall_forall in *. intros x Hx. split; [apply Hd0, Hx|].
              eapply (lt_tr equalb compare D eqv lt TK); [exact El|]. apply (Ha0 x Hx). }
          * destruct (rest_head i1 k v l W1 P1 Er1) as (b & lf & r & Ec).
            set (i2 := mk_iter (it_paths i1) (it_curr i1) (it_pos i1) None (it_end i1)).
            assert (EF : advance_filters compare i1 = advance_filters compare i2).
            { unfold advance_filters. rewrite Es. unfold i2. cbn [it_start it_paths it_curr it_pos it_end rbind].
              rewrite Ec. destruct (it_paths i1); cbn [start_loop].
              - destruct (cmp_neg s k Ds Dk) as (cc & -> & Hcc & _). cbn [rbind]. rewrite Hcc, El. reflexivity.
              - destruct (cmp_neg s k Ds Dk) as (cc & -> & Hcc & _). cbn [rbind]. rewrite Hcc, El. reflexivity. }
            rewrite EF.
            assert (R2 : rest i2 = (k, v) :: l) by exact Er1.
            destruct (end_filter i2) as (i3 & -> & H3 & H4); try exact W1; try assumption; try reflexivity;
              try (rewrite R2; assumption).
            rewrite R2 in H3, H4. cbn [it_end i2] in H3, H4.
            exists i3. split; [reflexivity|]. split; [exact H3|]. split; [apply H3|exact H4].
        + destruct (end_filter i1) as (i3 & -> & H3 & H4); try assumption.
          exists i3. split; [reflexivity|]. cbn [range_list]. split; [exact H3|]. split; [apply H3|exact H4].
    Qed.

    (** Creating the iterator. *)
    Lemma new_iter_range (t : tree) s e :
      in_dom D (inorder t) -> ascending lt (inorder t) -> in_dom_opt s -> in_dom_opt e ->
      match s, e with
      | Some a, Some b => if ltb b a then new_iter compare t s e = Panic
                          else exists i, new_iter compare t s e = Ok i /\ range_state i (range_list s e (inorder t))
      | _, _ => exists i, new_iter compare t s e = Ok i /\ range_state i (range_list s e (inorder t))
      end.
    Proof.
      intros Hd Ha Ds De.
      assert (St : exists ps c, walk_left [] t = (ps, c) /\ range_state (mk_iter ps c 0 s e) (range_list s e (inorder t))).
      { destruct t as [|k v b l r].
        - exists [], Leaf. split; [reflexivity|]. repeat split; cbn; auto; constructor.
        - destruct (walk_left_spec (Node k v b l r) [] (Forall_nil _)) as (ps & c & -> & Hp & Hc & Hr); [discriminate|].
          cbn [flat_map] in Hr. rewrite app_nil_r in Hr.
          exists ps, c. split; [reflexivity|]. unfold range_state.
          assert (Er : rest (mk_iter ps c 0 s e) = inorder (Node k v b l r)).
          { unfold rest. cbn [it_paths it_curr it_pos]. now rewrite Z.eqb_refl. }
          rewrite Er. repeat split; cbn [it_paths it_curr it_pos it_start it_end]; auto. congruence. }
      destruct St as (ps & c & Ew & St). unfold new_iter. rewrite Ew.
      destruct s as [a|], e as [b|]; try (eexists; split; [reflexivity|exact St]).
      destruct (cmp_neg a b Ds De) as (cc & -> & _ & Hcc). cbn [rbind]. rewrite Hcc.
      destruct (ltb b a); [reflexivity|]. eexists; split; [reflexivity|exact St].
    Qed.

    Lemma range_iteration (t : tree) s e cs :
      in_dom D (inorder t) -> ascending lt (inorder t) -> in_dom_opt s -> in_dom_opt e ->
      (let? i := new_iter compare t s e in it_run compare i cs) =
      match s, e with
      | Some a, Some b => if ltb b a then Panic else Ok (list_iter (range_list s e (inorder t)) cs)
      | _, _ => Ok (list_iter (range_list s e (inorder t)) cs)
      end.
    Proof.
      intros Hd Ha Ds De. pose proof (new_iter_range t s e Hd Ha Ds De) as H.
      destruct s as [a|], e as [b|]; try destruct (ltb b a).
      1: now rewrite H.
      all: destruct H as (i & -> & Hi); cbn [rbind]; now apply (simulation range_state range_advance).
    Qed.
  End Range.

  (** SortedMapIterator/SortedSetIterator over a state that behaves as a list. *)
  Lemma strict_simulation (A : iter -> list (K * V) -> Prop) :
    (forall i l, A i l -> exists i1, advance compare i = Ok i1 /\ A i1 l /\ wf i1 /\
       match l with
       | [] => it_curr i1 = Leaf
       | (k, v) :: l' => (exists b lt r, it_curr i1 = Node k v b lt r) /\
           A (mk_iter (it_paths i1) (it_curr i1) 1 (it_start i1) (it_end i1)) l'
       end) ->
    forall cs i l, A i l -> asserted_run compare i cs = strict_list_iter l cs.
  Proof using Type.
    clear. intros Hadv. induction cs as [|c cs IH]; intros i l HA; [reflexivity|].
    destruct (Hadv i l HA) as (i1 & E & HA1 & W & Hl).
    cbn [asserted_run]. unfold asserted_step.
    destruct c; unfold it_step, it_has_next, it_peek, it_next; rewrite E; cbn [rbind];
      rewrite (is_empty_curr i1 W).
    - rewrite (IH i1 l HA1). cbn [rbind strict_list_iter]. destruct l as [|[k v] l'].
      + rewrite Hl. reflexivity.
      + destruct Hl as [(b & lt & r & ->) _]. reflexivity.
    - destruct l as [|[k v] l'].
      + rewrite Hl. reflexivity.
      + destruct Hl as [(b & lt & r & ->) _]. cbn [rbind]. rewrite (IH i1 _ HA1). reflexivity.
    - destruct l as [|[k v] l'].
      + rewrite Hl. reflexivity.
      + destruct Hl as [(b & lt & r & Ec) HA2]. rewrite Ec in *. cbn [node_entry rbind].
        rewrite (IH _ l' HA2). reflexivity.
  Qed.

  Lemma strict_full_iteration (t : tree) cs :
    (let? i := new_iter compare t None None in asserted_run compare i cs) = strict_list_iter (inorder t) cs.
  Proof using Type.
    clear. destruct (new_iter_full t) as (i & -> & Hi). cbn [rbind].
    apply (strict_simulation full_state full_advance). exact Hi.
  Qed.
End Iter.
