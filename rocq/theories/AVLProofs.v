(** * Lemmas on the AVL tree: contents and balance of Put and Remove. *)
From Coq Require Import List ZArith Bool Lia.
From Verif Require Import Base BaseProofs AVLModel MapSpec AVLSpec.
Import ListNotations.
Local Open Scope Z_scope.

Section AVLProofs.
  Context {K V : Type} (equalb : K -> K -> res bool) (compare : K -> K -> res Z).
  Notation tree := (tree K V).

  (** Height as an integer. *)
  Fixpoint zh (t : tree) : Z :=
    match t with Leaf => 0 | Node _ _ _ l r => 1 + Z.max (zh l) (zh r) end.

  Lemma zh_height t : zh t = Z.of_nat (height t).
  Proof using Type. clear. induction t; cbn [zh height]; lia. Qed.

  Lemma zh_nonneg t : 0 <= zh t.
  Proof using Type. clear. rewrite zh_height. lia. Qed.

  Fixpoint bal (t : tree) : Prop :=
    match t with
    | Leaf => True
    | Node _ _ b l r => b = zh r - zh l /\ -1 <= b <= 1 /\ bal l /\ bal r
    end.

  Lemma bal_balanced t : bal t <-> balanced t.
  Proof using Type.
    clear. induction t as [|k v b l IHl r IHr]; cbn [bal balanced]; [tauto|].
    rewrite !zh_height, IHl, IHr. tauto.
  Qed.

  Definition tbal (t : tree) : Z := match t with Leaf => 0 | Node _ _ b _ _ => b end.

  (** What putBalance does to an over-balanced node whose heavy child leans. *)
  Lemma put_balance_ok k v b l r dir :
    b = zh r - zh l -> b = 2 * dirbal dir -> bal l -> bal r ->
    tbal (if dir then r else l) <> 0 ->
    exists t', put_balance (Node k v b l r) dir = Ok t' /\
      inorder t' = inorder (Node k v b l r) /\ bal t' /\ zh t' = zh (Node k v b l r) - 1.
  Proof using Type.
    clear. intros Eb Hb Bl Br Hn.
    destruct dir; cbn [dirbal] in Hb.
    - destruct r as [|rk rv rb rl rr]; [cbn in Hn; lia|].
      cbn [bal zh tbal] in *.
      unfold put_balance. cbn [get_link rbind get_balance dirbal].
      destruct (rb =? 1) eqn:E.
      + cbn [set_balance rbind set_link single opp negb get_link].
        eexists. split; [reflexivity|]. cbn [inorder bal zh]. split; [|lia || (repeat split; try tauto; lia)].
        rewrite <- app_assoc. reflexivity.
      + destruct rl as [|qk qv qb ql qr]; [cbn [zh] in *; pose proof (zh_nonneg rr); lia|].
        cbn [bal zh] in *.
        unfold adjust_balance. cbn [get_link rbind get_balance opp negb].
        destruct (qb =? 0) eqn:E1; [|destruct (qb =? 1) eqn:E2];
          cbn [set_balance rbind set_link single double opp negb get_link];
          (eexists; split; [reflexivity|]; cbn [inorder bal zh];
           split; [rewrite <- ?app_assoc; cbn [app]; rewrite <- ?app_assoc; reflexivity
                  | repeat split; try tauto; lia]).
    - destruct l as [|rk rv rb rl rr]; [cbn in Hn; lia|].
      cbn [bal zh tbal] in *.
      unfold put_balance. cbn [get_link rbind get_balance dirbal].
      destruct (rb =? -1) eqn:E.
      + cbn [set_balance rbind set_link single opp negb get_link].
        eexists. split; [reflexivity|]. cbn [inorder bal zh]. split; [|repeat split; try tauto; lia].
        rewrite <- ?app_assoc. reflexivity.
      + destruct rr as [|qk qv qb ql qr]; [cbn [zh] in *; pose proof (zh_nonneg rl); lia|].
        cbn [bal zh] in *.
        unfold adjust_balance. cbn [get_link rbind get_balance opp negb].
        destruct (qb =? 0) eqn:E1; [|destruct (qb =? -1) eqn:E2];
          cbn [set_balance rbind set_link single double opp negb get_link Z.opp];
          (eexists; split; [reflexivity|]; cbn [inorder bal zh];
           split; [rewrite <- ?app_assoc; cbn [app]; rewrite <- ?app_assoc; reflexivity
                  | repeat split; try tauto; lia]).
  Qed.

  (** What removeBalance does; [dir] is the side that lost height. *)
  Lemma remove_balance_ok k v b l r dir :
    b = zh r - zh l -> b = - (2 * dirbal dir) -> bal l -> bal r ->
    exists t' done, remove_balance (Node k v b l r) dir = Ok (t', done) /\
      inorder t' = inorder (Node k v b l r) /\ bal t' /\
      zh t' = zh (Node k v b l r) - (if done then 0 else 1).
  Proof using Type.
    clear. intros Eb Hb Bl Br.
    destruct dir; cbn [dirbal] in Hb.
    - destruct l as [|rk rv rb rl rr]; [cbn [zh] in *; pose proof (zh_nonneg r); lia|].
      cbn [bal zh] in *.
      unfold remove_balance. cbn [get_link rbind get_balance dirbal opp negb Z.opp].
      destruct (rb =? -1) eqn:E; [|destruct (rb =? 1) eqn:E0].
      + cbn [set_balance rbind set_link single opp negb get_link].
        do 2 eexists. split; [reflexivity|]. cbn [inorder bal zh]. split; [|repeat split; try tauto; lia].
        rewrite <- ?app_assoc. reflexivity.
      + destruct rr as [|qk qv qb ql qr]; [cbn [zh] in *; pose proof (zh_nonneg rl); lia|].
        cbn [bal zh] in *.
        unfold adjust_balance. cbn [get_link rbind get_balance opp negb].
        destruct (qb =? 0) eqn:E1; [|destruct (qb =? -1) eqn:E2];
          cbn [set_balance rbind set_link single double opp negb get_link Z.opp];
          (do 2 eexists; split; [reflexivity|]; cbn [inorder bal zh];
           split; [rewrite <- ?app_assoc; cbn [app]; rewrite <- ?app_assoc; reflexivity
                  | repeat split; try tauto; lia]).
      + cbn [set_balance rbind set_link single opp negb get_link].
        do 2 eexists. split; [reflexivity|]. cbn [inorder bal zh]. split; [|repeat split; try tauto; lia].
        rewrite <- ?app_assoc. reflexivity.
    - destruct r as [|rk rv rb rl rr]; [cbn [zh] in *; pose proof (zh_nonneg l); lia|].
      cbn [bal zh] in *.
      unfold remove_balance. cbn [get_link rbind get_balance dirbal opp negb Z.opp].
      destruct (rb =? 1) eqn:E; [|destruct (rb =? -1) eqn:E0].
      + cbn [set_balance rbind set_link single opp negb get_link].
        do 2 eexists. split; [reflexivity|]. cbn [inorder bal zh]. split; [|repeat split; try tauto; lia].
        rewrite <- ?app_assoc. reflexivity.
      + destruct rl as [|qk qv qb ql qr]; [cbn [zh] in *; pose proof (zh_nonneg rr); lia|].
        cbn [bal zh] in *.
        unfold adjust_balance. cbn [get_link rbind get_balance opp negb].
        destruct (qb =? 0) eqn:E1; [|destruct (qb =? 1) eqn:E2];
          cbn [set_balance rbind set_link single double opp negb get_link Z.opp];
          (do 2 eexists; split; [reflexivity|]; cbn [inorder bal zh];
           split; [rewrite <- ?app_assoc; cbn [app]; rewrite <- ?app_assoc; reflexivity
                  | repeat split; try tauto; lia]).
      + cbn [set_balance rbind set_link single opp negb get_link].
        do 2 eexists. split; [reflexivity|]. cbn [inorder bal zh]. split; [|repeat split; try tauto; lia].
        rewrite <- ?app_assoc. reflexivity.
  Qed.

  Lemma fop_app {E} (R : E -> E -> Prop) l1 l2 :
    ForallOrdPairs R (l1 ++ l2) <->
    ForallOrdPairs R l1 /\ ForallOrdPairs R l2 /\ (forall a b, In a l1 -> In b l2 -> R a b).
  Proof using Type.
    clear. induction l1 as [|x l1 IH]; cbn [app].
    - split; [intros H; repeat split; [constructor|exact H|intros ? ? []]|tauto].
    - split.
      + intros H. inversion H as [|x0 l0 Hx Hl Ex]; subst. apply IH in Hl. destruct Hl as (H1 & H2 & H3).
        rewrite Forall_app in Hx. destruct Hx as [Hx1 Hx2]. repeat split.
        * constructor; assumption.
        * exact H2.
        * intros a b [->|Ha] Hb; [|auto]. rewrite Forall_forall in Hx2. auto.
      + intros (H1 & H2 & H3). inversion H1 as [|x0 l0 Hx Hl Ex]; subst. constructor.
        * rewrite Forall_app. split; [exact Hx|]. apply Forall_forall. intros b Hb. apply H3; [now left|exact Hb].
        * apply IH. repeat split; [exact Hl|exact H2|]. intros a b Ha Hb. apply H3; [now right|exact Hb].
  Qed.

  Lemma fop_cons {E} (R : E -> E -> Prop) x l :
    ForallOrdPairs R (x :: l) <-> Forall (R x) l /\ ForallOrdPairs R l.
  Proof using Type. clear. split; [intros H; inversion H; tauto | intros []; constructor; assumption]. Qed.

  Lemma search_tree_ascending (lt : K -> K -> Prop) (t : tree) :
    (forall a b c, lt a b -> lt b c -> lt a c) ->
    search_tree lt t <-> ascending lt (inorder t).
  Proof using Type.
    clear. intros Htr. unfold ascending. induction t as [|k v b l IHl r IHr]; cbn [search_tree inorder].
    - split; [constructor|tauto].
    - rewrite fop_app, fop_cons, IHl, IHr. split.
      + intros (Hl & Hr & H1 & H2). repeat split; auto. intros x y Hx Hy.
        rewrite Forall_forall in Hl, Hr. destruct Hy as [<-|Hy]; [apply Hl, Hx|].
        eapply Htr; [apply Hl, Hx|apply (Hr y Hy)].
      + intros (H1 & (Hr & H2) & H3). repeat split; auto.
        apply Forall_forall. intros x Hx. apply (H3 x (k, v) Hx). now left.
  Qed.

  Section Order.
    Context (D : K -> Prop) (eqv lt : K -> K -> Prop) (TK : total_keys D eqv lt equalb compare).

    Definition in_dom (l : list (K * V)) : Prop := Forall (fun e => D (fst e)) l.

    Lemma lt_tr a b c : lt a b -> lt b c -> lt a c.
    Proof. exact (tk_lt_trans _ _ _ _ _ TK a b c). Qed.

    Lemma equal_dec a b : D a -> D b ->
      (equalb a b = Ok true /\ eqv a b) \/ (equalb a b = Ok false /\ ~ eqv a b).
    Proof.
      intros Ha Hb. destruct (tk_equal _ _ _ _ _ TK a b Ha Hb) as (e & -> & He).
      destruct e; [left|right]; split; auto; [now apply He|]. intros H. apply He in H. discriminate.
    Qed.

    (** The direction taken at a node whose key is not equal to the one sought. *)
    Lemma direction_ne a b : D a -> D b -> ~ eqv a b ->
      (direction compare a b = Ok true /\ lt a b) \/ (direction compare a b = Ok false /\ lt b a).
    Proof.
      intros Ha Hb Hn. destruct (tk_compare _ _ _ _ _ TK a b Ha Hb) as (c & Hc & Hl & Hg).
      unfold direction. rewrite Hc. cbn [rbind].
      destruct (tk_total _ _ _ _ _ TK a b Ha Hb) as [H|[H|H]].
      - left. split; [|exact H]. f_equal. apply Z.ltb_lt, Hl, H.
      - contradiction.
      - right. split; [|exact H]. f_equal. apply Z.ltb_ge. apply Hg in H. lia.
    Qed.

    Lemma direction_eq a b : D a -> D b -> eqv a b -> direction compare a b = Ok false.
    Proof.
      intros Ha Hb He. destruct (tk_compare _ _ _ _ _ TK a b Ha Hb) as (c & Hc & Hl & Hg).
      unfold direction. rewrite Hc. cbn [rbind]. f_equal. apply Z.ltb_ge.
      destruct (Z.le_gt_cases 0 c) as [H|H]; [exact H|].
      apply Hl in H. exfalso. eapply (tk_irrefl _ _ _ _ _ TK); eauto.
    Qed.

    (** Contents of the tree after Put, given the node it reported. *)
    Definition put_contents (key : K) (value : V) (o : option (K * V)) (before after : list (K * V)) : Prop :=
      exists l1 l2, after = l1 ++ (key, value) :: l2 /\
      match o with
      | Some (k0, v0) => eqv k0 key /\ before = l1 ++ (k0, v0) :: l2
      | None => before = l1 ++ l2 /\ Forall (fun e => lt (fst e) key) l1 /\ Forall (fun e => lt key (fst e)) l2
      end.

    Lemma asc_node k v b (l r : tree) : ascending lt (inorder (Node k v b l r)) ->
      ascending lt (inorder l) /\ ascending lt (inorder r) /\
      Forall (fun e => lt (fst e) k) (inorder l) /\ Forall (fun e => lt k (fst e)) (inorder r).
    Proof using Type.
      clear. unfold ascending. cbn [inorder]. rewrite fop_app, fop_cons.
      intros (H1 & (Hr & H2) & H3). repeat split; auto.
      apply Forall_forall. intros x Hx. apply (H3 x (k, v) Hx). now left.
    Qed.

    Lemma dom_node k v b (l r : tree) : in_dom (inorder (Node k v b l r)) ->
      D k /\ in_dom (inorder l) /\ in_dom (inorder r).
    Proof using Type.
      clear. unfold in_dom. cbn [inorder]. rewrite Forall_app. intros (H1 & H2). inversion H2; subst. auto.
    Qed.

    Lemma put_contents_left key value o a b k v (rest : list (K * V)) :
      lt key k -> Forall (fun e => lt k (fst e)) rest ->
      put_contents key value o a b ->
      put_contents key value o (a ++ (k, v) :: rest) (b ++ (k, v) :: rest).
    Proof.
      intros Hk Hr (l1 & l2 & -> & H). exists l1, (l2 ++ (k, v) :: rest).
      split; [now rewrite <- app_assoc|].
      destruct o as [[k0 v0]|].
      - destruct H as [He ->]. split; [exact He|]. now rewrite <- app_assoc.
      - destruct H as (-> & H1 & H2). split; [now rewrite <- app_assoc|]. split; [exact H1|].
        rewrite Forall_app. split; [exact H2|]. constructor; [exact Hk|].
        eapply Forall_impl; [|exact Hr]. intros e He. cbn beta in *; eapply lt_tr; eassumption.
    Qed.

    Lemma put_contents_right key value o a b k v (rest : list (K * V)) :
      lt k key -> Forall (fun e => lt (fst e) k) rest ->
      put_contents key value o a b ->
      put_contents key value o (rest ++ (k, v) :: a) (rest ++ (k, v) :: b).
    Proof.
      intros Hk Hr (l1 & l2 & -> & H). exists (rest ++ (k, v) :: l1), l2.
      split; [now rewrite <- app_assoc|].
      destruct o as [[k0 v0]|].
      - destruct H as [He ->]. split; [exact He|]. now rewrite <- app_assoc.
      - destruct H as (-> & H1 & H2). split; [now rewrite <- app_assoc|]. split; [|exact H2].
        rewrite Forall_app. split; [|constructor; [exact Hk|exact H1]].
        eapply Forall_impl; [|exact Hr]. intros e He. cbn beta in *; eapply lt_tr; eassumption.
    Qed.

    Lemma putR_ok key value t :
      D key -> in_dom (inorder t) -> ascending lt (inorder t) -> bal t ->
      exists t' o done, putR equalb compare key value t = Ok (t', o, done) /\
        put_contents key value o (inorder t) (inorder t') /\
        bal t' /\ zh t' = zh t + (if done then 0 else 1) /\
        (done = false -> t = Leaf \/ tbal t' <> 0).
    Proof.
      intros Dk. induction t as [|k v b l IHl r IHr]; intros Hd Ha Hb.
      - do 3 eexists. split; [reflexivity|]. cbn [inorder bal zh]. split; [|repeat split; try lia; tauto].
        exists [], []. repeat split; constructor.
      - apply dom_node in Hd. destruct Hd as (Dk0 & Dl & Dr).
        apply asc_node in Ha. destruct Ha as (Al & Ar & Ll & Lr).
        cbn [bal] in Hb. destruct Hb as (Eb & Rb & Bl & Br).
        cbn [putR]. destruct (equal_dec k key Dk0 Dk) as [[-> He]|[-> Hn]]; cbn [rbind].
        + do 3 eexists. split; [reflexivity|]. cbn [inorder bal zh]. split; [|repeat split; try lia; tauto].
          exists (inorder l), (inorder r). repeat split. exact He.
        + destruct (direction_ne k key Dk0 Dk Hn) as [[-> Hlt]|[-> Hlt]]; cbn [rbind].
          * destruct (IHr Dr Ar Br) as (t' & o & done & -> & Hc & Bt & Ht & Hx). cbn [rbind set_link].
            pose proof (put_contents_right _ _ _ _ _ k v (inorder l) Hlt Ll Hc) as HC.
            destruct done.
            { do 3 eexists. split; [reflexivity|]. cbn [inorder bal zh].
              split; [exact HC|]. repeat split; try lia; tauto. }
            cbn [set_balance rbind dirbal].
            destruct (b + 1 =? 0) eqn:E0; [|destruct ((b + 1 =? 1) || (b + 1 =? -1)) eqn:E1].
            { do 3 eexists. split; [reflexivity|]. cbn [inorder bal zh].
              split; [exact HC|]. repeat split; try lia; tauto. }
            { do 3 eexists. split; [reflexivity|]. cbn [inorder bal zh tbal].
              split; [exact HC|]. repeat split; try lia; try tauto. }
            destruct (put_balance_ok k v (b + 1) l t' true) as (t3 & -> & Hi & B3 & H3);
              [lia|cbn [dirbal]; lia|exact Bl|exact Br || exact Bt| |].
            { destruct (Hx eq_refl) as [->|H]; [|exact H]. cbn [zh] in *. pose proof (zh_nonneg l). lia. }
            cbn [rbind]. do 3 eexists. split; [reflexivity|]. split; [|split; [exact B3|split; [|discriminate]]].
            { rewrite Hi. exact HC. }
            { rewrite H3. cbn [zh]. lia. }
          * destruct (IHl Dl Al Bl) as (t' & o & done & -> & Hc & Bt & Ht & Hx). cbn [rbind set_link].
            pose proof (put_contents_left _ _ _ _ _ k v (inorder r) Hlt Lr Hc) as HC.
            destruct done.
            { do 3 eexists. split; [reflexivity|]. cbn [inorder bal zh].
              split; [exact HC|]. repeat split; try lia; tauto. }
            cbn [set_balance rbind dirbal].
            destruct (b + -1 =? 0) eqn:E0; [|destruct ((b + -1 =? 1) || (b + -1 =? -1)) eqn:E1].
            { do 3 eexists. split; [reflexivity|]. cbn [inorder bal zh].
              split; [exact HC|]. repeat split; try lia; tauto. }
            { do 3 eexists. split; [reflexivity|]. cbn [inorder bal zh tbal].
              split; [exact HC|]. repeat split; try lia; try tauto. }
            destruct (put_balance_ok k v (b + -1) t' r false) as (t3 & -> & Hi & B3 & H3);
              [lia|cbn [dirbal]; lia|exact Bt|exact Br| |].
            { destruct (Hx eq_refl) as [->|H]; [|exact H]. cbn [zh] in *. pose proof (zh_nonneg r). lia. }
            cbn [rbind]. do 3 eexists. split; [reflexivity|]. split; [|split; [exact B3|split; [|discriminate]]].
            { rewrite Hi. exact HC. }
            { rewrite H3. cbn [zh]. lia. }
    Qed.

    (** Contents after Remove. *)
    Definition remove_contents (key : K) (o : option (K * V)) (before after : list (K * V)) : Prop :=
      match o with
      | Some (k0, v0) => eqv k0 key /\ exists l1 l2, before = l1 ++ (k0, v0) :: l2 /\ after = l1 ++ l2
      | None => after = before /\ Forall (fun e => ~ eqv (fst e) key) before
      end.

    Lemma lt_not_eqv a b : lt a b -> ~ eqv a b.
    Proof. intros H E. eapply (tk_irrefl _ _ _ _ _ TK); eauto. Qed.
    Lemma lt_not_eqv' a b : lt a b -> ~ eqv b a.
    Proof. intros H E. exact (tk_irrefl _ _ _ _ _ TK _ _ (tk_sym _ _ _ _ _ TK _ _ E) H). Qed.

    Lemma heir_last (k : K) (v : V) b (l r : tree) : exists l0, inorder (Node k v b l r) = l0 ++ [heir k v r].
    Proof using Type.
      clear. revert k v b l. induction r as [|k' v' b' l' _ r' IH]; intros k v b l.
      - exists (inorder l). reflexivity.
      - cbn [heir]. destruct (IH k' v' b' l') as [l0 H0]. exists (inorder l ++ (k, v) :: l0).
        change (inorder (Node k v b l (Node k' v' b' l' r')))
          with (inorder l ++ (k, v) :: inorder (Node k' v' b' l' r')).
        rewrite H0, <- app_assoc. reflexivity.
    Qed.

    (** The last part of removeR after the recursive call returned [(child, o, done)] for side [dir]. *)
    Definition remove_finish (k : K) (v : V) (b : Z) (l r : tree) (dir : bool) (found : option (K * V))
        (child : tree) (done : bool) : res (tree * option (K * V) * bool) :=
      let? root1 := set_link (Node k v b l r) dir child in
      if done then Ok (root1, found, true)
      else
        let b' := b - dirbal dir in
        let? root2 := set_balance root1 b' in
        if (b' =? 1) || (b' =? -1) then Ok (root2, found, true)
        else if b' =? 0 then Ok (root2, found, false)
        else
          let? (root3, done') := remove_balance root2 dir in
          Ok (root3, found, done').

    Lemma remove_finish_ok (k : K) (v : V) b (l r : tree) (dir : bool) found child (done : bool) :
      bal (Node k v b l r) -> bal child ->
      zh child = zh (if dir then r else l) - (if done then 0 else 1) ->
      exists t' (done' : bool), remove_finish k v b l r dir found child done = Ok (t', found, done') /\
        inorder t' = (if dir then inorder l ++ (k, v) :: inorder child
                      else inorder child ++ (k, v) :: inorder r) /\
        bal t' /\ zh t' = zh (Node k v b l r) - (if done' then 0 else 1).
    Proof using Type.
      clear. cbn [bal]. intros (Eb & Rb & Bl & Br) Bc Hz. unfold remove_finish.
      destruct dir; cbn [set_link rbind dirbal].
      - destruct done.
        { do 2 eexists. split; [reflexivity|]. cbn [inorder bal zh]. repeat split; try tauto; lia. }
        cbn [set_balance rbind].
        destruct ((b - 1 =? 1) || (b - 1 =? -1)) eqn:E1; [|destruct (b - 1 =? 0) eqn:E0].
        { do 2 eexists. split; [reflexivity|]. cbn [inorder bal zh]. repeat split; try tauto; lia. }
        { do 2 eexists. split; [reflexivity|]. cbn [inorder bal zh]. repeat split; try tauto; lia. }
        destruct (remove_balance_ok k v (b - 1) l child true) as (t' & d & -> & Hi & Bt & Ht);
          [lia|cbn [dirbal]; lia|exact Bl|exact Bc|].
        cbn [rbind]. do 2 eexists. split; [reflexivity|]. rewrite Hi, Ht. cbn [inorder zh].
        repeat split; try tauto. lia.
      - destruct done.
        { do 2 eexists. split; [reflexivity|]. cbn [inorder bal zh]. repeat split; try tauto; lia. }
        cbn [set_balance rbind].
        destruct ((b - -1 =? 1) || (b - -1 =? -1)) eqn:E1; [|destruct (b - -1 =? 0) eqn:E0].
        { do 2 eexists. split; [reflexivity|]. cbn [inorder bal zh]. repeat split; try tauto; lia. }
        { do 2 eexists. split; [reflexivity|]. cbn [inorder bal zh]. repeat split; try tauto; lia. }
        destruct (remove_balance_ok k v (b - -1) child r false) as (t' & d & -> & Hi & Bt & Ht);
          [lia|cbn [dirbal]; lia|exact Bc|exact Br|].
        cbn [rbind]. do 2 eexists. split; [reflexivity|]. rewrite Hi, Ht. cbn [inorder zh].
        repeat split; try tauto. lia.
    Qed.

    (** The same function with the last part factored out. *)
    Lemma removeR_node key k v b l r :
      removeR equalb compare key (Node k v b l r) =
      (let? e := equalb k key in
       if e then
         match l, r with
         | Leaf, _ => Ok (r, Some (k, v), false)
         | _, Leaf => Ok (l, Some (k, v), false)
         | Node lk lv _ _ lr, _ =>
             let (hk, hv) := heir lk lv lr in
             let? dir := direction compare hk hk in
             let? (child, node, done) := (if dir then removeR equalb compare hk r else removeR equalb compare hk l) in
             remove_finish hk hv b l r dir (Some (k, v)) child done
         end
       else
         let? dir := direction compare k key in
         let? (child, node, done) := (if dir then removeR equalb compare key r else removeR equalb compare key l) in
         remove_finish k v b l r dir node child done).
    Proof using Type. clear. reflexivity. Qed.

    Lemma fop_last_unique (l1 l2 l0 : list (K * V)) x y :
      ascending lt (l0 ++ [x]) -> l0 ++ [x] = l1 ++ y :: l2 -> eqv (fst y) (fst x) -> l1 = l0 /\ y = x /\ l2 = [].
    Proof.
      intros Ha E He. destruct l2 as [|z l2] using rev_ind.
      - apply app_inj_tail in E. destruct E as [-> ->]. auto.
      - exfalso. clear IHl2. rewrite app_comm_cons, app_assoc in E. apply app_inj_tail in E. destruct E as [-> ->].
        unfold ascending in Ha. apply fop_app in Ha. destruct Ha as (_ & _ & H).
        assert (H1 : lt (fst y) (fst z)).
        { apply H; [apply in_or_app; right; now left | now left]. }
        eapply (tk_irrefl _ _ _ _ _ TK); eauto.
    Qed.

    Lemma removeR_ok key t :
      D key -> in_dom (inorder t) -> ascending lt (inorder t) -> bal t ->
      exists t' o done, removeR equalb compare key t = Ok (t', o, done) /\
        remove_contents key o (inorder t) (inorder t') /\
        bal t' /\ zh t' = zh t - (if done then 0 else 1).
    Proof.
      revert key. induction t as [|k v b l IHl r IHr]; intros key Dk Hd Ha Hb.
      - do 3 eexists. split; [reflexivity|]. cbn [inorder bal zh remove_contents].
        repeat split; try lia. constructor.
      - pose proof (dom_node _ _ _ _ _ Hd) as (Dk0 & Dl & Dr).
        pose proof (asc_node _ _ _ _ _ Ha) as (Al & Ar & Ll & Lr).
        pose proof Hb as (Eb & Rb & Bl & Br).
        rewrite removeR_node.
        destruct (equal_dec k key Dk0 Dk) as [[-> He]|[-> Hn]]; cbn [rbind].
        + destruct l as [|lk lv lb ll lr].
          { do 3 eexists. split; [reflexivity|]. cbn [inorder zh remove_contents].
            split; [|split; [exact Br|]].
            - split; [exact He|]. exists [], (inorder r). split; reflexivity.
            - cbn [zh] in *. pose proof (zh_nonneg r). lia. }
          destruct r as [|rk rv rb rl rr].
          { do 3 eexists. split; [reflexivity|].
            split; [|split; [exact Bl|]].
            - cbn [remove_contents]. split; [exact He|].
              exists (inorder (Node lk lv lb ll lr)), []. split; [reflexivity|now rewrite app_nil_r].
            - cbn [zh] in *. pose proof (zh_nonneg ll). pose proof (zh_nonneg lr). lia. }
          destruct (heir_last lk lv lb ll lr) as [l0 Hh]. destruct (heir lk lv lr) as [hk hv] eqn:Eh.
          set (L := Node lk lv lb ll lr) in *. set (R := Node rk rv rb rl rr) in *.
          assert (Dh : D hk).
          { unfold in_dom in Dl. rewrite Hh in Dl. rewrite Forall_app in Dl. destruct Dl as [_ Dl].
            inversion Dl; subst. assumption. }
          rewrite (direction_eq hk hk Dh Dh (tk_refl _ _ _ _ _ TK _ Dh)). cbn [rbind].
          destruct (IHl hk Dh Dl Al Bl) as (t' & o & done & -> & Hc & Bt & Ht). cbn [rbind].
          destruct (remove_finish_ok hk hv b L R false (Some (k, v)) t' done) as (t2 & d2 & -> & Hi & B2 & H2);
            [exact Hb|exact Bt|exact Ht|].
          do 3 eexists. split; [reflexivity|]. split; [|split; [exact B2|exact H2]].
          split; [exact He|]. exists (inorder L), (inorder R). split; [reflexivity|].
          rewrite Hi. rewrite Hh. rewrite <- app_assoc. cbn [app]. f_equal.
          destruct o as [[k0 v0]|]; cbn [remove_contents] in Hc.
          * destruct Hc as (He0 & l1 & l2 & E1 & E2). rewrite Hh in E1.
            destruct (fop_last_unique l1 l2 l0 (hk, hv) (k0, v0)) as (-> & _ & ->);
              [rewrite <- Hh; exact Al|exact E1|exact He0|]. now rewrite app_nil_r in E2.
          * destruct Hc as (_ & Hc). exfalso. rewrite Hh, Forall_app in Hc. destruct Hc as [_ Hc].
            inversion Hc as [|x0 y0 Hx _ E1]; subst. apply Hx. eapply (tk_refl _ _ _ _ _ TK); eauto.
        + destruct (direction_ne k key Dk0 Dk Hn) as [[-> Hlt]|[-> Hlt]]; cbn [rbind].
          * destruct (IHr key Dk Dr Ar Br) as (t' & o & done & -> & Hc & Bt & Ht). cbn [rbind].
            destruct (remove_finish_ok k v b l r true o t' done) as (t2 & d2 & -> & Hi & B2 & H2);
              [exact Hb|exact Bt|exact Ht|].
            do 3 eexists. split; [reflexivity|]. split; [|split; [exact B2|exact H2]].
            rewrite Hi. cbn [inorder]. destruct o as [[k0 v0]|]; cbn [remove_contents] in *.
            { destruct Hc as (He0 & l1 & l2 & -> & ->). split; [exact He0|].
              exists (inorder l ++ (k, v) :: l1), l2. split; now rewrite <- app_assoc. }
            { destruct Hc as (-> & Hc). split; [reflexivity|]. rewrite Forall_app. split; [|constructor; assumption].
              eapply Forall_impl; [|exact Ll]. intros e Hx. cbn in Hx. apply lt_not_eqv. cbn beta in *; eapply lt_tr; eassumption. }
          * destruct (IHl key Dk Dl Al Bl) as (t' & o & done & -> & Hc & Bt & Ht). cbn [rbind].
            destruct (remove_finish_ok k v b l r false o t' done) as (t2 & d2 & -> & Hi & B2 & H2);
              [exact Hb|exact Bt|exact Ht|].
            do 3 eexists. split; [reflexivity|]. split; [|split; [exact B2|exact H2]].
            rewrite Hi. cbn [inorder]. destruct o as [[k0 v0]|]; cbn [remove_contents] in *.
            { destruct Hc as (He0 & l1 & l2 & -> & ->). split; [exact He0|].
              exists l1, (l2 ++ (k, v) :: inorder r). split; now rewrite <- app_assoc. }
            { destruct Hc as (-> & Hc). split; [reflexivity|]. rewrite Forall_app. split; [assumption|].
              constructor; [assumption|].
              eapply Forall_impl; [|exact Lr]. intros e Hx. cbn in Hx. apply lt_not_eqv'. cbn beta in *; eapply lt_tr; eassumption. }
    Qed.

    (** Lookup. *)
    Definition get_result (key : K) (o : option (K * V)) (l : list (K * V)) : Prop :=
      match o with
      | Some (k0, v0) => eqv k0 key /\ In (k0, v0) l
      | None => Forall (fun e => ~ eqv (fst e) key) l
      end.

    Lemma getR_ok key t :
      D key -> in_dom (inorder t) -> ascending lt (inorder t) ->
      exists o, getR equalb compare key t = Ok o /\ get_result key o (inorder t).
    Proof.
      intros Dk. induction t as [|k v b l IHl r IHr]; intros Hd Ha.
      - exists None. split; [reflexivity|constructor].
      - apply dom_node in Hd. destruct Hd as (Dk0 & Dl & Dr).
        apply asc_node in Ha. destruct Ha as (Al & Ar & Ll & Lr).
        cbn [getR]. destruct (equal_dec k key Dk0 Dk) as [[-> He]|[-> Hn]]; cbn [rbind].
        + eexists. split; [reflexivity|]. split; [exact He|]. cbn [inorder]. apply in_or_app. right. now left.
        + destruct (direction_ne k key Dk0 Dk Hn) as [[-> Hlt]|[-> Hlt]]; cbn [rbind].
          * destruct (IHr Dr Ar) as (o & -> & Hg). exists o. split; [reflexivity|]. cbn [inorder].
            destruct o as [[k0 v0]|]; cbn [get_result] in *.
            { split; [tauto|]. apply in_or_app. right. right. tauto. }
            { rewrite Forall_app. split; [|constructor; assumption].
              eapply Forall_impl; [|exact Ll]. intros e Hx. cbn in Hx. apply lt_not_eqv. cbn beta in *; eapply lt_tr; eassumption. }
          * destruct (IHl Dl Al) as (o & -> & Hg). exists o. split; [reflexivity|]. cbn [inorder].
            destruct o as [[k0 v0]|]; cbn [get_result] in *.
            { split; [tauto|]. apply in_or_app. left. tauto. }
            { rewrite Forall_app. split; [assumption|]. constructor; [assumption|].
              eapply Forall_impl; [|exact Lr]. intros e Hx. cbn in Hx. apply lt_not_eqv'. cbn beta in *; eapply lt_tr; eassumption. }
    Qed.
  End Order.
End AVLProofs.
