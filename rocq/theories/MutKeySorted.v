(** * What calls do on trees and tables whose keys may be out of place. *)
From Coq Require Import List NArith ZArith Bool Lia Permutation.
From Verif Require Import Base BaseProofs AVLModel AVLSpec MapSpec MapProofs AVLProofs AVLHistory HashModel HashSpec HashProofs
  MutKeyModel MutKeySpec MutKeyProofs MutKeyClass.
Import ListNotations.
Open Scope Z_scope.

(** ** Trees, for methods that answer at all *)
Section Tree.
  Context {K V : Type} (equalb : K -> K -> res bool) (compare : K -> K -> res Z) (D : K -> Prop).
  Context (He : forall a b, D a -> D b -> exists e, equalb a b = Ok e) (Hc : forall a b, D a -> D b -> exists c, compare a b = Ok c).
  Notation tree := (tree K V).

  Definition found (key : K) (o : option (K * V)) (l : list (K * V)) : Prop :=
    match o with Some (k, v) => In (k, v) l /\ equalb k key = Ok true | None => True end.
  Definition put_any (key : K) (value : V) (o : option (K * V)) (l l' : list (K * V)) : Prop :=
    exists l1 l2, l = l1 ++ match o with Some e => [e] | None => [] end ++ l2 /\ l' = l1 ++ (key, value) :: l2.

  Lemma put_any_left key value o a b (c : list (K * V)) : put_any key value o a b -> put_any key value o (a ++ c) (b ++ c).
  Proof using Type. clear. intros (l1 & l2 & -> & ->). exists l1, (l2 ++ c). rewrite <- !app_assoc. cbn [app]. auto. Qed.
  Lemma put_any_right key value o a b (c : list (K * V)) : put_any key value o a b -> put_any key value o (c ++ a) (c ++ b).
  Proof using Type. clear. intros (l1 & l2 & -> & ->). exists (c ++ l1), l2. rewrite <- !app_assoc. auto. Qed.
  Lemma dom_parts k v b (l r : tree) : in_dom D (inorder (Node k v b l r)) -> D k /\ in_dom D (inorder l) /\ in_dom D (inorder r).
  Proof using Type. clear. unfold in_dom. cbn [inorder]. rewrite Forall_app, Forall_cons_iff. cbn [fst]. tauto. Qed.
  Lemma direction_any a b : D a -> D b -> exists d, direction compare a b = Ok d.
  Proof using Hc. intros Ha Hb. unfold direction. destruct (Hc a b Ha Hb) as (c & ->). eexists. reflexivity. Qed.

  Lemma putR_any key value (t : tree) : D key -> in_dom D (inorder t) -> bal t ->
    exists t' o done, putR equalb compare key value t = Ok (t', o, done) /\ put_any key value o (inorder t) (inorder t') /\ found key o (inorder t) /\
      bal t' /\ zh t' = zh t + (if done then 0 else 1) /\ (done = false -> t = Leaf \/ tbal t' <> 0).
  Proof using He Hc.
    intros Dk. induction t as [|k v b l IHl r IHr]; intros Hd Hb.
    - do 3 eexists. split; [reflexivity|]. cbn [inorder bal zh found]. split; [exists [], []; split; reflexivity|]. repeat split; try lia; tauto.
    - apply dom_parts in Hd. destruct Hd as (Dk0 & Dl & Dr). cbn [bal] in Hb. destruct Hb as (Eb & Rb & Bl & Br).
      cbn [putR]. destruct (He k key Dk0 Dk) as ([|] & Ee); rewrite Ee; cbn [rbind].
      + do 3 eexists. split; [reflexivity|]. cbn [inorder bal zh found]. split; [exists (inorder l), (inorder r); split; reflexivity|].
        split; [split; [apply in_app_iff; right; now left|exact Ee]|]. repeat split; try lia; tauto.
      + destruct (direction_any k key Dk0 Dk) as ([|] & ->); cbn [rbind].
        * destruct (IHr Dr Br) as (t' & o & done & -> & Hp & Hf & Bt & Ht & Hx). cbn [rbind set_link].
          pose proof (put_any_right _ _ _ _ _ (inorder l ++ [(k, v)]) Hp) as HP. rewrite <- !app_assoc in HP. cbn [app] in HP.
          assert (HF : found key o (inorder l ++ (k, v) :: inorder r)).
          { destruct o as [[k0 v0]|]; [|exact Logic.I]. destruct Hf as (I & E). split; [|exact E]. apply in_app_iff. right. now right. }
          destruct done.
          { do 3 eexists. split; [reflexivity|]. cbn [inorder bal zh]. split; [exact HP|]. split; [exact HF|]. repeat split; try lia; tauto. }
          cbn [set_balance rbind dirbal].
          destruct (b + 1 =? 0) eqn:E0; [|destruct ((b + 1 =? 1) || (b + 1 =? -1)) eqn:E1].
          { do 3 eexists. split; [reflexivity|]. cbn [inorder bal zh]. split; [exact HP|]. split; [exact HF|]. repeat split; try lia; tauto. }
          { do 3 eexists. split; [reflexivity|]. cbn [inorder bal zh tbal]. split; [exact HP|]. split; [exact HF|]. repeat split; try lia; try tauto. }
          destruct (put_balance_ok k v (b + 1) l t' true) as (t3 & -> & Hi & B3 & H3);
            [lia|cbn [dirbal]; lia|exact Bl|exact Bt| |].
          { destruct (Hx eq_refl) as [->|H]; [|exact H]. cbn [zh] in *. pose proof (zh_nonneg l). lia. }
          cbn [rbind]. do 3 eexists. split; [reflexivity|]. split; [rewrite Hi; exact HP|]. split; [exact HF|]. split; [exact B3|split; [|discriminate]].
          rewrite H3. cbn [zh]. lia.
        * destruct (IHl Dl Bl) as (t' & o & done & -> & Hp & Hf & Bt & Ht & Hx). cbn [rbind set_link].
          pose proof (put_any_left _ _ _ _ _ ((k, v) :: inorder r) Hp) as HP.
          assert (HF : found key o (inorder l ++ (k, v) :: inorder r)).
          { destruct o as [[k0 v0]|]; [|exact Logic.I]. destruct Hf as (I & E). split; [|exact E]. apply in_app_iff. now left. }
          destruct done.
          { do 3 eexists. split; [reflexivity|]. cbn [inorder bal zh]. split; [exact HP|]. split; [exact HF|]. repeat split; try lia; tauto. }
          cbn [set_balance rbind dirbal].
          destruct (b + -1 =? 0) eqn:E0; [|destruct ((b + -1 =? 1) || (b + -1 =? -1)) eqn:E1].
          { do 3 eexists. split; [reflexivity|]. cbn [inorder bal zh]. split; [exact HP|]. split; [exact HF|]. repeat split; try lia; tauto. }
          { do 3 eexists. split; [reflexivity|]. cbn [inorder bal zh tbal]. split; [exact HP|]. split; [exact HF|]. repeat split; try lia; try tauto. }
          destruct (put_balance_ok k v (b + -1) t' r false) as (t3 & -> & Hi & B3 & H3);
            [lia|cbn [dirbal]; lia|exact Bt|exact Br| |].
          { destruct (Hx eq_refl) as [->|H]; [|exact H]. cbn [zh] in *. pose proof (zh_nonneg r). lia. }
          cbn [rbind]. do 3 eexists. split; [reflexivity|]. split; [rewrite Hi; exact HP|]. split; [exact HF|]. split; [exact B3|split; [|discriminate]].
          rewrite H3. cbn [zh]. lia.
  Qed.

  Lemma removeR_any (t : tree) : forall key, D key -> in_dom D (inorder t) -> bal t ->
    exists t' o done, removeR equalb compare key t = Ok (t', o, done) /\ incl (inorder t') (inorder t) /\ found key o (inorder t) /\
      (o = None -> inorder t' = inorder t) /\ bal t' /\ zh t' = zh t - (if done then 0 else 1).
  Proof using He Hc.
    induction t as [|k v b l IHl r IHr]; intros key Dk Hd Hb.
    - do 3 eexists. split; [reflexivity|]. cbn [inorder bal zh found]. repeat split; try lia. apply incl_refl.
    - destruct (dom_parts _ _ _ _ _ Hd) as (Dk0 & Dl & Dr). pose proof Hb as (Eb & Rb & Bl & Br).
      assert (Il : incl (inorder l) (inorder (Node k v b l r))) by (cbn [inorder]; intros e I; apply in_app_iff; now left).
      assert (Ir : incl (inorder r) (inorder (Node k v b l r))) by (cbn [inorder]; intros e I; apply in_app_iff; right; now right).
      assert (Ik : In (k, v) (inorder (Node k v b l r))) by (cbn [inorder]; apply in_app_iff; right; now left).
      rewrite removeR_node. destruct (He k key Dk0 Dk) as ([|] & Ee); rewrite Ee; cbn [rbind].
      + assert (F : found key (Some (k, v)) (inorder (Node k v b l r))) by (split; [exact Ik|exact Ee]).
        destruct l as [|lk lv lb ll lr].
        { do 3 eexists. split; [reflexivity|]. split; [exact Ir|]. split; [exact F|]. split; [discriminate|]. split; [exact Br|].
          cbn [zh] in *. pose proof (zh_nonneg r). lia. }
        destruct r as [|rk rv rb rl rr].
        { do 3 eexists. split; [reflexivity|]. split; [exact Il|]. split; [exact F|]. split; [discriminate|]. split; [exact Bl|].
          cbn [zh] in *. pose proof (zh_nonneg ll). pose proof (zh_nonneg lr). lia. }
        destruct (heir_last lk lv lb ll lr) as [l0 Hh]. destruct (heir lk lv lr) as [hk hv] eqn:Eh.
        set (L := Node lk lv lb ll lr) in *. set (R := Node rk rv rb rl rr) in *.
        assert (Ih : In (hk, hv) (inorder L)) by (rewrite Hh; apply in_app_iff; right; now left).
        assert (Dh : D hk) by (unfold in_dom in Dl; rewrite Forall_forall in Dl; exact (Dl _ Ih)).
        destruct (direction_any hk hk Dh Dh) as (dir & ->). cbn [rbind].
        destruct (IHr hk Dh Dr Br) as (t1 & o1 & d1 & R1 & I1 & _ & _ & B1 & Z1). destruct (IHl hk Dh Dl Bl) as (t2 & o2 & d2 & R2 & I2 & _ & _ & B2 & Z2).
        destruct dir; [rewrite R1|rewrite R2]; cbn [rbind].
        * destruct (remove_finish_ok hk hv b L R true (Some (k, v)) t1 d1) as (t3 & d3 & -> & Hi & B3 & Z3); [exact Hb|exact B1|exact Z1|].
          do 3 eexists. split; [reflexivity|]. split; [|split; [exact F|split; [discriminate|split; [exact B3|exact Z3]]]].
          rewrite Hi. intros e I. apply in_app_iff in I. destruct I as [I|[<-|I]]; auto.
        * destruct (remove_finish_ok hk hv b L R false (Some (k, v)) t2 d2) as (t3 & d3 & -> & Hi & B3 & Z3); [exact Hb|exact B2|exact Z2|].
          do 3 eexists. split; [reflexivity|]. split; [|split; [exact F|split; [discriminate|split; [exact B3|exact Z3]]]].
          rewrite Hi. intros e I. apply in_app_iff in I. destruct I as [I|[<-|I]]; auto.
      + destruct (direction_any k key Dk0 Dk) as ([|] & ->); cbn [rbind].
        * destruct (IHr key Dk Dr Br) as (t1 & o & d1 & -> & I1 & F1 & N1 & B1 & Z1). cbn [rbind].
          destruct (remove_finish_ok k v b l r true o t1 d1) as (t3 & d3 & -> & Hi & B3 & Z3); [exact Hb|exact B1|exact Z1|].
          do 3 eexists. split; [reflexivity|]. split; [|split; [|split; [|split; [exact B3|exact Z3]]]].
          -- rewrite Hi. intros e I. apply in_app_iff in I. destruct I as [I|[<-|I]]; auto.
          -- destruct o as [[k0 v0]|]; [|exact Logic.I]. destruct F1 as (I & E). split; auto.
          -- intros E. rewrite Hi, (N1 E). reflexivity.
        * destruct (IHl key Dk Dl Bl) as (t1 & o & d1 & -> & I1 & F1 & N1 & B1 & Z1). cbn [rbind].
          destruct (remove_finish_ok k v b l r false o t1 d1) as (t3 & d3 & -> & Hi & B3 & Z3); [exact Hb|exact B1|exact Z1|].
          do 3 eexists. split; [reflexivity|]. split; [|split; [|split; [|split; [exact B3|exact Z3]]]].
          -- rewrite Hi. intros e I. apply in_app_iff in I. destruct I as [I|[<-|I]]; auto.
          -- destruct o as [[k0 v0]|]; [|exact Logic.I]. destruct F1 as (I & E). split; auto.
          -- intros E. rewrite Hi, (N1 E). reflexivity.
  Qed.

  Lemma getR_any key (t : tree) : D key -> in_dom D (inorder t) -> exists o, getR equalb compare key t = Ok o /\ found key o (inorder t).
  Proof using He Hc.
    intros Dk. induction t as [|k v b l IHl r IHr]; intros Hd; [exists None; split; [reflexivity|exact Logic.I]|].
    destruct (dom_parts _ _ _ _ _ Hd) as (Dk0 & Dl & Dr). cbn [getR inorder]. destruct (He k key Dk0 Dk) as ([|] & Ee); rewrite Ee; cbn [rbind].
    - eexists. split; [reflexivity|]. split; [apply in_app_iff; right; now left|exact Ee].
    - destruct (direction_any k key Dk0 Dk) as ([|] & ->); cbn [rbind].
      + destruct (IHr Dr) as (o & -> & F). exists o. split; [reflexivity|]. destruct o as [[k0 v0]|]; [|exact Logic.I]. destruct F as (I & E).
        split; [apply in_app_iff; right; now right|exact E].
      + destruct (IHl Dl) as (o & -> & F). exists o. split; [reflexivity|]. destruct o as [[k0 v0]|]; [|exact Logic.I]. destruct F as (I & E).
        split; [apply in_app_iff; now left|exact E].
  Qed.

  Lemma avl_step_any (t : avl K V) op : D (op_key op) -> in_dom D (inorder (avl_root t)) -> bal (avl_root t) ->
    exists t' n, avl_step equalb compare t op = Ok (t', n) /\ bal (avl_root t') /\ found (op_key op) n (inorder (avl_root t)) /\
      forall e, In e (inorder (avl_root t')) -> op = MPut (fst e) (snd e) \/ In e (inorder (avl_root t)).
  Proof using He Hc.
    intros Dk Hd Hb. destruct op as [k v|k|k]; cbn [op_key] in *.
    - destruct (putR_any k v (avl_root t) Dk Hd Hb) as (r & o & d & E & (l1 & l2 & L1 & L2) & F & B & _).
      cbn [avl_step]. rewrite avl_put_root, E. cbn [rbind]. do 2 eexists. split; [reflexivity|]. cbn [avl_root]. split; [exact B|]. split; [exact F|].
      rewrite L1, L2. intros e I. rewrite !in_app_iff in *. cbn [In] in I. destruct I as [I|[<-|I]]; auto.
    - destruct (removeR_any (avl_root t) k Dk Hd Hb) as (r & o & d & E & I & F & _ & B & _).
      cbn [avl_step avl_remove]. rewrite E. cbn [rbind]. do 2 eexists. split; [reflexivity|]. cbn [avl_root]. split; [exact B|]. split; [exact F|]. auto.
    - destruct (getR_any k (avl_root t) Dk Hd) as (o & E & F). cbn [avl_step]. unfold avl_get. rewrite E. cbn [rbind]. do 2 eexists. split; [reflexivity|]. auto.
  Qed.
End Tree.

(** ** Runs with any changes *)
Section Honest.
  Context {X V T : Type} (eqv : X -> X -> Prop) (D : X -> Prop).
  Context (call : list X -> T -> mop nat (option V) -> res (T * option V)) (entries : T -> list (nat * option V)) (inv : list X -> T -> Prop).
  Context (step : forall w t op, Forall D w -> (op_key op < length w)%nat -> inv w t -> exists t' n, call w t op = Ok (t', result n) /\ inv w t' /\
    match n with Some (k, v) => at_now eqv w (op_key op) k /\ In (k, v) (entries t) | None => True end /\
    forall e, In e (entries t') -> op = MPut (fst e) (snd e) \/ In e (entries t)).
  Context (keep : forall w e t, inv w t -> inv (@after X V w e) t).

  Lemma play_honest (evs : list (event X V)) t0 : inv [] t0 -> entries t0 = [] -> proper [] evs -> Forall D (contents evs) ->
    exists t vs, play call [] t0 evs = Ok (t, vs) /\ length vs = length (calls [] evs) /\ inv (world [] evs) t /\
      (forall i v, In (i, v) (entries t) -> In (Call (MPut i v)) evs) /\
      forall e1 op e2 x v, evs = e1 ++ Call op :: e2 -> nth_error (world [] e1) (op_key op) = Some x -> nth_error vs (length (calls [] e1)) = Some (Some v) ->
        exists i y, In (Call (MPut i (Some v))) e1 /\ nth_error (world [] e1) i = Some y /\ eqv x y.
  Proof using step keep.
    intros I0 E0 P F. induction evs as [|e evs IH] using rev_ind.
    - exists t0, []. split; [reflexivity|]. split; [reflexivity|]. split; [exact I0|]. split; [rewrite E0; intros ? ? []|]. intros [|] ? ? ? ?; discriminate.
    - apply proper_app in P. destruct P as (P & (Pe & _)).
      assert (Fc : Forall D (contents evs)) by (unfold contents in *; rewrite flat_map_app in F; now apply Forall_app in F).
      destruct (IH P Fc) as (t & vs & R & L & I & G & H). clear IH.
      assert (Fw : Forall D (world [] evs)).
      { apply Forall_forall. intros y Iy. apply world_from in Iy. destruct Iy as [[]|Iy]. rewrite Forall_forall in Fc. auto. }
      rewrite play_app, R, world_app, calls_app. cbn [rbind]. set (w := world [] evs) in *.
      assert (Same : calls w [e] = [] -> play call w t [e] = Ok (t, []) ->
        exists t1 vs1, (let? (t2, o2) := play call w t [e] in Ok (t2, vs ++ o2)) = Ok (t1, vs1) /\ length vs1 = length (calls [] evs ++ calls w [e]) /\ inv (world w [e]) t1 /\
          (forall i v, In (i, v) (entries t1) -> In (Call (MPut i v)) (evs ++ [e])) /\
          forall e1 op e2 x v, evs ++ [e] = e1 ++ Call op :: e2 -> nth_error (world [] e1) (op_key op) = Some x -> nth_error vs1 (length (calls [] e1)) = Some (Some v) ->
            exists i y, In (Call (MPut i (Some v))) e1 /\ nth_error (world [] e1) i = Some y /\ eqv x y).
      { intros Cn Pl. rewrite Pl, Cn. cbn [rbind]. do 2 eexists. split; [reflexivity|]. rewrite !app_nil_r. split; [exact L|]. split; [exact (keep w e t I)|].
        split; [intros i v Ii; apply in_app_iff; left; auto|].
        intros e1 op e2 x v E Ex N. destruct e2 as [|e2' e2] using rev_ind.
        - apply app_inj_tail in E. destruct E as (_ & ->). cbn [calls] in Cn. rewrite app_nil_r in Cn. unfold named in Cn. cbn in Pe.
          destruct (nth_error w (op_key op)) eqn:Ew; [discriminate|]. apply nth_error_None in Ew. lia.
        - clear IHe2. rewrite app_comm_cons, app_assoc in E. apply app_inj_tail in E. destruct E as (E & _). eapply H; eauto. }
      destruct e as [y|j y|op]; [apply Same; reflexivity|apply Same; reflexivity|]. clear Same.
      destruct (step w t op Fw Pe I) as (t1 & n & S & I1 & N1 & C1). cbn [play]. rewrite S. cbn [rbind]. do 2 eexists. split; [reflexivity|].
      assert (Ln : length (calls w [Call op]) = 1%nat).
      { cbn [calls]. rewrite app_nil_r. unfold named. destruct (nth_error w (op_key op)) eqn:Ew; [reflexivity|]. apply nth_error_None in Ew. cbn in Pe. lia. }
      split; [rewrite !app_length, Ln, L; reflexivity|]. split; [exact I1|]. split.
      + intros i v Ii. apply C1 in Ii. cbn [fst snd] in Ii. apply in_app_iff. destruct Ii as [->|Ii]; [right; now left|left; auto].
      + intros e1 op' e2 x v E Ex N. destruct e2 as [|e2' e2] using rev_ind.
        * apply app_inj_tail in E. destruct E as (<- & E2). injection E2 as <-. fold w in Ex |- *. rewrite nth_error_app2, L, Nat.sub_diag in N by lia.
          cbn [nth_error] in N. injection N as N. destruct n as [[k u]|]; [|discriminate]. cbn [result] in N. subst u.
          destruct N1 as ((x' & y & E1 & E2 & R') & Ik). exists k, y. split; [apply G; exact Ik|]. split; [exact E2|]. congruence.
        * clear IHe2. rewrite app_comm_cons, app_assoc in E. apply app_inj_tail in E. destruct E as (E & _).
          assert (Lt : (length (calls [] e1) < length vs)%nat).
          { rewrite L, E, calls_app, app_length. cbn [calls]. rewrite app_length. unfold named at 1. rewrite Ex. cbn. lia. }
          rewrite nth_error_app1 in N by exact Lt. eapply H; eauto.
  Qed.
End Honest.

Section HonestMaps.
  Context {X V : Type} (eqv lt : X -> X -> Prop) (D : X -> Prop) (equalx : X -> X -> res bool) (comparex : X -> X -> res Z).
  Definition steady (w : list X) (t : avl nat (option V)) : Prop := bal (avl_root t) /\ in_dom (exists_in w) (inorder (avl_root t)).
  Lemma steady_step w t op : total_keys D eqv lt equalx comparex -> Forall D w -> (op_key op < length w)%nat -> steady w t ->
    exists t' n, call_sorted equalx comparex w t op = Ok (t', result n) /\ steady w t' /\
    match n with Some (k, v) => at_now eqv w (op_key op) k /\ In (k, v) (inorder (avl_root t)) | None => True end /\
    forall e, In e (inorder (avl_root t')) -> op = MPut (fst e) (snd e) \/ In e (inorder (avl_root t)).
  Proof using Type.
    intros HX F Hk (B & Dm). pose proof (objects_total eqv lt D equalx comparex w HX F) as TK.
    destruct (avl_step_any (V := option V) (ask2 equalx w) (ask2 comparex w) (exists_in w)) with (t := t) (op := op) as (t' & n & S & B' & Fo & C); try assumption.
    - intros a b Ha Hb. destruct (tk_equal _ _ _ _ _ TK a b Ha Hb) as (e & E & _). eauto.
    - intros a b Ha Hb. destruct (tk_compare _ _ _ _ _ TK a b Ha Hb) as (e & E & _). eauto.
    - exists t', n. split; [unfold call_sorted, sm_step; rewrite S; reflexivity|]. split; [split; [exact B'|]|split; [|exact C]].
      + apply Forall_forall. intros e I. unfold in_dom in Dm. rewrite Forall_forall in Dm. destruct (C e I) as [->|I']; [exact Hk|exact (Dm _ I')].
      + destruct n as [[k v]|]; [|exact Logic.I]. destruct Fo as (I & E). split; [|exact I]. apply (tk_sym _ _ _ _ _ TK).
        assert (Dk : exists_in w k) by (unfold in_dom in Dm; rewrite Forall_forall in Dm; exact (Dm _ I)).
        destruct (tk_equal _ _ _ _ _ TK k (op_key op) Dk Hk) as (b & Eb & Hb). apply Hb. congruence.
  Qed.
  Lemma steady_after w (e : event X V) t : steady w t -> steady (after w e) t.
  Proof using Type.
    clear. intros (Hc & Dm). split; [exact Hc|]. unfold in_dom in *. eapply Forall_impl; [|exact Dm]. intros [i v]. cbn [fst]. unfold exists_in.
    destruct e as [y|j y|op]; cbn [after]; [rewrite app_length; lia|rewrite set_obj_length; auto|auto].
  Qed.
End HonestMaps.
