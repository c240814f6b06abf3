(** * Lemmas on maps whose key objects are changed. *)
From Coq Require Import List NArith ZArith Bool Lia Permutation.
From Verif Require Import Base BaseProofs AVLModel AVLSpec MapSpec MapProofs AVLProofs AVLHistory HashModel HashSpec HashProofs
  MutKeyModel MutKeySpec.
Import ListNotations.

Lemma set_obj_length {X} (w : list X) : forall i x, length (set_obj w i x) = length w.
Proof. induction w as [|y w IH]; intros [|i] x; cbn; auto. Qed.
Lemma set_obj_same {X} (w : list X) : forall i x, i < length w -> nth_error (set_obj w i x) i = Some x.
Proof. induction w as [|y w IH]; intros [|i] x H; cbn in *; try lia; [reflexivity|]. apply IH. lia. Qed.
Lemma set_obj_other {X} (w : list X) : forall i j x, i <> j -> nth_error (set_obj w i x) j = nth_error w j.
Proof. induction w as [|y w IH]; intros [|i] [|j] x H; cbn; try congruence; auto. Qed.

(** ** Histories *)
Section Histories.
  Context {X V : Type}.
  Lemma world_app (w : list X) (a b : list (event X V)) : world w (a ++ b) = world (world w a) b.
  Proof. unfold world. apply fold_left_app. Qed.
  Lemma calls_app (a b : list (event X V)) : forall w, calls w (a ++ b) = calls w a ++ calls (world w a) b.
  Proof. induction a as [|[x|i x|op] a IH]; intros w; cbn [app calls]; [reflexivity|apply IH|apply IH|]. rewrite <- app_assoc. f_equal. apply IH. Qed.
  Lemma proper_app (a b : list (event X V)) : forall w, proper w (a ++ b) <-> proper w a /\ proper (world w a) b.
  Proof. induction a as [|e a IH]; intros w; cbn [app proper]; [tauto|]. rewrite IH. cbn. tauto. Qed.
  Lemma set_obj_in (w : list X) : forall i x y, In y (set_obj w i x) -> y = x \/ In y w.
  Proof. induction w as [|z w IH]; intros [|i] x y; cbn; intuition. apply IH in H0. tauto. Qed.
  Lemma world_from (evs : list (event X V)) : forall w x, In x (world w evs) -> In x w \/ In x (contents evs).
  Proof.
    induction evs as [|e evs IH]; intros w x I; [now left|]. apply IH in I. destruct I as [I|I].
    - destruct e as [y|i y|op]; cbn [after contents flat_map app] in *; [|apply set_obj_in in I; destruct I as [->|I]|]; auto.
      + apply in_app_iff in I. destruct I as [I|[->|[]]]; [now left|right; now left].
      + right. now left.
    - right. destruct e; cbn; auto.
  Qed.
  Lemma puts_hold (eqv : X -> X -> Prop) (sym : forall a b, eqv a b -> eqv b a) (l : list (X * V)) :
    ForallOrdPairs (fun a b => ~ eqv (fst a) (fst b)) l -> holds eqv (map (fun e => MPut (fst e) (snd e)) l) l.
  Proof.
    intros F. induction l as [|[k0 v0] l IH] using rev_ind.
    - intros k v. split; [intros []|intros H; destruct (stored_nil _ _ _ H)].
    - apply fop_app in F. destruct F as (F1 & _ & F2). specialize (IH F1). intros k v. rewrite map_app. cbn [map fst snd]. rewrite stored_snoc, <- (IH k v).
      rewrite in_app_iff. cbn [In touches]. split.
      + intros [I|[E|[]]]; [|injection E as -> ->; now left]. right. split; [|exact I].
        apply (F2 (k, v) (k0, v0) I). now left.
      + intros [E|[_ I]]; [injection E as -> ->; right; now left|now left].
  Qed.
End Histories.

(** ** Objects as keys *)
Section Keys.
  Context {X : Type} (eqv lt : X -> X -> Prop) (D : X -> Prop).
  Definition at_now (R : X -> X -> Prop) (w : list X) (i j : nat) : Prop :=
    exists x y, nth_error w i = Some x /\ nth_error w j = Some y /\ R x y.
  Definition exists_in (w : list X) (i : nat) : Prop := i < length w.
  Lemma now_some (w : list X) i : exists_in w i -> Forall D w -> exists x, nth_error w i = Some x /\ D x.
  Proof.
    intros H F. destruct (nth_error w i) as [x|] eqn:E; [|apply nth_error_None in E; unfold exists_in in H; lia].
    exists x. split; [reflexivity|]. rewrite Forall_forall in F. apply F. eapply nth_error_In; eauto.
  Qed.
  Lemma objects_hash equalx hashx (w : list X) : hash_keys D eqv equalx hashx -> Forall D w ->
    hash_keys (exists_in w) (at_now eqv w) (ask2 equalx w) (ask hashx w).
  Proof.
    intros HX F. constructor.
    - intros a b Ha Hb. destruct (now_some w a Ha F) as (x & Ex & Dx). destruct (now_some w b Hb F) as (y & Ey & Dy).
      unfold ask2. rewrite Ex, Ey. destruct (hk_equal _ _ _ _ HX x y Dx Dy) as (e & E & He). exists e. split; [exact E|]. rewrite He.
      split; [intros R; exists x, y; auto|]. intros (x' & y' & E1 & E2 & R). congruence.
    - intros a Ha. destruct (now_some w a Ha F) as (x & Ex & Dx). unfold ask. rewrite Ex. apply (hk_hash _ _ _ _ HX x Dx).
    - intros a b Ha Hb (x & y & Ex & Ey & R). unfold ask. rewrite Ex, Ey. destruct (now_some w a Ha F) as (x' & Ex' & Dx). destruct (now_some w b Hb F) as (y' & Ey' & Dy).
      apply (hk_same _ _ _ _ HX); congruence.
    - intros a Ha. destruct (now_some w a Ha F) as (x & Ex & Dx). exists x, x. split; [exact Ex|]. split; [exact Ex|]. apply (hk_refl _ _ _ _ HX x Dx).
    - intros a b (x & y & Ex & Ey & R). exists y, x. split; [exact Ey|]. split; [exact Ex|]. apply (hk_sym _ _ _ _ HX x y R).
    - intros a b c (x & y & Ex & Ey & R) (y' & z & Ey' & Ez & R'). exists x, z. split; [exact Ex|]. split; [exact Ez|].
      rewrite Ey in Ey'. injection Ey' as <-. exact (hk_trans _ _ _ _ HX x y z R R').
  Qed.
  Lemma objects_total equalx comparex (w : list X) : total_keys D eqv lt equalx comparex -> Forall D w ->
    total_keys (exists_in w) (at_now eqv w) (at_now lt w) (ask2 equalx w) (ask2 comparex w).
  Proof.
    intros HX F. constructor.
    - intros a b Ha Hb. destruct (now_some w a Ha F) as (x & Ex & Dx). destruct (now_some w b Hb F) as (y & Ey & Dy).
      unfold ask2. rewrite Ex, Ey. destruct (tk_equal _ _ _ _ _ HX x y Dx Dy) as (e & E & He). exists e. split; [exact E|]. rewrite He.
      split; [intros R; exists x, y; auto|]. intros (x' & y' & E1 & E2 & R). congruence.
    - intros a b Ha Hb. destruct (now_some w a Ha F) as (x & Ex & Dx). destruct (now_some w b Hb F) as (y & Ey & Dy).
      unfold ask2. rewrite Ex, Ey. destruct (tk_compare _ _ _ _ _ HX x y Dx Dy) as (c & E & H1 & H2). exists c. split; [exact E|]. rewrite H1, H2.
      split; (split; [intros R; do 2 eexists; eauto|intros (x' & y' & E1 & E2 & R); congruence]).
    - intros a Ha. destruct (now_some w a Ha F) as (x & Ex & Dx). exists x, x. split; [exact Ex|]. split; [exact Ex|]. apply (tk_refl _ _ _ _ _ HX x Dx).
    - intros a b (x & y & Ex & Ey & R). exists y, x. split; [exact Ey|]. split; [exact Ex|]. apply (tk_sym _ _ _ _ _ HX x y R).
    - intros a b c (x & y & Ex & Ey & R) (y' & z & Ey' & Ez & R'). exists x, z. split; [exact Ex|]. split; [exact Ez|].
      rewrite Ey in Ey'. injection Ey' as <-. exact (tk_trans _ _ _ _ _ HX x y z R R').
    - intros a b (x & y & Ex & Ey & R) (x' & y' & Ex' & Ey' & R'). rewrite Ex in Ex'. rewrite Ey in Ey'. injection Ex' as <-. injection Ey' as <-.
      exact (tk_irrefl _ _ _ _ _ HX x y R R').
    - intros a b c (x & y & Ex & Ey & R) (y' & z & Ey' & Ez & R'). exists x, z. split; [exact Ex|]. split; [exact Ez|].
      rewrite Ey in Ey'. injection Ey' as <-. exact (tk_lt_trans _ _ _ _ _ HX x y z R R').
    - intros a b c (x & y & Ex & Ey & R) (y' & z & Ey' & Ez & R'). exists x, z. split; [exact Ex|]. split; [exact Ez|].
      rewrite Ey in Ey'. injection Ey' as <-. exact (tk_lt_l _ _ _ _ _ HX x y z R R').
    - intros a b c (x & y & Ex & Ey & R) (y' & z & Ey' & Ez & R'). exists x, z. split; [exact Ex|]. split; [exact Ez|].
      rewrite Ey in Ey'. injection Ey' as <-. exact (tk_lt_r _ _ _ _ _ HX x y z R R').
    - intros a b Ha Hb. destruct (now_some w a Ha F) as (x & Ex & Dx). destruct (now_some w b Hb F) as (y & Ey & Dy).
      destruct (tk_total _ _ _ _ _ HX x y Dx Dy) as [R|[R|R]]; [left|right; left|right; right]; do 2 eexists; eauto.
  Qed.
End Keys.

(** ** Runs in which no key of the map is changed *)
Section Alone.
  Context {X V T : Type} (eqv : X -> X -> Prop) (D : X -> Prop).
  Context (sym : forall a b, eqv a b -> eqv b a).
  Context (call : list X -> T -> mop nat (option V) -> res (T * option V)) (entries : T -> list (nat * option V)) (inv : list X -> T -> Prop).
  Definition result (n : option (nat * option V)) : option V := match n with Some (_, v) => v | None => None end.
  (** What a call does to the entries. *)
  Definition does (w : list X) (op : mop nat (option V)) (l l' : list (nat * option V)) (n : option (nat * option V)) : Prop :=
    (forall i v, In (i, v) l' <-> op = MPut i v \/ (~ touches (at_now eqv w) i op /\ In (i, v) l)) /\
    match n with
    | Some (k, v) => at_now eqv w (op_key op) k /\ In (k, v) l
    | None => forall k v, In (k, v) l -> ~ at_now eqv w (op_key op) k
    end.
  Context (step : forall w t op, inv w t -> Forall D w -> op_key op < length w ->
    exists t' n, call w t op = Ok (t', result n) /\ does w op (entries t) (entries t') n /\ inv w t').
  Context (keep : forall w w' t, inv w t -> (forall i v, In (i, v) (entries t) -> nth_error w' i = nth_error w i) -> inv w' t).

  Definition agrees (w : list X) (h : list (mop (nat * X) (option V))) (l : list (nat * option V)) : Prop :=
    forall i v, (forall x, stored (same eqv) h (i, x) v -> nth_error w i = Some x /\ In (i, v) l) /\
      (In (i, v) l -> exists x, nth_error w i = Some x /\ stored (same eqv) h (i, x) v).

  Lemma named_touches w (op : mop nat (option V)) i x y : nth_error w (op_key op) = Some y -> nth_error w i = Some x ->
    exists op', named w op = [op'] /\ op_key op' = (op_key op, y) /\ (touches (same eqv) (i, x) op' <-> touches (at_now eqv w) i op) /\
      forall j z v, op' = MPut (j, z) v <-> op = MPut j v /\ z = y.
  Proof using Type.
    clear. intros E Ei. unfold named. rewrite E. eexists. split; [reflexivity|].
    assert (Q : eqv x y <-> at_now eqv w i (op_key op)).
    { split; [intros R; exists x, y; auto|]. intros (x' & y' & E1 & E2 & R). congruence. }
    destruct op as [k v|k|k]; cbn [op_key touches] in *; (split; [reflexivity|]); (split; [unfold same; cbn [snd]; tauto|]); intros j z u.
    - split; [intros H; injection H as <- <- <-; auto|intros (H & ->); now injection H as <- <-].
    - split; [discriminate|intros (H & _); discriminate].
    - split; [discriminate|intros (H & _); discriminate].
  Qed.

  Lemma agrees_step w h op l l' n y : agrees w h l -> does w op l l' n -> nth_error w (op_key op) = Some y ->
    agrees w (h ++ named w op) l' /\
    exists e, entry_at (same eqv) h (op_key op, y) e /\ result n = value_of e.
  Proof using sym.
    intros A (C & N) E. split.
    - intros i v. split.
      + intros x H. destruct (nth_error w i) as [x'|] eqn:Ei.
        * destruct (named_touches w op i x' y E Ei) as (op' & En & _ & Ht & Hp). rewrite En in H. apply stored_snoc in H. destruct H as [H|(H1 & H2)].
          -- apply Hp in H. destruct H as (-> & ->). cbn [op_key] in E. split; [congruence|]. apply C. now left.
          -- apply A in H2. destruct H2 as (H2 & H3). assert (x' = x) by congruence. subst x'. split; [reflexivity|].
             apply C. right. split; [now rewrite <- Ht|exact H3].
        * exfalso. unfold named in H. rewrite E in H. apply stored_snoc in H. destruct H as [H|(_ & H)].
          -- destruct op; try discriminate. injection H as <- <- <-. cbn [op_key] in E. congruence.
          -- apply A in H. destruct H. congruence.
      + intros H. apply C in H. destruct H as [->|(H1 & H2)].
        * cbn [op_key] in E. exists y. split; [exact E|]. unfold named. cbn [op_key]. rewrite E. apply stored_snoc. now left.
        * apply A in H2. destruct H2 as (x & Ei & H2). exists x. split; [exact Ei|].
          destruct (named_touches w op i x y E Ei) as (op' & -> & _ & Ht & Hp). apply stored_snoc. right. split; [now rewrite Ht|exact H2].
    - destruct n as [[k v]|].
      + destruct N as (R & I). apply A in I. destruct I as (x & Ek & I). exists (Some ((k, x), v)). split; [|reflexivity].
        cbn [entry_at]. split; [|exact I]. destruct R as (x1 & x2 & E1 & E2 & R). unfold same. cbn [snd]. congruence.
      + exists None. split; [|reflexivity]. intros [k x] v R H. apply A in H. destruct H as (Ek & I). apply (N k v I).
        exists y, x. auto.
  Qed.

  Lemma agrees_change w h l i x : agrees w h l -> (forall y v, ~ stored (same eqv) h (i, y) v) ->
    agrees (set_obj w i x) h l /\ forall j v, In (j, v) l -> nth_error (set_obj w i x) j = nth_error w j.
  Proof using Type.
    clear. intros A N.
    assert (O : forall j v, In (j, v) l -> nth_error (set_obj w i x) j = nth_error w j).
    { intros j v I. apply A in I. destruct I as (y & _ & H). apply set_obj_other. intros ->. exact (N _ _ H). }
    split; [|exact O]. intros j v. split.
    - intros y H. apply A in H. destruct H as (Ej & I). split; [|exact I]. now rewrite (O _ _ I).
    - intros I. rewrite (O _ _ I). now apply A.
  Qed.
  Lemma agrees_make w h l x : agrees w h l -> agrees (w ++ [x]) h l /\ forall j v, In (j, v) l -> nth_error (w ++ [x]) j = nth_error w j.
  Proof using Type.
    clear. intros A.
    assert (O : forall j v, In (j, v) l -> nth_error (w ++ [x]) j = nth_error w j).
    { intros j v I. apply A in I. destruct I as (y & E & _). apply nth_error_app1. apply nth_error_Some. congruence. }
    split; [|exact O]. intros j v. split.
    - intros y H. apply A in H. destruct H as (Ej & I). split; [|exact I]. now rewrite (O _ _ I).
    - intros I. rewrite (O _ _ I). now apply A.
  Qed.

  Lemma play_alone (evs : list (event X V)) : forall e1 w t, w = world [] e1 -> keys_left_alone eqv (e1 ++ evs) -> proper w evs ->
    Forall D w -> Forall D (contents evs) -> inv w t -> agrees w (calls [] e1) (entries t) ->
    exists t' vs es, play call w t evs = Ok (t', vs) /\ answers (same eqv) (calls [] e1) (calls w evs) es /\ vs = map value_of es.
  Proof using step keep sym.
    induction evs as [|e evs IH]; intros e1 w t Ew K P F Fc I A.
    - exists t, [], []. split; [reflexivity|]. split; [constructor|reflexivity].
    - assert (Nx : calls [] (e1 ++ [e]) = calls [] e1 ++ calls w [e] /\ world [] (e1 ++ [e]) = after w e).
      { rewrite calls_app, world_app. rewrite <- Ew. split; reflexivity. }
      destruct Nx as (Nc & Nw).
      assert (K' : keys_left_alone eqv ((e1 ++ [e]) ++ evs)) by (rewrite <- app_assoc; exact K).
      destruct P as (Pe & P).
      destruct e as [x|i x|op].
      + destruct (agrees_make w _ _ x A) as (A' & O). cbn [calls] in Nc. rewrite app_nil_r in Nc.
        destruct (IH (e1 ++ [Make x]) (w ++ [x]) t (eq_sym Nw) K' P) as (t' & vs & es & R & An & Ev).
        * apply Forall_app. split; [exact F|]. constructor; [|constructor]. exact (Forall_inv Fc).
        * exact (Forall_inv_tail Fc).
        * exact (keep _ _ _ I O).
        * rewrite Nc. exact A'.
        * exists t', vs, es. rewrite Nc in An. auto.
      + cbn [calls] in Nc. rewrite app_nil_r in Nc.
        destruct (agrees_change w (calls [] e1) (entries t) i x A) as (A' & O).
        { intros y v S. apply (K e1 i x evs eq_refl). exists y, v. exact S. }
        destruct (IH (e1 ++ [Change i x]) (set_obj w i x) t (eq_sym Nw) K' P) as (t' & vs & es & R & An & Ev).
        * apply Forall_forall. intros y Iy. apply set_obj_in in Iy. destruct Iy as [->|Iy]; [exact (Forall_inv Fc)|]. rewrite Forall_forall in F. auto.
        * exact (Forall_inv_tail Fc).
        * exact (keep _ _ _ I O).
        * rewrite Nc. exact A'.
        * exists t', vs, es. rewrite Nc in An. auto.
      + destruct (step w t op I F Pe) as (t1 & n & C & Dn & I1).
        destruct (nth_error w (op_key op)) as [y|] eqn:Ey; [|apply nth_error_None in Ey; cbn in Pe; lia].
        destruct (agrees_step w _ op _ _ n y A Dn Ey) as (A' & e & Ee & Er).
        cbn [calls] in Nc. rewrite app_nil_r in Nc.
        destruct (IH (e1 ++ [Call op]) w t1 (eq_sym Nw) K' P F Fc I1) as (t' & vs & es & R & An & Ev); [now rewrite Nc|].
        exists t', (result n :: vs), (e :: es). cbn [play calls]. rewrite C. cbn [rbind]. rewrite R. cbn [rbind]. split; [reflexivity|].
        split; [|cbn [map]; now rewrite Ev, Er]. rewrite Nc in An. unfold named in *. rewrite Ey in *. cbn [app] in *.
        constructor; [destruct op; exact Ee|exact An].
  Qed.
End Alone.

(** ** The two maps *)
Section Maps.
  Context {X V : Type} (eqv lt : X -> X -> Prop) (D : X -> Prop).
  Context (equalx : X -> X -> res bool) (hashx : X -> res N) (comparex : X -> X -> res Z).

  Definition sound_hash (w : list X) (t : hash nat (option V)) : Prop :=
    (exists h, hash_inv (ask hashx w) (exists_in w) (at_now eqv w) h t) /\ cap_ok (length (h_array t)).
  Definition sound_sorted (w : list X) (t : avl nat (option V)) : Prop :=
    exists h, avl_inv (exists_in w) (at_now eqv w) (at_now lt w) h t.

  Lemma does_of (w : list X) op h (l l' : list (nat * option V)) n : (forall a b, eqv a b -> eqv b a) ->
    holds (at_now eqv w) h l -> holds (at_now eqv w) (h ++ [op]) l' -> entry_at (at_now eqv w) h (op_key op) n -> does eqv w op l l' n.
  Proof using Type.
    clear. intros sym H H' E. split.
    - intros i v. rewrite (H' i v), stored_snoc, <- (H i v). reflexivity.
    - destruct n as [[k v]|]; cbn [entry_at] in E; [split; [tauto|apply H; tauto]|].
      intros k v I R. apply H in I. exact (E k v R I).
  Qed.

  Lemma clamp_cap pol : policy_ok pol -> forall d s c t1c, d = after_put pol s c \/ d = after_remove pol s c -> cap_ok (Z.to_nat c) ->
    t1c = next_cap d c -> cap_ok (Z.to_nat t1c).
  Proof using Type.
    clear. intros P d s c t1c Hd C ->. unfold next_cap. destruct d as [n|]; [|exact C]. apply (P s c n). destruct Hd as [H|H]; [left|right]; now rewrite <- H.
  Qed.

  Lemma hash_sound pol w t op : hash_keys D eqv equalx hashx -> policy_ok pol -> sound_hash w t -> Forall D w -> op_key op < length w ->
    exists t' n, call_hash equalx hashx pol w t op = Ok (t', result n) /\ does eqv w op (concat (h_array t)) (concat (h_array t')) n /\ sound_hash w t'.
  Proof using Type.
    clear lt comparex. intros HX Hp ((h & I) & C) F Hk. pose proof (objects_hash eqv D equalx hashx w HX F) as HK.
    destruct (hash_step_ok _ _ pol _ _ HK h t op Hk I C) as (t' & n & S & I' & E & Cap).
    { intros m Hm. destruct Hm as [Hm|Hm]; eapply Hp; [left|right]; exact Hm. }
    exists t', n. split; [unfold call_hash, hm_step; rewrite S; reflexivity|]. split.
    - apply does_of with (h := h); [exact (hk_sym _ _ _ _ HX)| | |exact E]; [apply I|apply I'].
    - split; [exists (h ++ [op]); exact I'|].
      assert (C' : cap_ok (Z.to_nat (zlen (h_array t)))) by (unfold zlen; rewrite Nat2Z.id; exact C).
      assert (C'' : cap_ok (Z.to_nat (zlen (h_array t')))).
      { destruct op as [k v|k|k], n as [e|]; injection Cap as _ Cap; try (rewrite Cap; exact C'); eapply (clamp_cap pol Hp); try exact C'; try exact Cap; eauto. }
      unfold zlen in C''. now rewrite Nat2Z.id in C''.
  Qed.

  Lemma sorted_sound w t op : total_keys D eqv lt equalx comparex -> sound_sorted w t -> Forall D w -> op_key op < length w ->
    exists t' n, call_sorted equalx comparex w t op = Ok (t', result n) /\ does eqv w op (inorder (avl_root t)) (inorder (avl_root t')) n /\ sound_sorted w t'.
  Proof using Type.
    clear hashx. intros HX (h & I) F Hk. pose proof (objects_total eqv lt D equalx comparex w HX F) as TK.
    destruct (avl_step_ok _ _ _ _ _ TK h t op Hk I) as (t' & n & S & I' & E).
    exists t', n. split; [unfold call_sorted, sm_step; rewrite S; reflexivity|]. split.
    - apply does_of with (h := h); [exact (tk_sym _ _ _ _ _ HX)| | |exact E]; [apply I|apply I'].
    - exists (h ++ [op]). exact I'.
  Qed.

  Lemma fop_in {E} (R R' : E -> E -> Prop) l : (forall a b, In a l -> In b l -> R a b -> R' a b) -> ForallOrdPairs R l -> ForallOrdPairs R' l.
  Proof using Type.
    clear. intros H F. induction F as [|x l Hx F IH]; constructor.
    - rewrite Forall_forall in *. intros y Iy. apply H; [now left|now right|auto].
    - apply IH. intros a b Ia Ib. apply H; now right.
  Qed.

  Lemma hash_keep w w' (t : hash nat (option V)) : (forall a b, eqv a b -> eqv b a) -> sound_hash w t ->
    (forall i v, In (i, v) (concat (h_array t)) -> nth_error w' i = nth_error w i) -> sound_hash w' t.
  Proof using Type.
    clear lt comparex D equalx. intros sym ((h & Dm & Di & P & S & H) & C) O. split; [|exact C].
    assert (Eq : forall a b v u, In (a, v) (concat (h_array t)) -> In (b, u) (concat (h_array t)) -> at_now eqv w' a b -> at_now eqv w a b).
    { intros a b v u Ia Ib (x & y & Ex & Ey & R). rewrite (O _ _ Ia) in Ex. rewrite (O _ _ Ib) in Ey. exists x, y. auto. }
    assert (Di' : distinct (at_now eqv w') (concat (h_array t))).
    { unfold distinct in *. eapply fop_in; [|exact Di]. intros [a v] [b u] Ia Ib N R. apply N. eapply Eq; eauto. }
    exists (map (fun e => MPut (fst e) (snd e)) (concat (h_array t))). split; [|split; [exact Di'|split; [|split; [exact S|]]]].
    - unfold dom in *. rewrite Forall_forall in *. intros [i v] Ii. specialize (Dm _ Ii). unfold exists_in in *. cbn [fst] in *.
      apply nth_error_Some. rewrite (O _ _ Ii). now apply nth_error_Some.
    - intros j c Ej. specialize (P j c Ej). rewrite Forall_forall in *. intros [i v] Ii. rewrite <- (P _ Ii). cbn [fst]. unfold home, ask.
      rewrite (O i v); [reflexivity|]. apply in_concat. exists c. split; [eapply nth_error_In; eauto|exact Ii].
    - apply puts_hold; [|exact Di']. intros a b (x & y & Ex & Ey & R). exists y, x. auto.
  Qed.

  Lemma sorted_keep w w' (t : avl nat (option V)) : (forall a b, eqv a b -> eqv b a) -> (forall a b, lt a b -> ~ eqv a b) -> sound_sorted w t ->
    (forall i v, In (i, v) (inorder (avl_root t)) -> nth_error w' i = nth_error w i) -> sound_sorted w' t.
  Proof using Type.
    clear hashx comparex D equalx. intros sym ir (h & Dm & A & B & S & H) O.
    assert (Asc : ascending (at_now lt w') (inorder (avl_root t))).
    { unfold ascending in *. eapply fop_in; [|exact A]. intros [a v] [b u] Ia Ib (x & y & Ex & Ey & R). cbn [fst] in *.
      exists x, y. rewrite (O _ _ Ia), (O _ _ Ib). auto. }
    exists (map (fun e => MPut (fst e) (snd e)) (inorder (avl_root t))). split; [|split; [exact Asc|split; [exact B|split; [exact S|]]]].
    - unfold in_dom in *. rewrite Forall_forall in *. intros [i v] Ii. specialize (Dm _ Ii). unfold exists_in in *. cbn [fst] in *.
      apply nth_error_Some. rewrite (O _ _ Ii). now apply nth_error_Some.
    - apply puts_hold; [intros a b (x & y & Ex & Ey & R); exists y, x; auto|].
      eapply fop_in; [|exact Asc]. intros [a v] [b u] _ _ (x & y & Ex & Ey & R) (x' & y' & Ex' & Ey' & R'). cbn [fst] in *.
      assert (x' = x /\ y' = y) as (-> & ->) by (split; congruence). exact (ir _ _ R R').
  Qed.
End Maps.
