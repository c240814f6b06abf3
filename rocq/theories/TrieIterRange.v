(** * Proofs about range iterators over tries: the end of a range *)
From Coq Require Import List NArith ZArith Bool Lia.
From Coq Require Import Strings.Byte.
From Verif Require Import Base CmpSpec CmpModel CmpProofs ValueModel AVLModel AVLSpec AVLProofs AVLProps TrieModel TrieIterModel TrieIterSpec TrieIterProofs TrieIterOrder.
Import ListNotations.
Local Open Scope nat_scope.

Lemma key_in_full P k : key_in P k -> full k.
Proof. intros (b & -> & _). now exists b. Qed.
Lemma split_nth (q E : path) : length q < length E -> q = firstn (length q) E ->
  E = q ++ nth (length q) E None :: skipn (S (length q)) E.
Proof.
  revert E. induction q as [|x q IH]; intros [|y E] H1 H2; cbn in H1; try lia; [reflexivity|].
  cbn [length firstn] in H2. injection H2 as -> H2. cbn [length nth skipn app]. f_equal. apply IH; [lia|exact H2].
Qed.
Lemma split_at (n : nat) (q : path) : n < length q -> q = firstn n q ++ nth n q None :: skipn (S n) q.
Proof. revert q. induction n as [|n IH]; intros [|x q] H; cbn in H; try lia; [reflexivity|]. cbn. f_equal. apply IH. lia. Qed.
Lemma under_app p a b : under (p ++ a) (p ++ b) = under a b.
Proof. induction p as [|x p IH]; [reflexivity|]. cbn. now rewrite same_refl, IH. Qed.
Lemma under_refl p : under p p = true.
Proof. rewrite <- (app_nil_r p), under_app. reflexivity. Qed.
Lemma stands_length ps ls : stands ps ls -> length ps = length ls.
Proof. intros H. induction H; cbn; congruence. Qed.
Lemma under_ext p r : under p (p ++ r) = true.
Proof. rewrite <- (app_nil_r p) at 1. now rewrite under_app. Qed.
Lemma pathb_ext p r : pathb (p ++ r) p = false.
Proof. rewrite <- (app_nil_r p) at 2. rewrite pathb_app. destruct r; reflexivity. Qed.
Lemma before_down e c f p r : before e c f p = false -> p <> [] -> before e c f (p ++ r) = false.
Proof.
  unfold before. destruct e as [|e0 e]; [discriminate|]. remember (e0 :: e) as E eqn:HE. clear HE e0 e. intros H Np.
  apply orb_false_iff in H. destruct H as [H HF]. apply orb_false_iff in H. destruct H as [H1 H2].
  assert (G : pathb (p ++ r) E = false /\ (under E (p ++ r) = true -> under E p = true)).
  { clear HF H2 Np. revert E H1. induction p as [|x p IH]; intros [|y E] H1; cbn in *; try discriminate; auto.
    - split; [destruct r; reflexivity|auto].
    - apply orb_false_iff in H1. destruct H1 as [K H1]. rewrite K. cbn. apply andb_false_iff in H1. destruct H1 as [H1|H1].
      + rewrite H1. split; [reflexivity|]. intros H2. apply andb_true_iff in H2. destruct H2 as [H2 _]. exfalso.
        unfold same in *. rewrite andb_comm in H2. congruence.
      + destruct (IH E H1) as [G1 G2]. rewrite G1, andb_false_r. split; [reflexivity|]. intros H2. apply andb_true_iff in H2.
        destruct H2 as [H2 H3]. rewrite H2. apply G2, H3. }
  destruct G as [G1 G2]. rewrite G1. cbn [orb]. apply orb_false_iff. split.
  - destruct (negb c); [|reflexivity]. cbn [andb] in *. destruct (under E (p ++ r)) eqn:U; [|reflexivity]. rewrite <- H2. symmetry. now apply G2.
  - destruct f as [s|]; [|reflexivity]. destruct p as [|k p]; [congruence|]. exact HF.
Qed.

Lemma trues_set_gen n : forall m cnt, n < m -> cnt <= m -> n <= cnt ->
  set_nth (repeat true cnt ++ repeat false (m - cnt)) n true = repeat true (Nat.max cnt (S n)) ++ repeat false (m - Nat.max cnt (S n)).
Proof.
  induction n as [|n IH]; intros m cnt H1 H2 H3.
  - destruct cnt as [|cnt].
    + destruct m as [|m]; [lia|]. cbn. now rewrite Nat.sub_0_r.
    + cbn [Nat.max]. rewrite Nat.max_0_r. reflexivity.
  - destruct cnt as [|cnt]; [lia|]. destruct m as [|m]; [lia|]. cbn [repeat app set_nth Nat.max Nat.sub]. rewrite IH by lia.
    reflexivity.
Qed.

Lemma list_kind {B} (l : list B) : (length l = 0 /\ forall A (x y : A), match l with [] => x | _ => y end = x) \/
  (length l > 0 /\ forall A (x y : A), match l with [] => x | _ => y end = y).
Proof. destruct l; [left|right]; cbn; split; auto; lia. Qed.
Lemma end_kind (ec : gslice) (compl : bool) : compl = match ec with None => true | Some _ => false end ->
  (compl = false /\ forall A (x y : A), match ec with None => x | Some _ => y end = y) \/
  (compl = true /\ forall A (x y : A), match ec with None => x | Some _ => y end = x).
Proof. destruct ec; auto. Qed.

Section EndPhase.
  Context (P : bytes -> Prop) (HP : prefix_free P).
  Context (es : list tnode) (ec : gslice).
  Context (E : path) (HE : map tn_key es = E) (FE : Forall (key_in P) E).
  Context (compl : bool) (Hec : compl = match ec with None => true | Some _ => false end).
  Context (free : option gslice) (Ff : forall s, free = Some s -> key_in P s).
  Let m := length E.
  Let W (p : path) : bool := before E compl free p.

  Definition Wl (l : list shown) : list shown := filter (fun x : shown => W (fst x)) l.
  Lemma Wl_app a b : Wl (a ++ b) = Wl a ++ Wl b.
  Proof. apply filter_app. Qed.
  Definition trues (cnt : nat) : list bool := repeat true cnt ++ repeat false (m - cnt).
  Definition good (l : list (gslice * tnode)) : Prop :=
    ascends l /\ Forall (fun kc => key_in P (fst kc) /\ tn_key (snd kc) = fst kc /\ regular (snd kc) /\ ordered P (snd kc)) l.
  Fixpoint chain (q : path) (ls : list todo) : Prop :=
    match ls with
    | [] => q = []
    | (q0, l0) :: ls' =>
        (exists x, q = q0 ++ [x] /\ key_in P x /\ Forall (fun kc => keyb x (fst kc) = true) l0) /\ good l0 /\ chain q0 ls'
    end.
  Fixpoint bottom (s : gslice) (ls : list todo) : Prop :=
    match ls with
    | [] => True
    | (q, l) :: ls' => match ls' with [] => Forall (fun kc => keyb s (fst kc) = true) l | _ => bottom s ls' end
    end.
  Definition reached (cnt : nat) (q : path) : Prop :=
    cnt <= length q /\ cnt <= m /\ firstn cnt q = firstn cnt E /\
    (cnt < m -> cnt < length q ->
       keyb (nth cnt q None) (nth cnt E None) = true \/ (cnt = 0 /\ exists s, free = Some s /\ nth 0 q None = s)) /\
    (cnt = m -> m > 0 -> compl = false).
  Definition passed (cnt : nat) (q : path) (l : list (gslice * tnode)) : Prop :=
    length q < cnt /\ cnt <= m /\ q = firstn (length q) E /\ Forall (fun kc => keyb (fst kc) (nth (length q) E None) = false) l /\
    (cnt = S (length q) \/ Forall (fun kc => keyb (nth (length q) E None) (fst kc) = true) l).
  Definition pos (cnt : nat) (q : path) (l : list (gslice * tnode)) : Prop := reached cnt q \/ passed cnt q l.
  Definition freepos (cnt : nat) (q : path) : Prop := forall s, free = Some s -> q <> [] -> nth 0 q None = s -> cnt = 0.
  Definition inv (cnt : nat) (ls : list todo) : Prop :=
    match ls with
    | [] => cnt <= m
    | (q, l) :: ls' => good l /\ chain q ls' /\ pos cnt q l /\ freepos cnt q /\ forall s, free = Some s -> bottom s ls
    end.
  Definition hung (ls : list todo) : bool := match ls with (_, []) :: _ => Nat.ltb m (length ls) | _ => false end.
  Definition ready (cnt : nat) (ls : list todo) : Prop :=
    match ls with
    | [] => True
    | (q, []) :: _ => m < length ls
    | (q, (k, c) :: l) :: _ => W (q ++ [k]) = true /\ reached cnt (q ++ [k]) /\ pos cnt q l /\ freepos cnt (q ++ [k])
    end.

  Lemma chain_length ls : forall q, chain q ls -> length q = length ls.
  Proof using Type.
    clear HP es ec E HE FE compl Hec free Ff m W.
    induction ls as [|[q0 l0] ls IH]; cbn; intros q H; [now subst|].
    destruct H as ((x & -> & _) & _ & H). rewrite app_length, (IH _ H). cbn. lia.
  Qed.
  Lemma trues_length cnt : cnt <= m -> length (trues cnt) = m.
  Proof. intros H. unfold trues. rewrite app_length, !repeat_length. lia. Qed.
  Lemma trues_nth cnt n : nth n (trues cnt) false = Nat.ltb n cnt.
  Proof.
    unfold trues. destruct (Nat.ltb_spec n cnt) as [H|H].
    - rewrite app_nth1 by (rewrite repeat_length; lia). rewrite (nth_indep _ false true) by (rewrite repeat_length; lia). apply nth_repeat.
    - rewrite app_nth2 by (rewrite repeat_length; lia). apply nth_repeat.
  Qed.

  Lemma trues_set cnt n : n < m -> cnt <= m -> n <= cnt -> set_nth (trues cnt) n true = trues (Nat.max cnt (S n)).
  Proof. apply trues_set_gen. Qed.
  Lemma trues_clear cnt n : cnt <= n -> set_nth (trues cnt) n false = trues cnt.
  Proof.
    intros H. unfold trues. generalize (m - cnt) as d. revert n H. induction cnt as [|cnt IH]; intros n H d.
    - cbn [repeat app]. clear H. revert n. induction d as [|d IH]; intros [|n]; cbn; try reflexivity. now rewrite IH.
    - destruct n as [|n]; [lia|]. cbn. now rewrite IH by lia.
  Qed.

  (** ** What the end lets through *)

  Definition nofree (p : path) : Prop := forall s, free = Some s -> p <> [] -> nth 0 p None <> s.
  Lemma nofree_false p : Forall (key_in P) p -> nofree p -> match free, p with Some s, k :: _ => same k s | _, _ => false end = false.
  Proof.
    intros F N. destruct free as [s|] eqn:Ef; [|reflexivity]. destruct p as [|k p]; [reflexivity|].
    destruct (same k s) eqn:Es; [|reflexivity]. exfalso. apply (N s Ef); [discriminate|]. cbn.
    apply same_eq; [| |exact Es]; eapply key_in_full; [exact (Forall_inv F)|]. now apply Ff.
  Qed.
  Lemma W_eq p : m > 0 -> W p = pathb p E || (negb compl && under E p) || match free, p with Some s, k :: _ => same k s | _, _ => false end.
  Proof. unfold W, before, m. destruct E as [|e0 e]; cbn; [lia|reflexivity]. Qed.
  Lemma W_lt q k r : length q < m -> q = firstn (length q) E -> keyb k (nth (length q) E None) = true -> W (q ++ k :: r) = true.
  Proof.
    intros H1 H2 H3. rewrite W_eq by lia. rewrite (split_nth q E H1 H2) at 1. rewrite pathb_app. cbn [pathb]. rewrite H3. reflexivity.
  Qed.
  Lemma W_on q : S (length q) < m -> q = firstn (length q) E -> W (q ++ [nth (length q) E None]) = true.
  Proof.
    intros H1 H2. rewrite W_eq by lia. rewrite (split_nth q E) at 2; [|unfold m in *; lia|exact H2]. rewrite pathb_app. cbn [pathb].
    rewrite keyb_irrefl, same_refl. destruct (skipn (S (length q)) E) eqn:Es; [|reflexivity]. exfalso.
    apply (f_equal (@length gslice)) in Es. rewrite skipn_length in Es. unfold m in *. cbn [length] in Es. lia.
  Qed.
  Lemma W_zero p : m = 0 -> W p = true.
  Proof. unfold W, before, m. destruct E as [|e0 e]; cbn; [reflexivity|lia]. Qed.
  Lemma W_under r : compl = false -> W (E ++ r) = true.
  Proof.
    intros H. destruct (Nat.eq_dec m 0) as [Z|Z]; [now apply W_zero|]. rewrite W_eq by lia.
    rewrite under_ext, H. cbn. now rewrite orb_true_r.
  Qed.
  Lemma W_end r : m > 0 -> compl = true -> Forall (key_in P) (E ++ r) -> nofree (E ++ r) -> W (E ++ r) = false.
  Proof.
    intros H C F N. rewrite W_eq by exact H. rewrite (nofree_false _ F N), C. cbn [negb andb]. rewrite !orb_false_r.
    apply pathb_ext.
  Qed.
  Lemma W_gt q k r : length q < m -> q = firstn (length q) E -> keyb (nth (length q) E None) k = true ->
    nofree (q ++ [k]) -> Forall (key_in P) (q ++ [k]) -> W (q ++ k :: r) = false.
  Proof.
    intros H1 H2 H3 N F. rewrite W_eq by lia.
    assert (X : match free, q ++ k :: r with Some s, k :: _ => same k s | _, _ => false end = false).
    { etransitivity; [|exact (nofree_false _ F N)]. destruct q; reflexivity. }
    rewrite X. rewrite (split_nth q E H1 H2) at 1 2. rewrite pathb_app, under_app. cbn [pathb under].
    destruct (keyb_not_same _ _ H3) as (N1 & N2 & N3). rewrite N1, N2, N3. cbn. now rewrite andb_false_r.
  Qed.
  Lemma W_reached cnt q r : reached cnt q -> (cnt < m -> cnt < length q) -> W (q ++ r) = true.
  Proof.
    intros (H1 & H2 & H3 & H4 & H5) L. destruct (Nat.eq_dec m 0) as [Z|Z].
    { now apply W_zero. }
    destruct (Nat.eq_dec cnt m) as [->|Hn].
    - rewrite <- (firstn_skipn m q), <- app_assoc, H3. unfold m. rewrite firstn_all. apply W_under, H5; [reflexivity|lia].
    - assert (L1 : cnt < m) by lia. specialize (L L1). destruct (H4 L1 L) as [K|(-> & s & Hs & Hq)].
      + rewrite (split_at cnt q L), <- app_assoc. cbn [app].
        assert (Ln : length (firstn cnt q) = cnt) by (rewrite firstn_length; lia).
        apply W_lt; rewrite Ln; auto.
      + rewrite W_eq by lia. rewrite Hs. destruct q as [|k q]; [cbn in L; lia|]. cbn in Hq. subst k. cbn [app]. rewrite same_refl.
        now rewrite orb_true_r.
  Qed.
  Lemma W_down p r : W p = false -> p <> [] -> W (p ++ r) = false.
  Proof. apply before_down. Qed.

  (** Nothing of a list of children passes when none of their keys does. *)
  Lemma filter_below q l : Forall (fun kc => W (q ++ [fst kc]) = false) l -> Wl (below q l) = [].
  Proof.
    intros F. unfold below. induction l as [|[k c] l IH]; [reflexivity|]. inversion F as [|? ? F1 F2]; subst. cbn [flat_map fst snd].
    rewrite Wl_app, (IH F2), app_nil_r. cbn [fst] in F1.
    assert (X : forall x, In x (nodes (q ++ [k]) c) -> W (fst x) = false).
    { intros [p d] Hx. apply nodes_in in Hx. destruct Hx as (r & c' & -> & _ & _). cbn [fst]. apply W_down; [exact F1|].
      destruct q; discriminate. }
    revert X. generalize (nodes (q ++ [k]) c). intros l0. induction l0 as [|x l0 IH0]; intros X; [reflexivity|]. cbn.
    rewrite (X x (or_introl eq_refl)). apply IH0. intros y Hy. apply X. now right.
  Qed.

  (** ** checkEnd *)

  Lemma above_passed cnt q l : length q < cnt -> cnt <= m -> q = firstn (length q) E ->
    Forall (fun kc => keyb (nth (length q) E None) (fst kc) = true) l -> passed cnt q l.
  Proof.
    intros H1 H2 H3 H4. unfold passed. split; [exact H1|]. split; [exact H2|]. split; [exact H3|]. split; [|now right].
    eapply Forall_impl; [|exact H4]. intros x Hx. apply (keyb_not_same _ _ Hx).
  Qed.
  Lemma reached_more cnt q k : reached cnt q -> (cnt < m -> cnt < length q) -> reached cnt (q ++ [k]).
  Proof.
    intros (R1 & R2 & R3 & R4 & R5) L. unfold reached. rewrite app_length. cbn [length]. split; [lia|]. split; [exact R2|].
    split; [|split; [|exact R5]].
    - rewrite firstn_app. replace (cnt - length q) with 0 by lia. cbn. rewrite app_nil_r. exact R3.
    - intros L1 _. specialize (L L1). rewrite !app_nth1 by lia. apply R4; assumption.
  Qed.
  Lemma pop_inv cnt q l ls : inv cnt ((q, l) :: ls) ->
    (length q < cnt -> q = firstn (length q) E) -> length ls < m ->
    forall cnt', (cnt' = cnt \/ (length q <= cnt /\ q = firstn (length q) E /\ cnt' = Nat.max cnt (S (length q)))) -> inv cnt' ls.
  Proof.
    intros (G & C & Po & Fp & B) HB Lm cnt' Hc.
    assert (Hm : cnt <= m) by (destruct Po as [(A1 & A2 & _)|(A1 & A2 & _)]; assumption).
    assert (Lq : length q = length ls) by (apply chain_length; exact C).
    destruct ls as [|[q0 l0] ls]; cbn [inv].
    { destruct Hc as [->|(H1 & H2 & ->)]; lia. }
    cbn [chain] in C. destruct C as ((x & -> & Kx & Fx) & G0 & C0). split; [exact G0|]. split; [exact C0|].
    assert (Lq0 : length q0 = length ls) by (apply chain_length; exact C0). rewrite app_length in *. cbn [length] in *.
    assert (Q : q0 ++ [x] = firstn (length q0 + 1) E -> q0 = firstn (length q0) E /\ x = nth (length q0) E None).
    { intros H. assert (Le : length q0 < length E) by (fold m; lia). split.
      - apply (f_equal (firstn (length q0))) in H. rewrite firstn_app, firstn_all, Nat.sub_diag in H. cbn in H.
        rewrite app_nil_r in H. rewrite H at 1. rewrite firstn_firstn. f_equal. lia.
      - apply (f_equal (fun l => nth (length q0) l None)) in H. rewrite app_nth2, Nat.sub_diag in H by lia. cbn in H. rewrite H.
        rewrite <- (firstn_skipn (length q0 + 1) E) at 2. rewrite app_nth1; [reflexivity|]. rewrite firstn_length. lia. }
    assert (Y : pos cnt' q0 l0).
    { destruct Hc as [->|(H1 & H2 & ->)].
      - destruct Po as [(A1 & A2 & A3 & A4 & A5)|(B1 & B2 & B3 & B4)]; rewrite ?app_length in *; cbn [length] in *.
        + destruct (Nat.eq_dec cnt (length q0 + 1)) as [->|Hn].
          * right. assert (X : q0 ++ [x] = firstn (length q0 + 1) E).
            { rewrite <- A3. rewrite firstn_all2; [reflexivity|]. rewrite app_length. cbn. lia. }
            destruct (Q X) as [Q1 Q2]. rewrite Q2 in Fx. apply above_passed; [lia|exact A2|exact Q1|exact Fx].
          * left. unfold reached. split; [lia|]. split; [exact A2|]. split; [|split; [|exact A5]].
            -- rewrite <- A3. rewrite firstn_app. replace (cnt - length q0) with 0 by lia. cbn. now rewrite app_nil_r.
            -- intros L1 L2. assert (X : nth cnt (q0 ++ [x]) None = nth cnt q0 None) by (apply app_nth1; exact L2).
               assert (X0 : nth 0 (q0 ++ [x]) None = nth 0 q0 None) by (apply app_nth1; lia).
               rewrite <- X, <- X0. apply A4; [exact L1|lia].
        + right. destruct (Q B3) as [Q1 Q2]. rewrite Q2 in Fx. apply above_passed; [lia|exact B2|exact Q1|exact Fx].
      - right. destruct (Q H2) as [Q1 Q2]. rewrite Q2 in Fx. apply above_passed; [lia|lia|exact Q1|exact Fx]. }
    split; [exact Y|]. split.
    - intros s Hs Nq Hq. assert (X : cnt = 0).
      { apply (Fp s Hs); [destruct q0; discriminate|]. rewrite app_nth1; [exact Hq|]. destruct q0; [congruence|cbn; lia]. }
      destruct Hc as [->|(H1 & H2 & ->)]; [exact X|]. exfalso. lia.
    - intros s Hs. specialize (B s Hs). cbn [bottom] in *. exact B.
  Qed.

  Lemma end_rounds_ok ps ls : stands ps ls -> forall cnt, inv cnt ls ->
    exists ps' ls' cnt', end_rounds es ec ps (trues cnt) = Ok (ps', trues cnt') /\ stands ps' ls' /\ inv cnt' ls' /\
      Wl (pend ls') = Wl (pend ls) /\ hung ls' = hung ls /\ ready cnt' ls'.
  Proof.
    intros H. induction H as [|[p i] [q l] ps ls [Ep A] H IH]; intros cnt I.
    - exists [], [], cnt. cbn. repeat split; auto. constructor.
    - cbn [fst snd] in *. subst p. pose proof I as (G & C & Po & Fp & B).
      assert (Lq : length q = length ls) by (apply chain_length; exact C).
      assert (Lp : length ps = length ls) by (exact (stands_length _ _ H)).
      assert (Le : length es = m) by (unfold m; rewrite <- HE, map_length; reflexivity).
      cbn [end_rounds length]. rewrite Lp, Le.
      destruct (Nat.leb_spec (S (length ls)) m) as [L|L].
      + destruct (acts_has i l A) as (i1 & -> & A1). cbn [rbind]. destruct l as [|[k c] l]; cbn [more negb].
        { destruct (IH cnt) as (ps' & ls' & cnt' & X1 & X2 & X3 & X4 & X5 & X6).
          { apply (pop_inv cnt q [] ls I); [|lia|now left]. intros Hl.
            destruct Po as [(Y & _)|(_ & _ & Y & _)]; [lia|exact Y]. }
          exists ps', ls', cnt'. split; [exact X1|]. split; [exact X2|]. split; [exact X3|]. split; [exact X4|]. split; [|exact X6].
          rewrite X5. cbn [hung length]. transitivity false; [|symmetry; apply Nat.ltb_ge; lia].
          destruct ls as [|[q1 [|y l1]] ls1]; cbn [hung length] in *; try reflexivity. apply Nat.ltb_ge. lia. }
        (* the level is checked or not *)
        assert (On : (negb (Nat.eqb (S (length ls)) 1) && negb (nth (S (length ls) - 2) (trues cnt) false))%bool = Nat.ltb cnt (length q)).
        { rewrite trues_nth, Lq. destruct (Nat.eqb_spec (S (length ls)) 1); destruct (Nat.ltb_spec (S (length ls) - 2) cnt);
            destruct (Nat.ltb_spec cnt (length ls)); cbn; try reflexivity; lia. }
        rewrite On. destruct G as [Ga Gf]. pose proof (Forall_inv Gf) as (Kk & Ek & Rk & Ok_). pose proof (Forall_inv_tail Gf) as Gf'.
        cbn [fst snd] in Kk, Ek, Rk, Ok_.
        assert (Ga1 : Forall (fun y => keyb k (fst y) = true) l) by (inversion Ga; assumption).
        assert (Ga2 : ascends l) by (inversion Ga; assumption).
        destruct (Nat.ltb_spec cnt (length q)) as [Off|On'].
        { destruct Po as [R|(Y & _)]; [|lia].
          pose proof (reached_more cnt q k R (fun _ => Off)) as R'.
          exists ((q, i1) :: ps), ((q, (k, c) :: l) :: ls), cnt. split; [reflexivity|]. split; [constructor; auto|]. split; [exact I|].
          split; [reflexivity|]. split; [reflexivity|]. cbn [ready]. split; [apply (W_reached cnt q [k] R); auto|].
          split; [exact R'|]. split; [now left|].
          intros s Hs _ Hq. apply (Fp s Hs); [destruct q; [cbn in Off; lia|discriminate]|]. rewrite app_nth1 in Hq by lia. exact Hq. }
        destruct (acts_peek i1 k c l A1) as (i2 & -> & A2). cbn [rbind]. replace (S (length ls) - 1) with (length q) by lia.
        assert (He : exists e, nth_error es (length q) = Some e /\ tn_key e = nth (length q) E None).
        { destruct (nth_error es (length q)) as [e|] eqn:En.
          - exists e. split; [reflexivity|]. rewrite <- HE. symmetry. apply nth_error_nth. rewrite nth_error_map, En. reflexivity.
          - apply nth_error_None in En. lia. }
        destruct He as (e & -> & Hk). rewrite Ek, Hk.
        assert (Ke : key_in P (nth (length q) E None)) by (rewrite Forall_forall in FE; apply FE, nth_In; fold m; lia).
        destruct (compare_key P _ _ HP Kk Ke) as (z & -> & Z1 & Z2 & Z3). cbn [rbind]. rewrite Z2, Z3.
        assert (Hq : q = firstn (length q) E).
        { destruct Po as [(R1 & R2 & R3 & _)|(_ & _ & Y & _)]; [|exact Y].
          assert (cnt = length q) by lia. subst cnt. rewrite firstn_all in R3. exact R3. }
        assert (Hcm : cnt <= m) by (destruct Po as [(A' & B' & _)|(A' & B' & _)]; assumption).
        (* no node here has the free key, unless nothing is matched yet *)
        assert (Nf : forall k', (q = [] -> In k' (map fst ((k, c) :: l))) -> nofree (q ++ [k'])).
        { intros k' Hin s Hs _ Hn. destruct q as [|x q].
          - cbn in Lq. destruct ls; [|discriminate]. specialize (B s Hs). cbn [bottom] in B. cbn in Hn. subst s.
            specialize (Hin eq_refl). apply in_map_iff in Hin. destruct Hin as (y & Ey & Hin).
            rewrite Forall_forall in B. specialize (B _ Hin). rewrite Ey, keyb_irrefl in B. discriminate.
          - specialize (Fp s Hs). cbn in Hn, Fp, On'. assert (cnt = 0) by (apply Fp; [discriminate|exact Hn]). lia. }
        assert (Fq : Forall (key_in P) q).
        { rewrite Hq. rewrite Forall_forall in *. intros y Hy. apply FE. rewrite <- (firstn_skipn (length q) E). apply in_or_app. now left. }
        assert (Fk : forall k' c', In (k', c') ((k, c) :: l) -> Forall (key_in P) (q ++ [k'])).
        { intros k' c' [X|X]; apply Forall_app; (split; [exact Fq|]); constructor; auto.
          - congruence.
          - rewrite Forall_forall in Gf'. apply (Gf' _ X). }
        assert (Gt : forall k' c', In (k', c') ((k, c) :: l) -> keyb (nth (length q) E None) k' = true -> W (q ++ [k']) = false).
        { intros k' c' Hin Hg. apply W_gt; [fold m; lia|exact Hq|exact Hg| |exact (Fk k' c' Hin)].
          apply Nf. intros _. apply in_map_iff. exists (k', c'). auto. }
        assert (Hset : set_nth (trues cnt) (length q) true = trues (Nat.max cnt (S (length q)))) by (apply trues_set; lia).
        assert (Pop : Forall (fun kc => W (q ++ [fst kc]) = false) ((k, c) :: l) ->
          exists ps' ls' cnt', end_rounds es ec ps (set_nth (trues cnt) (length q) true) = Ok (ps', trues cnt') /\ stands ps' ls' /\
            inv cnt' ls' /\ Wl (pend ls') = Wl (pend ((q, (k, c) :: l) :: ls)) /\
            hung ls' = hung ((q, (k, c) :: l) :: ls) /\ ready cnt' ls').
        { intros F0. rewrite Hset. destruct (IH (Nat.max cnt (S (length q)))) as (ps' & ls' & cnt' & X1 & X2 & X3 & X4 & X5 & X6).
          { apply (pop_inv cnt q ((k, c) :: l) ls I); [auto|lia|]. right. auto. }
          exists ps', ls', cnt'. split; [exact X1|]. split; [exact X2|]. split; [exact X3|]. split; [|split; [|exact X6]].
          - rewrite X4. unfold pend at 2. cbn [flat_map fst snd]. rewrite Wl_app, (filter_below q _ F0). reflexivity.
          - rewrite X5. cbn [hung]. destruct ls as [|[q1 [|y l1]] ls1]; cbn [hung length] in *; try reflexivity. apply Nat.ltb_ge. lia. }
        destruct (keyb (nth (length q) E None) k) eqn:Kgt.
        { apply Pop. constructor; [apply (Gt k c); [now left|exact Kgt]|]. apply Forall_forall. intros [k' c'] Hin. cbn [fst].
          apply (Gt k' c'); [now right|]. rewrite Forall_forall in Ga1. eapply keyb_trans; [exact Kgt|exact (Ga1 _ Hin)]. }
        destruct (same k (nth (length q) E None)) eqn:Ks.
        * apply same_eq in Ks; [|eapply key_in_full; eassumption|eapply key_in_full; eassumption].
          assert (Rest : Forall (fun kc => keyb (nth (length q) E None) (fst kc) = true) l) by (rewrite <- Ks; exact Ga1).
          assert (Hcnt : Nat.max cnt (S (length q)) = S (length q)).
          { destruct Po as [(R1 & _)|(_ & _ & _ & _ & [Y|Y])]; [lia|lia|]. exfalso. inversion Y as [|? ? Y1 Y2]; subst. cbn [fst] in Y1. congruence. }
          rewrite Hset, Hcnt in *.
          assert (Hn : forall r, Forall (key_in P) r -> nofree (q ++ k :: r)).
          { intros r _ s Hs _ Hn. apply (Nf k (fun _ => or_introl eq_refl) s Hs); [destruct q; discriminate|]. destruct q; exact Hn. }
          assert (Es : E = q ++ k :: skipn (S (length q)) E) by (rewrite Ks; apply split_nth; [fold m; lia|exact Hq]).
          assert (Stop : (S (length q) = m -> compl = false) -> W (q ++ [k]) = true -> exists ps' ls' cnt',
            Ok ((q, i2) :: ps, trues (S (length q))) = Ok (ps', trues cnt') /\ stands ps' ls' /\
            inv cnt' ls' /\ Wl (pend ls') = Wl (pend ((q, (k, c) :: l) :: ls)) /\
            hung ls' = hung ((q, (k, c) :: l) :: ls) /\ ready cnt' ls').
          { intros Hcm2 Hw. exists ((q, i2) :: ps), ((q, (k, c) :: l) :: ls), (S (length q)). split; [reflexivity|]. split; [constructor; auto|].
            split.
            { cbn [inv]. split; [split; assumption|]. split; [exact C|]. split; [|split; [|exact B]].
              - right. unfold passed. split; [lia|]. split; [lia|]. split; [exact Hq|]. split; [|now left].
                constructor; [cbn [fst]; rewrite Ks; apply keyb_irrefl|]. eapply Forall_impl; [|exact Rest]. intros y Hy. apply (keyb_not_same _ _ Hy).
              - intros s Hs Nq Hh. exfalso. apply (Nf k (fun _ => or_introl eq_refl) s Hs); [destruct q; discriminate|].
                rewrite app_nth1; [exact Hh|]. destruct q; [congruence|cbn; lia]. }
            split; [reflexivity|]. split; [reflexivity|]. cbn [ready]. split; [exact Hw|]. split; [|split].
            - unfold reached. rewrite app_length. cbn [length]. split; [lia|]. split; [lia|]. split; [|split; [|intros X _; auto]].
              + transitivity (firstn (S (length q)) (q ++ k :: skipn (S (length q)) E)); [|f_equal; symmetry; exact Es]. rewrite !firstn_app. replace (S (length q) - length q) with 1 by lia. cbn [firstn]. reflexivity.
              + intros _ X. lia.
            - right. apply above_passed; [lia|lia|exact Hq|exact Rest].
            - intros s Hs Nq Hh. exfalso. exact (Nf k (fun _ => or_introl eq_refl) s Hs Nq Hh). }
          destruct (Nat.eqb_spec (S (length ls)) m) as [Em|Em].
          -- assert (Es1 : E = q ++ [k]).
             { rewrite Es at 1. f_equal. f_equal. apply skipn_all2. fold m. lia. }
             destruct (end_kind ec compl Hec) as [(Cb & Hm)|(Cb & Hm)]; rewrite Hm.
             ++ apply Stop; [auto|]. rewrite <- Es1. rewrite <- (app_nil_r E). apply W_under. exact Cb.
             ++ apply Pop. constructor.
                ** cbn [fst]. rewrite <- Es1. rewrite <- (app_nil_r E). apply W_end; [lia|exact Cb|rewrite app_nil_r; exact FE|].
                   rewrite app_nil_r, Es1. apply Nf. intros _. now left.
                ** apply Forall_forall. intros [k' c'] Hin. cbn [fst]. apply (Gt k' c'); [now right|]. rewrite Forall_forall in Rest. exact (Rest _ Hin).
          -- apply Stop; [lia|]. rewrite Ks. apply W_on; [lia|exact Hq].
        * assert (Klt : keyb k (nth (length q) E None) = true).
          { destruct (keyb k (nth (length q) E None)) eqn:X; [reflexivity|]. unfold same in Ks. rewrite X, Kgt in Ks. discriminate. }
          assert (R : reached cnt q).
          { destruct Po as [R|(_ & _ & _ & Y & _)]; [exact R|]. inversion Y as [|? ? Y1 Y2]; subst. cbn [fst] in Y1. congruence. }
          assert (Ec : cnt = length q) by (destruct R as (R1 & _); lia).
          rewrite trues_clear by lia.
          exists ((q, i2) :: ps), ((q, (k, c) :: l) :: ls), cnt. split; [reflexivity|]. split; [constructor; auto|]. split; [exact I|].
          split; [reflexivity|]. split; [reflexivity|]. cbn [ready]. split; [apply W_lt; [lia|exact Hq|exact Klt]|].
          split; [|split; [now left|]].
          -- subst cnt. unfold reached. rewrite app_length. cbn [length]. split; [lia|]. split; [lia|]. split; [|split; [|lia]].
             ++ rewrite firstn_app, firstn_all, Nat.sub_diag. cbn. rewrite app_nil_r. exact Hq.
             ++ intros _ _. left. rewrite app_nth2, Nat.sub_diag by lia. exact Klt.
          -- intros s Hs Nq Hh. destruct q as [|x q]; [exact Ec|]. apply (Fp s Hs); [discriminate|exact Hh].
      + exists ((q, i) :: ps), ((q, l) :: ls), cnt. split; [reflexivity|]. split; [constructor; auto|]. split; [exact I|].
        split; [reflexivity|]. split; [reflexivity|]. cbn [ready]. destruct l as [|[k c] l]; [exact L|].
        assert (R : reached cnt q) by (destruct Po as [R|(Y1 & Y2 & _)]; [exact R|lia]).
        assert (Lc : cnt < m -> cnt < length q) by lia.
        split; [apply (W_reached cnt q [k] R Lc)|]. split; [exact (reached_more cnt q k R Lc)|]. split; [now left|].
        intros s Hs Nq Hh. destruct q as [|x q].
        * destruct R as (R1 & _). cbn in R1. lia.
        * apply (Fp s Hs); [discriminate|exact Hh].
  Qed.

  (** ** Runs *)

  Definition rstate (r : riter) (cnt : nat) (ls : list todo) : Prop :=
    ri_is_root r = false /\ ri_started r = true /\ ri_ends r = es /\ ri_end_child r = ec /\ ri_matches r = trues cnt /\
    stands (ri_paths r) ls /\ inv cnt ls.

  Lemma inv_cnt cnt ls : inv cnt ls -> cnt <= m.
  Proof. destruct ls as [|[q l] ls]; [auto|]. intros (_ & _ & [(A1 & A2 & _)|(A1 & A2 & _)] & _); assumption. Qed.
  Lemma check_end_ok r cnt ls : rstate r cnt ls -> exists r' cnt' ls', check_end r = Ok r' /\ rstate r' cnt' ls' /\
    Wl (pend ls') = Wl (pend ls) /\ hung ls' = hung ls /\ ready cnt' ls'.
  Proof.
    intros (H1 & H2 & H3 & H4 & H5 & H6 & H7). pose proof (inv_cnt _ _ H7) as Hc.
    destruct (end_rounds_ok _ _ H6 cnt H7) as (ps' & ls' & cnt' & X1 & X2 & X3 & X4 & X5 & X6).
    assert (Le : length es = m) by (unfold m; rewrite <- HE, map_length; reflexivity).
    unfold check_end. rewrite H3, H5, trues_length, Le, Nat.eqb_refl by exact Hc. cbn [negb]. rewrite H1, H4, X1. cbn [rbind].
    destruct (list_kind es) as [(Z & Hm)|(Z & Hm)]; rewrite Hm; rewrite Le in Z.
    - exists r, cnt, ls. split; [reflexivity|]. split; [repeat split; assumption|]. split; [reflexivity|]. split; [reflexivity|].
      clear X1 X2 X3 X4 X5 X6 ls' cnt'. destruct ls as [|[q l] ls]; [exact I|]. cbn [ready]. destruct l as [|[k c] l]; [cbn; lia|].
      assert (cnt = 0) by lia. subst cnt.
      assert (R : forall q, reached 0 q) by (intros q0; unfold reached; repeat split; lia).
      split; [now apply W_zero|]. split; [apply R|]. split; [left; apply R|]. intros s0 _ _ _. reflexivity.
    - eexists _, cnt', ls'. split; [reflexivity|]. split; [|split; [exact X4|split; [exact X5|exact X6]]].
      unfold rstate, with_paths. cbn [ri_is_root ri_started ri_ends ri_end_child ri_matches ri_paths]. repeat split; auto.
  Qed.

  Definition left_to (ls : list todo) : list shown * bool := if hung ls then ([], true) else visible m (Wl (pend ls)).

  Lemma Wl_none q k c : W (q ++ [k]) = false -> Wl (nodes (q ++ [k]) c) = [].
  Proof.
    intros H. pose proof (filter_below q [(k, c)]) as X. unfold below in X. cbn [flat_map fst snd] in X. rewrite app_nil_r in X.
    apply X. constructor; [exact H|constructor].
  Qed.
  Lemma Wl_below q l y rest : Wl (below q l) = y :: rest -> length (fst y) = S (length q).
  Proof.
    unfold below. induction l as [|[k c] l IH]; [discriminate|]. cbn [flat_map fst snd]. rewrite Wl_app.
    destruct (W (q ++ [k])) eqn:E1.
    - rewrite nodes_eq. unfold Wl at 1. cbn [filter fst]. rewrite E1. cbn [app]. intros H. injection H as <- _. cbn [fst].
      rewrite app_length. cbn. lia.
    - rewrite (Wl_none q k c E1). exact IH.
  Qed.
  Lemma Wl_pend ls : forall q y rest, chain q ls -> Wl (pend ls) = y :: rest -> length (fst y) <= length q.
  Proof.
    induction ls as [|[q0 l0] ls IH]; intros q y rest C H; [discriminate|]. cbn [chain] in C. destruct C as ((x & -> & _) & _ & C).
    unfold pend in H. cbn [flat_map fst snd] in H. rewrite Wl_app in H. rewrite app_length. cbn [length].
    destruct (Wl (below q0 l0)) as [|z zs] eqn:E1.
    - cbn [app] in H. specialize (IH q0 y rest C H). lia.
    - cbn [app] in H. injection H as <- _. rewrite (Wl_below _ _ _ _ E1). lia.
  Qed.

  Definition after (q : path) (k : gslice) (c : tnode) (l : list (gslice * tnode)) (ls : list todo) : list todo :=
    match kids c with [] => (q, l) :: ls | _ => (q ++ [k], kids c) :: (q, l) :: ls end.
  Lemma after_inv cnt q k c l ls : inv cnt ((q, (k, c) :: l) :: ls) -> ready cnt ((q, (k, c) :: l) :: ls) -> inv cnt (after q k c l ls).
  Proof.
    intros ((Ga & Gf) & C & Po & Fp & B) (Hw & R & Po' & Fp').
    pose proof (Forall_inv Gf) as (Kk & Ek & Rk & Ok_). pose proof (Forall_inv_tail Gf) as Gf'. cbn [fst snd] in Kk, Ek, Rk, Ok_.
    assert (Ga1 : Forall (fun y => keyb k (fst y) = true) l) by (inversion Ga; assumption).
    assert (Ga2 : ascends l) by (inversion Ga; assumption).
    assert (B' : forall s, free = Some s -> bottom s ((q, l) :: ls)).
    { intros s Hs. specialize (B s Hs). cbn [bottom] in *. destruct ls; [|exact B]. exact (Forall_inv_tail B). }
    unfold after. destruct (kids c) as [|x xs] eqn:Ex.
    - cbn [inv]. split; [split; assumption|]. split; [exact C|]. split; [exact Po'|]. split; [exact Fp|exact B'].
    - rewrite <- Ex. cbn [inv chain]. split; [|split; [|split; [|split]]].
      + split; [exact (kids_ascend P c Ok_)|]. apply Forall_forall. intros [k' c'] Hin. cbn [fst snd].
        destruct (kids_full P c k' c' Ok_ Hin) as (_ & Y1 & Y2). destruct (regular_kids c Rk [] k' c' Hin) as [Z1 Z2]. auto.
      + split; [exists k; auto|]. split; [split; assumption|exact C].
      + now left.
      + exact Fp'.
      + intros s Hs. specialize (B' s Hs). cbn [bottom] in *. exact B'.
  Qed.
  Lemma after_pend q k c l ls : pend ((q, (k, c) :: l) :: ls) = (q ++ [k], tn_data c) :: pend (after q k c l ls).
  Proof.
    unfold after, pend, below. cbn [flat_map fst snd]. rewrite nodes_eq. cbn [app]. f_equal. unfold below.
    destruct (kids c) as [|x xs]; cbn [flat_map fst snd app]; [reflexivity|]. now rewrite <- !app_assoc.
  Qed.
  Lemma after_left cnt q k c l ls : inv cnt ((q, (k, c) :: l) :: ls) -> ready cnt ((q, (k, c) :: l) :: ls) ->
    left_to ((q, (k, c) :: l) :: ls) = ((q ++ [k], tn_data c) :: fst (left_to (after q k c l ls)), snd (left_to (after q k c l ls))).
  Proof.
    intros I Rd. pose proof I as (G & C & Po & Fp & B). pose proof Rd as (Hw & R & Po' & Fp').
    assert (Lq : length q = length ls) by (apply chain_length; exact C).
    unfold left_to at 1. cbn [hung]. rewrite after_pend. unfold Wl at 1. cbn [filter fst]. rewrite Hw. fold (Wl (pend (after q k c l ls))).
    cbn [visible fst]. rewrite app_length. cbn [length].
    assert (T : (Nat.ltb m (length q + 1) && match Wl (pend (after q k c l ls)) with [] => true | y :: _ => Nat.ltb (length (fst y)) (length q + 1) end)%bool
                = hung (after q k c l ls)).
    { destruct (Nat.ltb_spec m (length q + 1)) as [L|L]; cbn [andb].
      - unfold after. destruct (kids c) as [|[k' c'] xs] eqn:Ex.
        + destruct l as [|[k' c'] l].
          * cbn [hung length]. replace (Nat.ltb m (S (length ls))) with true by (symmetry; apply Nat.ltb_lt; lia).
            unfold pend. cbn [flat_map fst snd below app]. fold (pend ls). destruct (Wl (pend ls)) as [|y rest] eqn:Ey; [reflexivity|].
            apply Nat.ltb_lt. pose proof (Wl_pend ls q y rest C Ey). lia.
          * cbn [hung]. unfold pend, below. cbn [flat_map fst snd]. rewrite nodes_eq. cbn [app].
            assert (Wk : W (q ++ [k']) = true).
            { apply (W_reached cnt q [k']).
              - destruct Po' as [R'|(Y1 & Y2 & _)]; [exact R'|lia].
              - lia. }
            unfold Wl. cbn [filter fst]. rewrite Wk. cbn [fst]. rewrite app_length. cbn [length]. apply Nat.ltb_irrefl.
        + cbn [hung]. unfold pend, below. cbn [flat_map fst snd]. rewrite nodes_eq. cbn [app].
          assert (Wk : W ((q ++ [k]) ++ [k']) = true) by (apply (W_reached cnt _ [k'] R); rewrite app_length; cbn; lia).
          unfold Wl. cbn [filter fst]. rewrite Wk. cbn [fst]. rewrite !app_length. cbn [length]. apply Nat.ltb_ge. lia.
      - symmetry. unfold after. destruct (kids c); [|reflexivity]. cbn [hung]. destruct l; [|reflexivity]. cbn [length]. apply Nat.ltb_ge. lia. }
    rewrite T. unfold left_to. destruct (hung (after q k c l ls)); [reflexivity|]. destruct (visible m (Wl (pend (after q k c l ls)))). reflexivity.
  Qed.

  Lemma next_busy f : forall r p i ps, ri_paths r = (p, i) :: ps -> acts i [] -> range_next_loop f r = None.
  Proof using Type.
    clear. induction f as [|f IH]; intros r p i ps E A; cbn [range_next_loop]; rewrite E; [reflexivity|].
    destruct (acts_has i [] A) as (i1 & -> & A1). cbn [mbind more]. apply (IH _ p i1 ps); [reflexivity|exact A1].
  Qed.
  Lemma peek_busy f : forall r p i ps, ri_paths r = (p, i) :: ps -> acts i [] -> range_peek_loop f r = None.
  Proof using Type.
    clear. induction f as [|f IH]; intros r p i ps E A; cbn [range_peek_loop]; rewrite E; [reflexivity|].
    destruct (acts_has i [] A) as (i1 & -> & A1). cbn [mbind more]. apply (IH _ p i1 ps); [reflexivity|exact A1].
  Qed.
  Lemma inv_reg cnt ls : inv cnt ls -> Forall reg_todo ls.
  Proof using Type.
    assert (X : forall l q, good l -> reg_todo (q, l)).
    { intros l q (_ & F) k c Hin. rewrite Forall_forall in F. destruct (F _ Hin) as (_ & X1 & X2 & _). auto. }
    assert (Y : forall ls q, chain q ls -> Forall reg_todo ls).
    { clear ls. induction ls as [|[q0 l0] ls IH]; intros q C; [constructor|]. cbn [chain] in C. destruct C as (_ & G & C). constructor; eauto. }
    destruct ls as [|[q l] ls]; [constructor|]. intros (G & C & _). constructor; eauto.
  Qed.

  Lemma range_run_ok f cs : forall r cnt ls, rstate r cnt ls ->
    range_run (S f) r cs = answers (fst (left_to ls)) (snd (left_to ls)) cs.
  Proof.
    induction cs as [|c cs IH]; intros r cnt ls H; [reflexivity|]. cbn [range_run].
    destruct (check_end_ok r cnt ls H) as (r' & cnt' & ls' & Ec & H' & Hp & Hh & Rd).
    assert (El : left_to ls = left_to ls') by (unfold left_to; rewrite Hp, Hh; reflexivity). rewrite El. clear El Hp Hh.
    assert (Es : check_start r = Ok r) by (unfold check_start; destruct H as (_ & -> & _); reflexivity).
    pose proof H' as (Q1 & Q2 & Q3 & Q4 & Q5 & Q6 & Q7).
    destruct ls' as [|[q [|[k n] l]] ls'].
    - (* nothing left *)
      assert (Ep : ri_paths r' = []) by (inversion Q6; reflexivity).
      destruct c; cbn [range_step answers left_to hung pend flat_map Wl filter visible fst snd hd_error tl];
        unfold range_has_next, range_peek, range_next; rewrite Es; cbn [rbind]; rewrite Ec; cbn [rbind mbind]; rewrite Q1;
        cbn [range_peek_loop range_next_loop]; rewrite Ep; cbn [orb option_map rmap rbind fst snd]; rewrite (IH _ _ _ H'); reflexivity.
    - (* stuck *)
      assert (Ep : exists i ps, ri_paths r' = (q, i) :: ps /\ acts i []).
      { inversion Q6 as [|[p i] y ps zs [X1 X2] X3 X4]; subst. cbn in X1, X2. subst. eauto. }
      destruct Ep as (i & ps & Ep & A). cbn [ready] in Rd.
      assert (Hl : left_to ((q, []) :: ls') = ([], true)).
      { unfold left_to. cbn [hung]. apply Nat.ltb_lt in Rd. rewrite Rd. reflexivity. }
      destruct c; cbn [range_step answers]; unfold range_has_next, range_peek, range_next; rewrite Es; cbn [rbind]; rewrite Ec;
        cbn [rbind mbind]; rewrite Q1.
      + rewrite Ep. cbn [orb]. rewrite (IH _ _ _ H'), Hl. reflexivity.
      + rewrite (peek_busy _ _ _ _ _ Ep A), Hl. reflexivity.
      + rewrite (next_busy _ _ _ _ _ Ep A), Hl. reflexivity.
    - (* a node *)
      assert (Ep : exists i ps, ri_paths r' = (q, i) :: ps /\ acts i ((k, n) :: l) /\ stands ps ls').
      { inversion Q6 as [|[p i] y ps zs [X1 X2] X3 X4]; subst. cbn in X1, X2. subst. eauto. }
      destruct Ep as (i & ps & Ep & A & S0). pose proof (after_left _ _ _ _ _ _ Q7 Rd) as Hl.
      destruct (acts_has i _ A) as (i1 & Eh & A1).
      assert (Reg : tn_key n = k /\ regular n) by (apply (Forall_inv (inv_reg _ _ Q7) k n); now left).
      destruct Reg as [Ek Rn].
      destruct c; cbn [range_step answers]; unfold range_has_next, range_peek, range_next; rewrite Es; cbn [rbind]; rewrite Ec;
        cbn [rbind mbind]; rewrite Q1.
      + rewrite Ep. cbn [orb]. rewrite (IH _ _ _ H'), Hl. reflexivity.
      + cbn [range_peek_loop]. rewrite Ep, Eh. cbn [mbind more]. destruct (acts_peek i1 _ _ _ A1) as (i2 & -> & A2). cbn [rbind option_map rmap fst snd].
        rewrite Ek, Hl. cbn [fst snd hd_error].
        match goal with |- _ :: range_run _ ?r2 _ = _ => assert (H2 : rstate r2 cnt' ((q, (k, n) :: l) :: ls')) end.
        { unfold rstate, with_paths. cbn [ri_is_root ri_started ri_ends ri_end_child ri_matches ri_paths].
          split; [exact Q1|]. split; [exact Q2|]. split; [exact Q3|]. split; [exact Q4|]. split; [exact Q5|]. split; [constructor; auto|exact Q7]. }
        rewrite (IH _ _ _ H2), Hl. reflexivity.
      + cbn [range_next_loop]. rewrite Ep, Eh. cbn [mbind more]. destruct (acts_next i1 _ _ _ A1) as (i2 & -> & A2). cbn [rbind].
        rewrite Ek.
        destruct (push_ok (q ++ [k]) n ((q, i2) :: ps) ((q, l) :: ls') Rn) as (ps2 & ls2 & -> & S2 & F2 & P2 & E2).
        { constructor; auto. }
        { pose proof (inv_reg _ _ Q7) as Fr. constructor; [|exact (Forall_inv_tail Fr)].
          intros k' c' Hin. apply (Forall_inv Fr). now right. }
        cbn [rbind].
        assert (Ea : ls2 = after q k n l ls') by exact E2.
        assert (H2 : rstate (with_paths r' ps2 (ri_matches r')) cnt' (after q k n l ls')).
        { unfold rstate, with_paths. cbn [ri_is_root ri_started ri_ends ri_end_child ri_matches ri_paths].
          split; [exact Q1|]. split; [exact Q2|]. split; [exact Q3|]. split; [exact Q4|]. split; [exact Q5|].
          split; [rewrite <- Ea; exact S2|apply after_inv; assumption]. }
        destruct (check_end_ok _ _ _ H2) as (r3 & cnt3 & ls3 & -> & H3 & Hp3 & Hh3 & _). cbn [rbind option_map rmap fst snd].
        rewrite Hl. cbn [fst snd hd_error tl]. rewrite (IH _ _ _ H3).
        assert (El : left_to ls3 = left_to (after q k n l ls')) by (unfold left_to; rewrite Hp3, Hh3; reflexivity). rewrite El. reflexivity.
  Qed.
End EndPhase.
