(** * A hash table in which some keys were changed still treats the other keys as it should. *)
From Coq Require Import List NArith ZArith Bool Lia Permutation.
From Verif Require Import Base BaseProofs AVLModel MapSpec MapProofs AVLProofs HashModel HashSpec HashProofs MutKeyModel MutKeySpec MutKeyProofs.
Import ListNotations.

Section Class.
  Context {K V : Type} (equalb : K -> K -> res bool) (hashf : K -> res N) (pol : policy).
  Context (D : K -> Prop) (eqv : K -> K -> Prop) (HK : hash_keys D eqv equalb hashf).
  (** A class of equal keys and its slot. *)
  Context (C : K -> Prop) (place : nat -> nat).
  Context (Cdec : forall a, D a -> C a \/ ~ C a) (Ceq : forall a b, C a -> C b -> eqv a b) (Cres : forall a b, eqv a b -> C a -> C b).
  Context (Cplace : forall n a, D a -> C a -> home hashf n a = place n).
  Notation chain := (list (K * V)).

  Definition once (l : chain) : Prop := ForallOrdPairs (fun a b => ~ (C (fst a) /\ C (fst b))) l.
  Definition in_place (arr : list chain) : Prop :=
    forall j c, nth_error arr j = Some c -> Forall (fun e => C (fst e) -> j = place (length arr)) c.

  Lemma once_perm l l' : Permutation l l' -> once l -> once l'.
  Proof using Type.
    clear. unfold once. induction 1 as [|x l l' P IH|x y l|l l' l'' P1 IH1 P2 IH2]; intros H.
    - constructor.
    - inversion H as [|x0 l0 Hx Hl E]; subst. constructor; [|auto].
      rewrite Forall_forall in *. intros e He. apply Hx. eapply Permutation_in; [apply Permutation_sym, P|exact He].
    - inversion H as [|x0 l0 Hx Hl E]; subst. inversion Hl as [|x1 l1 Hx1 Hl1 E1]; subst.
      inversion Hx as [|x2 l2 Hxy Hx2 E2]; subst. constructor; [constructor; [tauto|exact Hx1]|]. constructor; assumption.
    - auto.
  Qed.
  Lemma once_mid l1 x l2 : once (l1 ++ x :: l2) <-> once (l1 ++ l2) /\ (C (fst x) -> Forall (fun e => ~ C (fst e)) (l1 ++ l2)).
  Proof using Type.
    clear. split.
    - intros H. apply (once_perm _ (x :: l1 ++ l2)) in H; [|apply Permutation_sym, Permutation_middle].
      inversion H as [|x0 l0 Hx Hl E]; subst. split; [exact Hl|]. intros Cx. eapply Forall_impl; [|exact Hx]. cbn beta. tauto.
    - intros (H & F). apply (once_perm (x :: l1 ++ l2)); [apply Permutation_middle|]. constructor; [|exact H].
      rewrite Forall_forall. intros e Ie (C1 & C2). specialize (F C1). rewrite Forall_forall in F. exact (F e Ie C2).
  Qed.
  Lemma in_place_set a1 c a2 c' : in_place (a1 ++ c :: a2) ->
    Forall (fun e => C (fst e) -> length a1 = place (length (a1 ++ c :: a2))) c' -> in_place (a1 ++ c' :: a2).
  Proof using Type.
    clear. intros P F i d. assert (L : length (a1 ++ c' :: a2) = length (a1 ++ c :: a2)) by (rewrite !app_length; reflexivity).
    rewrite L. intros E. destruct (Nat.lt_trichotomy i (length a1)) as [H|[->|H]].
    - apply P. rewrite nth_error_app1 in * by lia. exact E.
    - rewrite nth_error_app2, Nat.sub_diag in E by lia. cbn in E. injection E as <-. exact F.
    - apply P. rewrite nth_error_app2 in * by lia. destruct (i - length a1) as [|j] eqn:Ej; [lia|]. cbn in *. exact E.
  Qed.
  Lemma placed_in arr : dom D (concat arr) -> placed hashf arr -> in_place arr.
  Proof using Cplace.
    intros Dm P j c E. specialize (P j c E). rewrite Forall_forall in *. intros e Ie Ce. rewrite <- (P e Ie). apply Cplace; [|exact Ce].
    unfold dom in Dm. rewrite Forall_forall in Dm. apply Dm, in_concat. exists c. split; [eapply nth_error_In; eauto|exact Ie].
  Qed.
  (** Resizing puts every key in its place. *)
  Lemma maybe_resize_class d arr : dom D (concat arr) -> in_place arr -> (forall n, d = Some n -> cap_ok (Z.to_nat (clamp n))) -> cap_ok (length arr) ->
    exists arr', maybe_resize hashf d arr = Ok arr' /\ cap_ok (length arr') /\ in_place arr' /\ Permutation (concat arr') (concat arr).
  Proof using HK Cplace.
    intros Dm P Hc Ho. destruct d as [n|]; cbn [maybe_resize]; [|exists arr; auto]. specialize (Hc n eq_refl).
    unfold resize. fold (clamp n). destruct (zlen arr =? clamp n)%Z eqn:E; [exists arr; auto|].
    destruct (rehash_ok _ _ _ _ HK (concat arr) (repeat [] (Z.to_nat (clamp n))) Dm) as (arr' & -> & L & P' & Pm).
    - now rewrite repeat_length.
    - apply placed_empty.
    - rewrite concat_repeat_nil, app_nil_r in Pm. rewrite repeat_length in L. exists arr'. split; [reflexivity|]. split; [now rewrite L|].
      split; [|exact Pm]. apply placed_in; [|exact P']. eapply dom_perm; [apply Permutation_sym, Pm|exact Dm].
  Qed.

  Definition fit (arr : list chain) : Prop := cap_ok (length arr) /\ dom D (concat arr) /\ in_place arr /\ once (concat arr).
  Lemma fit_resize d arr : fit arr -> (forall n, d = Some n -> cap_ok (Z.to_nat (clamp n))) ->
    exists arr', maybe_resize hashf d arr = Ok arr' /\ fit arr' /\ Permutation (concat arr') (concat arr).
  Proof using HK Cplace.
    intros (Hc & Dm & P & O) H. destruct (maybe_resize_class d arr Dm P H Hc) as (arr' & E & C' & P' & Pm). exists arr'. split; [exact E|]. split; [|exact Pm].
    split; [exact C'|]. split; [eapply dom_perm; [apply Permutation_sym, Pm|exact Dm]|]. split; [exact P'|]. eapply once_perm; [apply Permutation_sym, Pm|exact O].
  Qed.

  Definition class_contract (op : mop K V) (l l' : chain) (n : option (K * V)) : Prop :=
    (forall e, In e l' -> op = MPut (fst e) (snd e) \/ In e l) /\
    (forall k v, C k -> (In (k, v) l' <-> op = MPut k v \/ (~ touches eqv k op /\ In (k, v) l))) /\
    match n with Some (k0, v0) => eqv (op_key op) k0 /\ In (k0, v0) l | None => C (op_key op) -> forall k v, In (k, v) l -> ~ eqv (op_key op) k end.
  Lemma contract_perm op l l' l'' n : Permutation l'' l' -> class_contract op l l' n -> class_contract op l l'' n.
  Proof using Type.
    clear. intros Pm (H1 & H2 & H3). split; [|split; [|exact H3]].
    - intros e I. apply H1. eapply Permutation_in; eauto.
    - intros k v Ck. rewrite <- (H2 k v Ck). split; intros I; eapply Permutation_in; try exact I; [exact Pm|apply Permutation_sym, Pm].
  Qed.

  Lemma class_step t op : D (op_key op) -> fit (h_array t) -> policy_ok pol ->
    exists t' n, hash_step equalb hashf pol t op = Ok (t', n) /\ fit (h_array t') /\
      class_contract op (concat (h_array t)) (concat (h_array t')) n.
  Proof using HK Cdec Ceq Cres Cplace.
    intros Dk Ft Hpol. pose proof Ft as (Hc & Dm & P & O). destruct t as [arr size]. cbn [h_array] in *.
    pose proof (hk_sym _ _ _ _ HK) as sym.
    assert (K0 : exists k, op_key op = k) by eauto. destruct K0 as [k Ek]. rewrite Ek in Dk.
    destruct (slot_home equalb hashf D eqv HK arr k Dk Hc) as [Hslot Hlt].
    destruct (nth_error arr (home hashf (length arr) k)) as [c|] eqn:E; [|exfalso; apply nth_error_None in E; lia].
    destruct (bucket_split arr _ c E) as (a1 & a2 & Ea & El).
    assert (Ec : concat arr = concat a1 ++ c ++ concat a2) by (rewrite Ea, concat_app; reflexivity).
    assert (Dc : dom D c). { unfold dom in *. rewrite Ec, !Forall_app in Dm. tauto. }
    assert (Hset : forall c', set_bucket arr (home hashf (length arr) k) c' = a1 ++ c' :: a2).
    { intros c'. rewrite <- El. rewrite Ea at 1. apply set_bucket_split. }
    assert (Len : forall c', length (a1 ++ c' :: a2) = length arr) by (intros c'; rewrite Ea, !app_length; reflexivity).
    (* the entries of the class, if the key is in it, are in its chain *)
    assert (Here : C k -> forall e, In e (concat arr) -> C (fst e) -> In e c).
    { intros Ck e Ie Ce. apply in_concat in Ie. destruct Ie as (d & Id & Ie). apply In_nth_error in Id. destruct Id as (j & Ej).
      pose proof (P j d Ej) as Fd. rewrite Forall_forall in Fd. specialize (Fd e Ie Ce). rewrite <- (Cplace _ k Dk Ck) in Fd. congruence. }
    assert (None_in : C k -> Forall (fun e => ~ eqv (fst e) k) c -> forall e, In e (concat arr) -> ~ C (fst e)).
    { intros Ck F e Ie Ce. rewrite Forall_forall in F. apply (F e (Here Ck e Ie Ce)). now apply Ceq. }
    assert (Apart : ~ C k -> forall k', C k' -> ~ eqv k' k) by (intros N k' Ck' R; exact (N (Cres _ _ R Ck'))).
    assert (Fit : forall c', dom D c' -> Forall (fun e => C (fst e) -> C k \/ In e c) c' -> once (concat (a1 ++ c' :: a2)) -> fit (a1 ++ c' :: a2)).
    { intros c' Dc' Fc' O'. split; [rewrite Len; exact Hc|]. split; [|split; [|exact O']].
      - unfold dom in *. rewrite concat_app. cbn [concat]. rewrite Ec, !Forall_app in Dm. rewrite !Forall_app. tauto.
      - apply (in_place_set a1 c a2 c'); [rewrite <- Ea; exact P|]. rewrite <- Ea. rewrite Forall_forall in *. intros e Ie Ce. rewrite El.
        destruct (Fc' e Ie Ce) as [Ck|Ic]; [now apply Cplace|]. pose proof (P _ _ E) as Fd. rewrite Forall_forall in Fd. exact (Fd e Ic Ce). }
    assert (Old : forall e, In e c -> C (fst e) -> C k \/ In e c) by auto.
    destruct op as [k' v|k'|k']; cbn [op_key] in Ek; subst k'; unfold hash_step.
    - unfold hash_put. cbn [h_array h_size]. rewrite Hslot. cbn [rbind]. unfold bucket. rewrite E. cbn [rbind].
      destruct (chain_replace_ok equalb hashf D eqv HK k v c Dk Dc) as (r & -> & Hr). cbn [rbind].
      destruct r as [[[k0 v0] c']|].
      + destruct Hr as (c1 & c2 & He & Hc1 & Hc2). do 2 eexists. split; [reflexivity|]. rewrite Hset. cbn [h_array].
        assert (E1 : concat arr = (concat a1 ++ c1) ++ (k0, v0) :: c2 ++ concat a2) by (rewrite Ec, Hc1, <- !app_assoc; reflexivity).
        assert (E2 : concat (a1 ++ c' :: a2) = (concat a1 ++ c1) ++ (k, v) :: c2 ++ concat a2).
        { rewrite concat_app. cbn [concat]. rewrite Hc2, <- !app_assoc. reflexivity. }
        rewrite E1 in O. apply once_mid in O. destruct O as (O1 & O2). cbn [fst] in O2. split.
        * apply Fit.
          -- unfold dom in *. rewrite Hc1, Forall_app, Forall_cons_iff in Dc. rewrite Hc2, Forall_app, Forall_cons_iff. cbn [fst] in *. tauto.
          -- rewrite Hc2. apply Forall_forall. intros e Ie Ce. apply in_app_iff in Ie. destruct Ie as [Ie|[<-|Ie]]; [right|left; exact Ce|right]; rewrite Hc1; apply in_app_iff; [now left|right; now right].
          -- rewrite E2. apply once_mid. cbn [fst]. split; [exact O1|]. intros Ck. apply O2. exact (Cres _ _ (sym _ _ He) Ck).
        * rewrite E1, E2. split; [|split].
          -- intros e Ie. apply in_app_iff in Ie. destruct Ie as [Ie|[<-|Ie]]; [right|left; reflexivity|right]; apply in_app_iff; [now left|right; now right].
          -- intros kk u Ckk. cbn [touches]. destruct (Cdec k Dk) as [Ck|Nk].
             ++ assert (C0 : C k0) by exact (Cres _ _ (sym _ _ He) Ck). specialize (O2 C0). rewrite Forall_forall in O2.
                rewrite in_app_iff. cbn [In]. split.
                ** intros [I|[I|I]]; [|injection I as -> ->; now left|]; exfalso; apply (O2 (kk, u)); auto; apply in_app_iff; auto.
                ** intros [I|(I & _)]; [injection I as -> ->; auto|]. destruct I. now apply Ceq.
             ++ pose proof (Apart Nk kk Ckk) as Q. rewrite !in_app_iff. cbn [In].
                assert (N1 : (k0, v0) <> (kk, u)) by (intros I; injection I as -> ->; exact (Q He)).
                assert (N2 : (k, v) <> (kk, u)) by (intros I; injection I as -> ->; exact (Nk Ckk)).
                split; [intros [I|[I|I]]; [right; tauto|contradiction|right; tauto]|]. intros [I|(_ & [I|[I|I]])]; [congruence|now left|contradiction|right; now right].
          -- cbn [op_key]. split; [apply sym, He|]. apply in_app_iff. right. now left.
      + rewrite Hset.
        assert (E2 : concat (a1 ++ ((k, v) :: c) :: a2) = concat a1 ++ (k, v) :: c ++ concat a2) by (rewrite concat_app; reflexivity).
        assert (Ft2 : fit (a1 ++ ((k, v) :: c) :: a2)).
        { apply Fit.
          - constructor; [exact Dk|exact Dc].
          - constructor; [cbn [fst]; tauto|]. apply Forall_forall. exact Old.
          - rewrite E2. apply once_mid. cbn [fst]. rewrite <- Ec. split; [exact O|]. intros Ck. apply Forall_forall. exact (None_in Ck Hr). }
        destruct (fit_resize (after_put pol (size + 1)%Z (zlen (a1 ++ ((k, v) :: c) :: a2))) _ Ft2) as (arr' & -> & Ft' & Pm).
        { intros n Hn. eapply Hpol. left. exact Hn. }
        cbn [rbind]. do 2 eexists. split; [reflexivity|]. cbn [h_array]. split; [exact Ft'|]. eapply contract_perm; [exact Pm|]. rewrite E2, Ec. split; [|split].
        * intros e Ie. apply in_app_iff in Ie. destruct Ie as [Ie|[<-|Ie]]; [right|left; reflexivity|right]; apply in_app_iff; auto.
        * intros kk u Ckk. cbn [touches]. rewrite (in_app_iff _ ((k, v) :: c ++ concat a2)). cbn [In]. destruct (Cdec k Dk) as [Ck|Nk].
          -- pose proof (None_in Ck Hr) as Q. rewrite Ec in Q. split.
             ++ intros [I|[I|I]]; [|injection I as -> ->; now left|]; exfalso; apply (Q (kk, u)); auto; apply in_app_iff; auto.
             ++ intros [I|(_ & I)]; [injection I as -> ->; auto|]. destruct (Q _ I Ckk).
          -- pose proof (Apart Nk kk Ckk) as Q. rewrite (in_app_iff (concat a1)). split.
             ++ intros [I|[I|I]]; [right; tauto| |right; tauto]. injection I as -> ->. tauto.
             ++ intros [I|(_ & [I|I])]; [injection I as -> ->; auto|auto|auto].
        * cbn [op_key]. intros Ck kk u I R. rewrite <- Ec in I. apply (None_in Ck Hr _ I). exact (Cres _ _ R Ck).
    - unfold hash_remove. cbn [h_array h_size]. rewrite Hslot. cbn [rbind]. unfold bucket. rewrite E. cbn [rbind].
      destruct (chain_remove_ok equalb hashf D eqv HK k c Dk Dc) as (r & -> & Hr). cbn [rbind].
      destruct r as [[[k0 v0] c']|].
      + destruct Hr as (c1 & c2 & He & Hc1 & Hc2). rewrite Hset.
        assert (E1 : concat arr = (concat a1 ++ c1) ++ (k0, v0) :: c2 ++ concat a2) by (rewrite Ec, Hc1, <- !app_assoc; reflexivity).
        assert (E2 : concat (a1 ++ c' :: a2) = (concat a1 ++ c1) ++ c2 ++ concat a2).
        { rewrite concat_app. cbn [concat]. rewrite Hc2, <- !app_assoc. reflexivity. }
        rewrite E1 in O. apply once_mid in O. destruct O as (O1 & O2). cbn [fst] in O2.
        assert (Ft2 : fit (a1 ++ c' :: a2)).
        { apply Fit.
          - unfold dom in *. rewrite Hc1, Forall_app, Forall_cons_iff in Dc. rewrite Hc2, Forall_app. tauto.
          - rewrite Hc2. apply Forall_forall. intros e Ie _. right. rewrite Hc1. apply in_app_iff. apply in_app_iff in Ie. destruct Ie; [now left|right; now right].
          - rewrite E2. exact O1. }
        destruct (fit_resize (after_remove pol (size - 1)%Z (zlen (a1 ++ c' :: a2))) _ Ft2) as (arr' & -> & Ft' & Pm).
        { intros n Hn. eapply Hpol. right. exact Hn. }
        cbn [rbind]. do 2 eexists. split; [reflexivity|]. cbn [h_array]. split; [exact Ft'|]. eapply contract_perm; [exact Pm|]. rewrite E2, E1. split; [|split].
        * intros e Ie. right. rewrite in_app_iff in *. cbn [In]. tauto.
        * intros kk u Ckk. cbn [touches]. rewrite !(in_app_iff (concat a1 ++ c1)). cbn [In]. destruct (Cdec k Dk) as [Ck|Nk].
          -- assert (C0 : C k0) by exact (Cres _ _ (sym _ _ He) Ck). specialize (O2 C0). rewrite Forall_forall in O2. split.
             ++ intros I. destruct (O2 (kk, u)); [apply in_app_iff; exact I|exact Ckk].
             ++ intros [I|(I & _)]; [discriminate|]. destruct I. now apply Ceq.
          -- pose proof (Apart Nk kk Ckk) as Q.
             assert (N1 : (k0, v0) <> (kk, u)) by (intros I; injection I as -> ->; exact (Q He)).
             split; [intros [I|I]; right; tauto|]. intros [I|(_ & [I|[I|I]])]; [discriminate|now left|contradiction|now right].
        * cbn [op_key]. split; [apply sym, He|]. apply in_app_iff. right. now left.
      + do 2 eexists. split; [reflexivity|]. cbn [h_array]. split; [exact Ft|]. split; [|split].
        * intros e Ie. now right.
        * intros kk u Ckk. cbn [touches]. split.
          -- intros I. right. split; [|exact I]. intros R. destruct (Cdec k Dk) as [Ck|Nk]; [exact (None_in Ck Hr _ I Ckk)|exact (Apart Nk _ Ckk R)].
          -- intros [I|(_ & I)]; [discriminate|exact I].
        * cbn [op_key]. intros Ck kk u I R. apply (None_in Ck Hr _ I). exact (Cres _ _ R Ck).
    - unfold hash_get. cbn [h_array h_size]. rewrite Hslot. cbn [rbind]. unfold bucket. rewrite E. cbn [rbind].
      destruct (chain_get_ok equalb hashf D eqv HK k c Dk Dc) as (o & -> & Ho). cbn [rbind].
      do 2 eexists. split; [reflexivity|]. cbn [h_array]. split; [exact Ft|]. split; [|split].
      + intros e Ie. now right.
      + intros kk u Ckk. cbn [touches]. split; [intros I; right; auto|]. intros [I|(_ & I)]; [discriminate|exact I].
      + cbn [op_key]. destruct o as [[k0 v0]|].
        * destruct Ho as (He & I). split; [apply sym, He|]. rewrite Ec. apply in_app_iff. right. apply in_app_iff. now left.
        * intros Ck kk u I R. apply (None_in Ck Ho _ I). exact (Cres _ _ R Ck).
  Qed.
End Class.

(** ** Runs *)
Section Play.
  Context {X V T : Type} (call : list X -> T -> mop nat (option V) -> res (T * option V)).
  Lemma play_app (a b : list (event X V)) : forall w t, play call w t (a ++ b) =
    (let? (t1, o1) := play call w t a in let? (t2, o2) := play call (world w a) t1 b in Ok (t2, o1 ++ o2)).
  Proof.
    induction a as [|[x|i x|op] a IH]; intros w t; cbn [app play].
    - cbn [rbind]. change (world w []) with w. destruct (play call w t b) as [[t2 o2]| |]; reflexivity.
    - apply IH.
    - apply IH.
    - destruct (call w t op) as [[t1 o]| |]; cbn [rbind]; try reflexivity. rewrite IH.
      destruct (play call w t1 a) as [[t2 o2]| |]; cbn [rbind]; try reflexivity. change (world w (Call op :: a)) with (world w a).
      destruct (play call (world w a) t2 b) as [[t3 o3]| |]; reflexivity.
  Qed.
End Play.

Section Runs.
  Context {X V : Type} (eqv : X -> X -> Prop) (D : X -> Prop) (equalx : X -> X -> res bool) (hashx : X -> res N) (pol : policy).
  Context (HX : hash_keys D eqv equalx hashx) (Hpol : policy_ok pol).
  Notation call := (call_hash (V := V) equalx hashx pol).
  Notation table := (hash nat (option V)).

  (** No call panics, whatever was changed. *)
  Definition calm (w : list X) (t : table) : Prop := cap_ok (length (h_array t)) /\ dom (exists_in w) (concat (h_array t)).
  Lemma calm_step w t op : Forall D w -> op_key op < length w -> calm w t -> exists t' n, call w t op = Ok (t', result n) /\ calm w t' /\
    match n with Some (k, v) => at_now eqv w (op_key op) k /\ In (k, v) (concat (h_array t)) | None => True end /\
    forall e, In e (concat (h_array t')) -> op = MPut (fst e) (snd e) \/ In e (concat (h_array t)).
  Proof using HX Hpol.
    intros F Hk (Hc & Dm). pose proof (objects_hash eqv D equalx hashx w HX F) as HK.
    destruct (class_step _ _ pol _ _ HK (fun _ => False) (fun _ => 0) ltac:(intros; now right) ltac:(intros ? ? []) ltac:(intros ? ? ? []) ltac:(intros ? ? ? []) t op Hk)
      as (t' & n & S & (Hc' & Dm' & _) & (C1 & _ & C3)).
    - split; [exact Hc|]. split; [exact Dm|]. split.
      + intros j c _. apply Forall_forall. intros e _ [].
      + unfold once. induction (concat (h_array t)); constructor; [apply Forall_forall; tauto|auto]. apply IHl. now inversion Dm.
    - exact Hpol.
    - exists t', n. split; [unfold call_hash, hm_step; rewrite S; reflexivity|]. split; [split; assumption|]. split; [|exact C1].
      destruct n as [[k v]|]; [exact C3|exact Logic.I].
  Qed.
  Lemma calm_after w (e : event X V) t : calm w t -> calm (after w e) t.
  Proof using Type.
    clear. intros (Hc & Dm). split; [exact Hc|]. unfold dom in *. eapply Forall_impl; [|exact Dm]. intros [i v]. cbn [fst]. unfold exists_in.
    destruct e as [y|j y|op]; cbn [after]; [rewrite app_length; lia|rewrite set_obj_length; auto|auto].
  Qed.
  Lemma after_in w (e : event X V) : Forall D w -> Forall D (contents [e]) -> Forall D (after w e).
  Proof using Type.
    clear. intros F G. apply Forall_forall. intros y I. destruct (world_from [e] w y I) as [I'|I']; rewrite Forall_forall in *; auto.
  Qed.
  Lemma contents_cons (e : event X V) evs : contents (e :: evs) = contents [e] ++ contents evs.
  Proof using Type. clear. destruct e; reflexivity. Qed.

  (** The keys with the content [x]. *)
  Context (x : X) (Dx : D x).
  Definition like (w : list X) (i : nat) : Prop := exists z, nth_error w i = Some z /\ eqv z x.
  Definition slot_of (n : nat) : nat := home hashx n x.
  Definition agrees_on (w : list X) (h : list (mop (nat * X) (option V))) (l : list (nat * option V)) : Prop :=
    forall i v, (forall z, eqv z x -> stored (same eqv) h (i, z) v -> nth_error w i = Some z /\ In (i, v) l) /\
      (forall z, eqv z x -> nth_error w i = Some z -> In (i, v) l -> stored (same eqv) h (i, z) v).
  Definition good (w : list X) (e1 : list (event X V)) (t : table) : Prop :=
    fit (exists_in w) (like w) slot_of (h_array t) /\ (forall i v, In (i, v) (concat (h_array t)) -> given e1 i) /\
    agrees_on w (calls [] e1) (concat (h_array t)).

  Lemma like_step w t op : Forall D w -> op_key op < length w -> fit (exists_in w) (like w) slot_of (h_array t) ->
    exists t' n, call w t op = Ok (t', result n) /\ fit (exists_in w) (like w) slot_of (h_array t') /\
      class_contract (at_now eqv w) (like w) op (concat (h_array t)) (concat (h_array t')) n.
  Proof using HX Hpol Dx.
    intros F Hk Ft. pose proof (objects_hash eqv D equalx hashx w HX F) as HK.
    destruct (class_step (V := option V) _ _ pol _ _ HK (like w) slot_of) with (t := t) (op := op) as (t' & n & S & Ft' & C); try assumption.
    - intros a Ha. destruct (now_some D w a Ha F) as (z & Ez & Dz). destruct (heq_dec _ _ _ _ HX z x Dz Dx) as [(_ & R)|(_ & R)]; [left; exists z; auto|].
      right. intros (z' & Ez' & R'). congruence.
    - intros a b (z & Ez & R) (z' & Ez' & R'). exists z, z'. split; [exact Ez|]. split; [exact Ez'|].
      eapply (hk_trans _ _ _ _ HX); [exact R|]. now apply (hk_sym _ _ _ _ HX).
    - intros a b (z & z' & Ez & Ez' & R) (z1 & E1 & R1). exists z'. split; [exact Ez'|]. assert (z1 = z) by congruence. subst z1.
      eapply (hk_trans _ _ _ _ HX); [|exact R1]. now apply (hk_sym _ _ _ _ HX).
    - intros n a Ha (z & Ez & R). destruct (now_some D w a Ha F) as (z' & Ez' & Dz). assert (z' = z) by congruence. subst z'.
      unfold slot_of, home, ask. rewrite Ez. now rewrite (hk_same _ _ _ _ HX z x Dz Dx R).
    - exists t', n. split; [unfold call_hash, hm_step; rewrite S; reflexivity|]. split; assumption.
  Qed.

  Lemma stored_given w (e1 : list (event X V)) i z v : stored (same eqv) (calls w e1) (i, z) v -> given e1 i.
  Proof using Type.
    clear. intros (h1 & h2 & E & _). assert (I : In (MPut (i, z) v) (calls w e1)) by (rewrite E; apply in_app_iff; right; now left).
    clear E. revert w I. induction e1 as [|e e1 IH]; intros w I; [destruct I|].
    assert (Tl : given e1 i -> given (e :: e1) i) by (intros (u & Iu); exists u; now right).
    destruct e as [y|j y|op]; cbn [calls] in I; [eauto|eauto|]. apply in_app_iff in I. destruct I as [I|I]; [|eauto].
    unfold named in I. destruct (nth_error w (op_key op)); [|destruct I]. destruct I as [I|[]]. destruct op; try discriminate. injection I as <- <- <-.
    exists v0. now left.
  Qed.

  (** An event that leaves the contents of the objects passed to Put as they are, or changes one between contents unlike [x]. *)
  Lemma good_move w w' e1 e t : world [] e1 = w -> after w e = w' -> calls w [e] = [] -> length w <= length w' ->
    (forall i, given e1 i -> i < length w -> nth_error w' i = nth_error w i \/ (~ like w i /\ ~ like w' i)) ->
    good w e1 t -> good w' (e1 ++ [e]) t.
  Proof using Type.
    clear. intros Ew Ew' Nc Le M (Ft & G & A). destruct Ft as (Hc & Dm & P & O).
    assert (In_w : forall i v, In (i, v) (concat (h_array t)) -> i < length w).
    { intros i v I. unfold dom in Dm. rewrite Forall_forall in Dm. exact (Dm _ I). }
    assert (Lk : forall i v, In (i, v) (concat (h_array t)) -> like w' i -> like w i).
    { intros i v I L. destruct (M i (G _ _ I) (In_w _ _ I)) as [E|(_ & N)]; [|contradiction]. destruct L as (z & Ez & R). exists z. split; [congruence|exact R]. }
    split; [split; [exact Hc|split; [|split]]|split].
    - unfold dom in *. eapply Forall_impl; [|exact Dm]. intros [i v]. cbn [fst]. unfold exists_in. lia.
    - intros j c E. specialize (P j c E). rewrite Forall_forall in *. intros [i v] I L. apply (P _ I). cbn [fst] in *. apply (Lk i v); [|exact L].
      apply in_concat. exists c. split; [eapply nth_error_In; eauto|exact I].
    - unfold once in *. eapply fop_in; [|exact O]. intros [i v] [j u] Ii Ij N (L1 & L2). apply N. cbn [fst] in *. split; [exact (Lk _ _ Ii L1)|exact (Lk _ _ Ij L2)].
    - intros i v I. destruct (G i v I) as (u & Iu). exists u. apply in_app_iff. now left.
    - rewrite calls_app, Ew, Nc, app_nil_r. intros i v. split.
      + intros z R S. pose proof (stored_given [] e1 i z v S) as Gi. apply (proj1 (A i v) z R) in S. destruct S as (Ez & I). split; [|exact I].
        destruct (M i Gi (In_w _ _ I)) as [E|(N & _)]; [congruence|]. destruct N. exists z. auto.
      + intros z R Ez I. apply (proj2 (A i v) z R); [|exact I]. destruct (M i (G _ _ I) (In_w _ _ I)) as [E|(_ & N)]; [congruence|]. destruct N. exists z. auto.
  Qed.

  Lemma good_call w e1 t op t' n : Forall D w -> world [] e1 = w -> op_key op < length w -> good w e1 t ->
    call w t op = Ok (t', result n) -> fit (exists_in w) (like w) slot_of (h_array t') ->
    class_contract (at_now eqv w) (like w) op (concat (h_array t)) (concat (h_array t')) n -> good w (e1 ++ [Call op]) t'.
  Proof using HX.
    intros F Ew Hk (Ft & G & A) S Ft' (C1 & C2 & _). split; [exact Ft'|]. split.
    - intros i v I. apply C1 in I. cbn [fst snd] in I. destruct I as [->|I]; [exists v; apply in_app_iff; right; now left|].
      destruct (G i v I) as (u & Iu). exists u. apply in_app_iff. now left.
    - rewrite calls_app, Ew. cbn [calls]. rewrite app_nil_r.
      destruct (nth_error w (op_key op)) as [y|] eqn:Ey; [|apply nth_error_None in Ey; lia]. intros i v. split.
      + intros z R H. destruct (nth_error w i) as [z'|] eqn:Ei.
        * destruct (named_touches eqv w op i z' y Ey Ei) as (op' & En & _ & Ht & Hp). rewrite En in H. apply stored_snoc in H. destruct H as [H|(H1 & H2)].
          -- apply Hp in H. destruct H as (-> & ->). cbn [op_key] in Ey. split; [congruence|]. apply C2; [exists y; split; [exact Ey|exact R]|now left].
          -- apply (proj1 (A i v) z R) in H2. destruct H2 as (H2 & H3). assert (z' = z) by congruence. subst z'. split; [reflexivity|].
             apply C2; [exists z; auto|]. right. split; [now rewrite <- Ht|exact H3].
        * exfalso. unfold named in H. rewrite Ey in H. apply stored_snoc in H. destruct H as [H|(_ & H)].
          -- destruct op; try discriminate. injection H as <- <- <-. cbn [op_key] in Ey. congruence.
          -- apply (proj1 (A i v) z R) in H. destruct H. congruence.
      + intros z R Ei H. apply C2 in H; [|exists z; auto]. destruct (named_touches eqv w op i z y Ey Ei) as (op' & -> & _ & Ht & Hp). apply stored_snoc.
        destruct H as [->|(H1 & H2)].
        * cbn [op_key] in Ey. left. apply Hp. split; [reflexivity|congruence].
        * right. split; [now rewrite Ht|]. apply (proj2 (A i v) z R Ei H2).
  Qed.

  Lemma play_good (e1 : list (event X V)) (t0 : table) : proper [] e1 -> Forall D (contents e1) -> ~ disturbed eqv e1 x -> good [] [] t0 ->
    exists t vs, play call [] t0 e1 = Ok (t, vs) /\ length vs = length (calls [] e1) /\ good (world [] e1) e1 t.
  Proof using HX Hpol Dx.
    intros P F N G0. induction e1 as [|e e1 IH] using rev_ind; [exists t0, []; auto|].
    apply proper_app in P. destruct P as (P & (Pe & _)).
    assert (Fc : Forall D (contents e1) /\ Forall D (contents [e])) by (unfold contents in *; rewrite flat_map_app in F; now apply Forall_app in F).
    destruct Fc as (F1 & F2).
    destruct IH as (t & vs & R & L & G); [exact P|exact F1| |].
    { intros (a & i & y & b & E & Gi & Q). apply N. exists a, i, y, (b ++ [e]). split; [rewrite E, <- app_assoc; reflexivity|]. split; assumption. }
    assert (Fw : Forall D (world [] e1)).
    { apply Forall_forall. intros y I. apply world_from in I. destruct I as [[]|I]. rewrite Forall_forall in F1. auto. }
    rewrite play_app, R, world_app, calls_app. cbn [rbind]. set (w := world [] e1) in *. destruct e as [y|i y|op].
    - cbn [play calls rbind]. do 2 eexists. split; [reflexivity|]. rewrite !app_nil_r. split; [exact L|].
      apply (good_move w (w ++ [y]) e1 (Make y) t eq_refl eq_refl eq_refl); [rewrite app_length; lia| |exact G].
      intros j _ Hj. left. now apply nth_error_app1.
    - cbn [play calls rbind]. do 2 eexists. split; [reflexivity|]. rewrite !app_nil_r. split; [exact L|].
      apply (good_move w (set_obj w i y) e1 (Change i y) t eq_refl eq_refl eq_refl); [rewrite set_obj_length; lia| |exact G].
      intros j Gj Hj. destruct (Nat.eq_dec i j) as [<-|Nij]; [right|left; now apply set_obj_other].
      pose proof (hk_sym _ _ _ _ HX) as sym. split; intros (z & Ez & Rz); apply N; exists e1, i, y, []; (split; [reflexivity|]); (split; [exact Gj|]).
      + right. exists z. split; [exact Ez|]. now apply sym.
      + left. rewrite set_obj_same in Ez by exact Pe. injection Ez as <-. now apply sym.
    - destruct (like_step w t op Fw Pe (proj1 G)) as (t' & n & S & Ft' & C). cbn [play calls]. rewrite S. cbn [rbind].
      do 2 eexists. split; [reflexivity|]. split.
      + rewrite !app_length, L. unfold named. destruct (nth_error w (op_key op)) eqn:E; [reflexivity|]. apply nth_error_None in E. cbn in Pe. lia.
      + apply (good_call w e1 t op t' n Fw eq_refl Pe G S Ft' C).
  Qed.
End Runs.
