(** * Copies of objects. *)
From Coq Require Import List NArith ZArith Bool Lia.
From Coq Require Import Strings.Byte.
From Verif Require Import Base BaseProofs VarintModel KeyModel ValueModel ValueProofs RecordProofs ValueCopy ObjModel ObjSpec ObjProofs ObjHistory ObjFrame.
Import ListNotations.

Definition outcome {A} (r : res A) : res unit := rmap (fun _ => tt) r.
Lemma grows_len h h' : grows h h' -> length (mem h) <= length (mem h') /\ length (objs h) <= length (objs h').
Proof. intros ((m & M) & (l & L & _) & _). rewrite M, L, !app_length. lia. Qed.
Lemma grows_sound h h' : grows h h' -> sound h'.
Proof. now intros (_ & _ & S). Qed.
Section Copies.
  Context {A : Type} (cp : heap -> ref -> option (heap * res ref)) (view : heap -> ref -> option A)
    (objsF : heap -> ref -> list ref) (blksF keyF : heap -> ref -> list nat) (copyv : A -> res A).
  Definition framed : Prop := forall h h' a v, sound h -> grows h h' -> view h a = Some v ->
    view h' a = Some v /\ objsF h' a = objsF h a /\ blksF h' a = blksF h a /\ keyF h' a = keyF h a.
  Definition fresh_objs (h h' : heap) (l : list ref) : Prop := forall z, In z l -> length (objs h) <= z < length (objs h').
  Definition fresh_blks (h h' : heap) (l shared : list nat) : Prop :=
    forall k, In k l -> length (mem h) <= k < length (mem h') \/ In k shared.
  Definition cp_spec : Prop :=
    (forall h x h' y v, sound h -> cp h x = Some (h', Ok y) -> view h x = Some v -> all_settled h (objsF h x) ->
       view h' y = Some v /\ fresh_objs h h' (objsF h' y) /\ fresh_blks h h' (blksF h' y) (keyF h x)) /\
    (forall h x v, sound h -> view h x = Some v -> exists h' r, cp h x = Some (h', r) /\ outcome r = outcome (copyv v)).
  Fixpoint copy_values_of (l : list A) : res (list A) :=
    match l with [] => Ok [] | x :: l' => let? y := copyv x in let? r := copy_values_of l' in Ok (y :: r) end.

  Lemma framed_all h h' l vs : framed -> sound h -> grows h h' -> opt_all (view h) l = Some vs ->
    opt_all (view h') l = Some vs /\ flat_map (objsF h') l = flat_map (objsF h) l /\ flat_map (blksF h') l = flat_map (blksF h) l /\
    flat_map (keyF h') l = flat_map (keyF h) l.
  Proof.
    intros F S G. revert vs. induction l as [|x l IH]; intros vs V; [auto|]. simpl in V.
    destruct (view h x) as [y|] eqn:Vx; [|discriminate]. destruct (opt_all (view h) l) as [ys|]; [|discriminate].
    destruct (IH _ eq_refl) as (I1 & I2 & I3 & I4). destruct (F _ _ _ _ S G Vx) as (F1 & F2 & F3 & F4).
    simpl. rewrite I1, I2, I3, I4, F1, F2, F3, F4. auto.
  Qed.
  Lemma settled_grows h h' l : all_settled h l -> grows h h' -> (forall z, In z l -> exists o, get h z = Some o) -> all_settled h' l.
  Proof.
    intros T G B a o I Ga. destruct (B a I) as (o' & Go). rewrite (grows_get _ _ _ _ G Go) in Ga. inv Ga. eauto.
  Qed.
  Context (objs_bound : forall h x v, view h x = Some v -> forall z, In z (objsF h x) -> exists o, get h z = Some o).

  Lemma copy_all_spec : framed -> cp_spec -> cp_grows cp -> forall l h h' l' vs, sound h -> copy_all cp h l = Some (h', Ok l') ->
    opt_all (view h) l = Some vs -> all_settled h (flat_map (objsF h) l) ->
    opt_all (view h') l' = Some vs /\ fresh_objs h h' (flat_map (objsF h') l') /\
    fresh_blks h h' (flat_map (blksF h') l') (flat_map (keyF h) l).
  Proof using objs_bound.
    intros F (Sp & _) Gr. induction l as [|x l IH]; intros h h' l' vs S H V T; simpl in H, V.
    - inv H. inv V. split; [reflexivity|]. split; intros z [].
    - destruct (view h x) as [v|] eqn:Vx; [|discriminate]. destruct (opt_all (view h) l) as [ws|] eqn:Vl; [|discriminate]. inv V.
      destruct (cp h x) as [[h1 [y| |]]|] eqn:C; try discriminate.
      destruct (copy_all cp h1 l) as [[h2 [ys| |]]|] eqn:Cl; try discriminate. inv H.
      pose proof (Gr _ _ _ _ S C) as G1. pose proof (grows_sound _ _ G1) as S1.
      pose proof (copy_all_grows _ Gr _ _ _ _ S1 Cl) as G2.
      destruct (Sp _ _ _ _ _ S C Vx) as (V1 & O1 & B1); [intros a o I; apply T; simpl; rewrite in_app_iff; now left|].
      destruct (framed_all _ _ _ _ F S G1 Vl) as (Vl1 & Ol1 & _ & Kl1).
      destruct (IH h1 h' ys ws S1 Cl Vl1) as (Vl2 & O2 & B2).
      { rewrite Ol1. apply settled_grows with h; [|assumption|].
        - intros a o I. apply T. simpl. rewrite in_app_iff. now right.
        - intros z I. apply in_flat_map in I. destruct I as (w & Iw & Iz). destruct (opt_all_in _ _ _ _ Vl Iw) as (u & Vu). eapply objs_bound; eauto. }
      destruct (F _ _ _ _ S1 G2 V1) as (F1 & F2 & F3 & _). pose proof (grows_len _ _ G1). pose proof (grows_len _ _ G2).
      simpl. rewrite F1, Vl2. split; [reflexivity|]. split.
      + intros z I. apply in_app_iff in I. destruct I as [I|I].
        * rewrite F2 in I. apply O1 in I. lia.
        * apply O2 in I. lia.
      + intros k I. rewrite in_app_iff. apply in_app_iff in I. destruct I as [I|I].
        * rewrite F3 in I. apply B1 in I. destruct I as [I|I]; [left; lia|auto].
        * apply B2 in I. rewrite Kl1 in I. destruct I as [I|I]; [left; lia|auto].
  Qed.
  Lemma copy_all_total : framed -> cp_spec -> cp_grows cp -> forall l h vs, sound h -> opt_all (view h) l = Some vs ->
    exists h' r, copy_all cp h l = Some (h', r) /\ outcome r = outcome (copy_values_of vs).
  Proof.
    intros F (_ & Tt) Gr. induction l as [|x l IH]; intros h vs S V; simpl in V.
    - inv V. exists h, (Ok []). auto.
    - destruct (view h x) as [v|] eqn:Vx; [|discriminate]. destruct (opt_all (view h) l) as [ws|] eqn:Vl; [|discriminate]. inv V.
      destruct (Tt _ _ _ S Vx) as (h1 & r & C & Er). simpl. rewrite C.
      pose proof (Gr _ _ _ _ S C) as G1. pose proof (grows_sound _ _ G1) as S1.
      destruct (framed_all _ _ _ _ F S G1 Vl) as (Vl1 & _). destruct (IH h1 ws S1 Vl1) as (h2 & r2 & Cl & Er2).
      destruct r as [y| |], (copyv v) as [v'| |]; cbn [outcome rmap rbind] in Er; try discriminate; cbn [rbind]; eauto.
      rewrite Cl. destruct r2 as [ys| |], (copy_values_of ws) as [ws'| |]; cbn [outcome rmap rbind] in Er2; try discriminate; eauto.
  Qed.
  Lemma copy_part_spec : framed -> cp_spec -> forall p h h' p' v, sound h -> copy_part cp h p = Some (h', Ok p') ->
    ObjSpec.opt_part (view h) p = Some v -> all_settled h (on_part (objsF h) p) ->
    ObjSpec.opt_part (view h') p' = Some v /\ fresh_objs h h' (on_part (objsF h') p') /\
    fresh_blks h h' (on_part (blksF h') p') (on_part (keyF h) p).
  Proof.
    intros F (Sp & _) [x|] h h' p' v S H V T; simpl in H, V.
    - destruct (view h x) as [u|] eqn:Vx; [|discriminate]. inv V. destruct (cp h x) as [[h1 [y| |]]|] eqn:C; try discriminate. inv H.
      destruct (Sp _ _ _ _ _ S C Vx T) as (V1 & O1 & B1). simpl. rewrite V1. auto.
    - inv H. inv V. split; [reflexivity|]. split; intros z [].
  Qed.
  Definition copy_value_of (p : option A) : res (option A) :=
    match p with None => Ok None | Some k => let? k' := copyv k in Ok (Some k') end.
  Lemma copy_part_total : cp_spec -> forall p h v, sound h -> ObjSpec.opt_part (view h) p = Some v ->
    exists h' r, copy_part cp h p = Some (h', r) /\ outcome r = outcome (copy_value_of v).
  Proof.
    intros (_ & Tt) [x|] h v S V; simpl in V; [|inv V; exists h, (Ok None); auto].
    destruct (view h x) as [u|] eqn:Vx; [|discriminate]. inv V. destruct (Tt _ _ _ S Vx) as (h1 & r & C & Er). simpl. rewrite C.
    destruct r as [y| |], (copyv u) as [v'| |]; cbn [outcome rmap rbind] in Er; try discriminate; eauto.
  Qed.
  Lemma framed_part h h' p v : framed -> sound h -> grows h h' -> ObjSpec.opt_part (view h) p = Some v ->
    ObjSpec.opt_part (view h') p = Some v /\ on_part (objsF h') p = on_part (objsF h) p /\
    on_part (blksF h') p = on_part (blksF h) p /\ on_part (keyF h') p = on_part (keyF h) p.
  Proof.
    intros F S G V. destruct p as [x|]; simpl in *; [|auto]. destruct (view h x) as [u|] eqn:Vx; [|discriminate].
    destruct (F _ _ _ _ S G Vx) as (F1 & F2 & F3 & F4). rewrite F1. auto.
  Qed.
End Copies.

Lemma framed_v n : framed (vview n) (vobjs n) (vblks n) (vkeyblks n).
Proof. intros h h' a v S G V. destruct (frame n h h' a) as (F & _). apply F; auto. now apply grows_untouched. Qed.
Lemma framed_r n : framed (rview n) (robjs n) (rblks n) (rkeyblks n).
Proof. intros h h' a v S G V. destruct (frame n h h' a) as (_ & F). apply F; auto. now apply grows_untouched. Qed.
Lemma framed_k : framed kview (fun _ x => [x]) kblks kblks.
Proof.
  intros h h' a v S G V. destruct (frame_key h h' a v (kblks h a) S) as (F1 & F2); [now apply grows_untouched|apply incl_refl|assumption|]. auto.
Qed.
Lemma kview_get h a v : kview h a = Some v -> exists o, get h a = Some o.
Proof. unfold kview. destruct (get h a); [eauto|discriminate]. Qed.
Lemma objs_bound n : forall h x,
  (forall v, vview n h x = Some v -> forall z, In z (vobjs n h x) -> exists o, get h z = Some o) /\
  (forall v, rview n h x = Some v -> forall z, In z (robjs n h x) -> exists o, get h z = Some o).
Proof.
  induction n as [|n IH]; intros h x; [split; discriminate|]. split; intros v V z I.
  - cbn [vview vobjs] in *. destruct (get h x) as [o|] eqn:G; [|discriminate]. destruct I as [<- |I]; [eauto|].
    destruct o; try destruct I.
    + destruct (opt_all (vview n h) elems) as [ys|] eqn:O; [|discriminate]. apply in_flat_map in I. destruct I as (w & Iw & Iz).
      destruct (opt_all_in _ _ _ _ O Iw) as (u & Vu). destruct (IH h w) as (B & _). eapply B; eauto.
    + destruct (opt_all (rview n h) elems) as [ys|] eqn:O; [|discriminate]. apply in_flat_map in I. destruct I as (w & Iw & Iz).
      destruct (opt_all_in _ _ _ _ O Iw) as (u & Vu). destruct (IH h w) as (_ & B). eapply B; eauto.
  - cbn [rview robjs] in *. destruct (get h x) as [o|] eqn:G; [|discriminate]. destruct I as [<- |I]; [eauto|].
    destruct o; try destruct I.
    destruct (ObjSpec.opt_part (kview h) key) as [k'|] eqn:Ok; [|discriminate].
    destruct (ObjSpec.opt_part (vview n h) val) as [v'|] eqn:Ov; [|discriminate].
    destruct (ObjSpec.opt_part (vview n h) scheme) as [s'|] eqn:Os; [|discriminate].
    rewrite !in_app_iff in I. destruct I as [I|[I|I]].
    + destruct key as [k|]; [|destruct I]. destruct I as [<- |[]]. simpl in Ok. destruct (kview h k) eqn:K; [|discriminate]. eapply kview_get; eauto.
    + destruct val as [w|]; [|destruct I]. simpl in Ov, I. destruct (vview n h w) eqn:K; [|discriminate]. destruct (IH h w) as (B & _). eapply B; eauto.
    + destruct scheme as [w|]; [|destruct I]. simpl in Os, I. destruct (vview n h w) eqn:K; [|discriminate]. destruct (IH h w) as (B & _). eapply B; eauto.
Qed.
Lemma vobjs_bound n h x v : vview n h x = Some v -> forall z, In z (vobjs n h x) -> exists o, get h z = Some o.
Proof. apply objs_bound. Qed.
Lemma robjs_bound n h x v : rview n h x = Some v -> forall z, In z (robjs n h x) -> exists o, get h z = Some o.
Proof. apply objs_bound. Qed.

Lemma copy_list_of l : copy_list l = copy_values_of value_copy l.
Proof. induction l as [|x l IH]; simpl; [reflexivity|]. now rewrite IH. Qed.
Lemma copy_rlist_of l : copy_rlist l = copy_values_of record_copy l.
Proof. induction l as [|x l IH]; simpl; [reflexivity|]. now rewrite IH. Qed.

Lemma add_slices_total h l : forall e ks b est k, match k with KKey _ _ _ _ => True | _ => False end ->
  outcome (add_slices h e ks b est l) = outcome (add_all k (map (rd h) l)).
Proof.
  induction l as [|s l IH]; intros e ks b est k K; simpl; [reflexivity|]. destruct k; try contradiction. cbn [key_add].
  destruct (gcontent (rd h s)); [reflexivity|]. cbn [rbind]. now apply IH.
Qed.
Lemma add_slices_no_err h l : forall e ks b est, add_slices h e ks b est l <> Err.
Proof. induction l as [|s l IH]; intros e ks b est; simpl; [discriminate|]. destruct (gcontent (rd h s)); [discriminate|]. apply IH. Qed.
Lemma new_get m l o : get (Heap m (l ++ [o])) (length l) = Some o.
Proof. unfold get. simpl. now rewrite nth_error_app2, Nat.sub_diag by lia. Qed.
Lemma key_copy_spec : cp_spec (fun h x => Some (key_copy h x)) kview (fun _ x => [x]) kblks kblks ikey_copy.
Proof.
  split.
  - intros h x h' y v S C V T. injection C as C. unfold key_copy in C. unfold kview in V. unfold kblks at 2.
    destruct (get h x) as [[]|] eqn:G; try discriminate; inv V.
    + destruct (add_slices h false [] None 1 keys) as [o| |] eqn:Ad; try discriminate.
      destruct (add_slices_keys _ _ _ _ _ _ _ Ad) as (est' & ->). simpl in C. inv C.
      unfold kview, kblks. rewrite new_get. simpl. split; [reflexivity|]. split.
      * intros z [<- |[]]. simpl. rewrite app_length. simpl. lia.
      * intros k I. now right.
    + simpl in C. inv C. unfold kview, kblks. rewrite new_get. split; [reflexivity|]. split; [|intros k []].
      intros z [<- |[]]. simpl. rewrite app_length. simpl. lia.
    + destruct (T x (OMKey keys buf)) as (k & K); [now left|assumption|]. rewrite K in C. simpl in C. inv C.
      unfold kview, kblks. rewrite new_get. split; [reflexivity|]. split; [|intros j []].
      intros z [<- |[]]. simpl. rewrite app_length. simpl. lia.
  - intros h x v S V. exists (fst (key_copy h x)), (snd (key_copy h x)). split; [now destruct (key_copy h x)|].
    unfold kview in V. unfold key_copy. destruct (get h x) as [[]|] eqn:G; try discriminate; inv V; cbn [ikey_copy].
    + rewrite <- (add_slices_total h keys false [] None 1%Z new_key I).
      pose proof (add_slices_no_err h keys false [] None 1%Z) as NE.
      destruct (add_slices h false [] None 1 keys); [reflexivity|contradiction|reflexivity].
    + reflexivity.
    + destruct (new_mapped_key (Some buf)) as [[k n]| |] eqn:E; try reflexivity.
      unfold new_mapped_key in E. destruct (decode_keys _) as [[]| |]; cbn [rbind] in E; inv E. reflexivity.
Qed.

Lemma copy_spec n : cp_spec (vcopy n) (vview n) (vobjs n) (vblks n) (vkeyblks n) value_copy /\
  cp_spec (rcopy n) (rview n) (robjs n) (rblks n) (rkeyblks n) record_copy.
Proof.
  induction n as [|n [IHv IHr]]; [split; split; discriminate|].
  destruct (copy_grows n) as (Gv & Gr). split; split.
  - intros h x h' y v S C V T. cbn [vview] in V. cbn [vcopy] in C. cbn [vkeyblks].
    destruct (get h x) as [o|] eqn:G; [|discriminate]. 
    assert (settled o) as To by (eapply T; [left; reflexivity|exact G]).
    cbn [vobjs] in T. rewrite G in T.
    destruct o; try discriminate.
    + destruct data as [d|].
      * simpl in C. inv C. inv V. cbn [vview vobjs vblks]. rewrite new_get. split; [|split].
        -- simpl. rewrite app_nth2, Nat.sub_diag by lia. simpl. now rewrite firstn_all.
        -- intros z [<- |[]]. simpl. rewrite app_length. simpl. lia.
        -- intros k [<- |[]]. simpl. rewrite app_length. simpl. lia.
      * simpl in C. inv C. inv V. cbn [vview vobjs vblks]. rewrite new_get. split; [reflexivity|]. split; [|intros k []].
        intros z [<- |[]]. simpl. rewrite app_length. simpl. lia.
    + destruct (opt_all (vview n h) elems) as [vs|] eqn:O; [|discriminate]. inv V.
      destruct (copy_all (vcopy n) h elems) as [[h1 [l'| |]]|] eqn:Cl; try discriminate.
      destruct (copy_all_spec _ _ _ _ _ _ (vobjs_bound n) (framed_v n) IHv Gv _ _ _ _ _ S Cl O) as (V1 & O1 & B1).
      { intros a o I. apply T. now right. }
      pose proof (copy_all_grows _ Gv _ _ _ _ S Cl) as G1. pose proof (grows_sound _ _ G1) as S1. pose proof (grows_len _ _ G1) as L1.
      assert (grows h1 (fst (new_obj h1 (OArr false None 1 l')))) as G2.
      { apply new_obj_grows; [assumption|now right|]. intros s [<- |[]]. reflexivity. }
      destruct (framed_all _ _ _ _ _ _ _ _ (framed_v n) S1 G2 V1) as (V2 & O2 & B2 & _).
      unfold new_obj, fst in V2, O2, B2. simpl in C. inv C. cbn [vview vobjs vblks]. rewrite new_get, V2, O2, B2.
      split; [reflexivity|]. split; [|exact B1]. intros z [<- |I]; simpl; rewrite app_length; simpl; [lia|]. apply O1 in I. lia.
    + destruct (opt_all (rview n h) elems) as [vs|] eqn:O; [|discriminate]. inv V.
      destruct (copy_all (rcopy n) h elems) as [[h1 [l'| |]]|] eqn:Cl; try discriminate.
      destruct (copy_all_spec _ _ _ _ _ _ (robjs_bound n) (framed_r n) IHr Gr _ _ _ _ _ S Cl O) as (V1 & O1 & B1).
      { intros a o I. apply T. now right. }
      pose proof (copy_all_grows _ Gr _ _ _ _ S Cl) as G1. pose proof (grows_sound _ _ G1) as S1. pose proof (grows_len _ _ G1) as L1.
      assert (grows h1 (fst (new_obj h1 (ORecs false None 1 l')))) as G2.
      { apply new_obj_grows; [assumption|now right|]. intros s [<- |[]]. reflexivity. }
      destruct (framed_all _ _ _ _ _ _ _ _ (framed_r n) S1 G2 V1) as (V2 & O2 & B2 & _).
      unfold new_obj, fst in V2, O2, B2. simpl in C. inv C. cbn [vview vobjs vblks]. rewrite new_get, V2, O2, B2.
      split; [reflexivity|]. split; [|exact B1]. intros z [<- |I]; simpl; rewrite app_length; simpl; [lia|]. apply O1 in I. lia.
    + destruct To as (k & K). rewrite K in C. simpl in C. inv C. inv V. cbn [vview vobjs vblks]. rewrite new_get.
      split; [reflexivity|]. split; [|intros j []]. intros z [<- |[]]. simpl. rewrite app_length. simpl. lia.
    + destruct To as (k & K). rewrite K in C. simpl in C. inv C. inv V. cbn [vview vobjs vblks]. rewrite new_get.
      split; [reflexivity|]. split; [|intros j []]. intros z [<- |[]]. simpl. rewrite app_length. simpl. lia.
  - intros h x v S V. cbn [vview] in V. cbn [vcopy]. destruct (get h x) as [o|] eqn:G; [|discriminate]. destruct o; try discriminate.
    + inv V. destruct data as [d|]; simpl; do 2 eexists; split; reflexivity.
    + destruct (opt_all (vview n h) elems) as [vs|] eqn:O; [|discriminate]. inv V.
      destruct (copy_all_total _ _ _ _ _ _ (framed_v n) IHv Gv _ _ _ S O) as (h' & r & C & E). rewrite C.
      rewrite value_copy_arr, copy_list_of.
      destruct r as [l'| |], (copy_values_of value_copy vs) as [vs'| |]; cbn [outcome rmap rbind] in E; try discriminate; simpl; eauto.
    + destruct (opt_all (rview n h) elems) as [vs|] eqn:O; [|discriminate]. inv V.
      destruct (copy_all_total _ _ _ _ _ _ (framed_r n) IHr Gr _ _ _ S O) as (h' & r & C & E). rewrite C.
      rewrite value_copy_recs, copy_rlist_of.
      destruct r as [l'| |], (copy_values_of record_copy vs) as [vs'| |]; cbn [outcome rmap rbind] in E; try discriminate; simpl; eauto.
    + inv V. cbn [value_copy]. destruct (new_std_value (mv_buf m)) as [[m' k]| |]; simpl; eauto.
    + inv V. cbn [value_copy]. destruct (new_simple_value buf) as [[v' k]| |] eqn:E; simpl; eauto.
      destruct (simple_shape _ _ _ E) as (b & d & ->). simpl. eauto.
  - intros h x h' y v S C V T. cbn [rview] in V. cbn [rcopy] in C. cbn [rkeyblks].
    destruct (get h x) as [o|] eqn:G; [|discriminate].
    assert (settled o) as To by (eapply T; [left; reflexivity|exact G]).
    cbn [robjs] in T. rewrite G in T. destruct o; try discriminate.
    + destruct (ObjSpec.opt_part (kview h) key) as [kv|] eqn:Ok; [|discriminate].
      destruct (ObjSpec.opt_part (vview n h) val) as [vv|] eqn:Ov; [|discriminate].
      destruct (ObjSpec.opt_part (vview n h) scheme) as [sv|] eqn:Os; [|discriminate]. inv V.
      destruct (copy_part (fun h x => Some (key_copy h x)) h key) as [[h1 [k'| |]]|] eqn:C1; try discriminate.
      pose proof (copy_part_grows _ key_copy_grows _ _ _ _ S C1) as G1. pose proof (grows_sound _ _ G1) as S1. pose proof (grows_len _ _ G1) as L1.
      destruct (copy_part (vcopy n) h1 val) as [[h2 [v'| |]]|] eqn:C2; try discriminate.
      pose proof (copy_part_grows _ Gv _ _ _ _ S1 C2) as G2. pose proof (grows_sound _ _ G2) as S2. pose proof (grows_len _ _ G2) as L2.
      destruct (copy_part (vcopy n) h2 scheme) as [[h3 [s'| |]]|] eqn:C3; try discriminate.
      pose proof (copy_part_grows _ Gv _ _ _ _ S2 C3) as G3. pose proof (grows_sound _ _ G3) as S3. pose proof (grows_len _ _ G3) as L3.
      pose proof (grows_trans _ _ _ G1 G2) as G12.
      assert (forall p q, ObjSpec.opt_part (vview n h) p = Some q -> forall z, In z (on_part (vobjs n h) p) -> exists o, get h z = Some o) as Bd.
      { intros [w|] q Q z I; [|destruct I]. simpl in Q, I. destruct (vview n h w) eqn:W; [|discriminate]. eapply vobjs_bound; eauto. }
      destruct (copy_part_spec _ _ _ _ _ _ framed_k key_copy_spec _ _ _ _ _ S C1 Ok) as (K1 & K2 & K3).
      { intros a o I. apply T. right. apply in_app_iff. now left. }
      destruct (framed_part _ _ _ _ _ _ _ _ (framed_v n) S G1 Ov) as (Ov1 & Oo1 & _ & Ok1).
      destruct (copy_part_spec _ _ _ _ _ _ (framed_v n) IHv _ _ _ _ _ S1 C2 Ov1) as (A1 & A2 & A3).
      { rewrite Oo1. apply settled_grows with h; [|assumption|eapply Bd; eauto]. intros a o I. apply T. right. rewrite !in_app_iff. auto. }
      destruct (framed_part _ _ _ _ _ _ _ _ (framed_v n) S G12 Os) as (Os1 & Oos1 & _ & Oks1).
      destruct (copy_part_spec _ _ _ _ _ _ (framed_v n) IHv _ _ _ _ _ S2 C3 Os1) as (D1 & D2 & D3).
      { rewrite Oos1. apply settled_grows with h; [|assumption|eapply Bd; eauto]. intros a o I. apply T. right. rewrite !in_app_iff. auto. }
      assert (grows h3 (fst (new_obj h3 (ORec false None (0, 0, 0)%Z k' v' s' ts sig_r sig_s)))) as G4.
      { apply new_obj_grows; [assumption|now right|]. intros s [<- |[]]. reflexivity. }
      destruct (framed_part _ _ _ _ _ _ _ _ framed_k S1 (grows_trans _ _ _ G2 (grows_trans _ _ _ G3 G4)) K1) as (K4 & K5 & K6 & _).
      destruct (framed_part _ _ _ _ _ _ _ _ (framed_v n) S2 (grows_trans _ _ _ G3 G4) A1) as (A4 & A5 & A6 & _).
      destruct (framed_part _ _ _ _ _ _ _ _ (framed_v n) S3 G4 D1) as (D4 & D5 & D6 & _).
      unfold new_obj, fst in K4, K5, K6, A4, A5, A6, D4, D5, D6. simpl in C. inv C. cbn [rview robjs rblks].
      rewrite new_get, K4, A4, D4, A5, D5, K6, A6, D6. split; [reflexivity|].
      split.
      * intros z [<- |I]; simpl; rewrite app_length; simpl; [lia|]. rewrite !in_app_iff in I.
        destruct I as [I|[I|I]]; [apply K2 in I|apply A2 in I|apply D2 in I]; lia.
      * intros k I. rewrite !in_app_iff. rewrite !in_app_iff in I. simpl.
        destruct I as [I|[I|I]]; [apply K3 in I|apply A3 in I; rewrite Ok1 in I|apply D3 in I; rewrite Oks1 in I]; destruct I as [I|I]; auto; left; lia.
    + destruct To as (k & K). rewrite K in C. simpl in C. inv C. inv V. cbn [rview robjs rblks]. rewrite new_get.
      split; [reflexivity|]. split; [|intros j []]. intros z [<- |[]]. simpl. rewrite app_length. simpl. lia.
  - intros h x v S V. cbn [rview] in V. cbn [rcopy]. destruct (get h x) as [o|] eqn:G; [|discriminate]. destruct o; try discriminate.
    + destruct (ObjSpec.opt_part (kview h) key) as [kv|] eqn:Ok; [|discriminate].
      destruct (ObjSpec.opt_part (vview n h) val) as [vv|] eqn:Ov; [|discriminate].
      destruct (ObjSpec.opt_part (vview n h) scheme) as [sv|] eqn:Os; [|discriminate]. inv V.
      cbn [record_copy]. fold (copy_value_of ikey_copy kv) (copy_value_of value_copy vv) (copy_value_of value_copy sv).
      destruct (copy_part_total _ _ _ _ _ _ key_copy_spec _ _ _ S Ok) as (h1 & r1 & C1 & E1). rewrite C1.
      destruct r1 as [k'| |], (copy_value_of ikey_copy kv) as [kv'| |]; cbn [outcome rmap rbind] in E1; try discriminate; cbn [rbind]; eauto.
      pose proof (copy_part_grows _ key_copy_grows _ _ _ _ S C1) as G1. pose proof (grows_sound _ _ G1) as S1.
      destruct (framed_part _ _ _ _ _ _ _ _ (framed_v n) S G1 Ov) as (Ov1 & _).
      destruct (copy_part_total _ _ _ _ _ _ IHv _ _ _ S1 Ov1) as (h2 & r2 & C2 & E2). rewrite C2.
      destruct r2 as [v'| |], (copy_value_of value_copy vv) as [vv'| |]; cbn [outcome rmap rbind] in E2; try discriminate; cbn [rbind]; eauto.
      pose proof (copy_part_grows _ Gv _ _ _ _ S1 C2) as G2. pose proof (grows_sound _ _ G2) as S2.
      destruct (framed_part _ _ _ _ _ _ _ _ (framed_v n) S (grows_trans _ _ _ G1 G2) Os) as (Os1 & _).
      destruct (copy_part_total _ _ _ _ _ _ IHv _ _ _ S2 Os1) as (h3 & r3 & C3 & E3). rewrite C3.
      destruct r3 as [s'| |], (copy_value_of value_copy sv) as [sv'| |]; cbn [outcome rmap rbind] in E3; try discriminate; cbn [rbind]; simpl; eauto.
    + inv V. cbn [record_copy]. destruct (new_mapped_record (mr_buf r)) as [[m' k]| |]; simpl; eauto.
Qed.
