(** * Proofs about EstBufSize over histories. *)
From Coq Require Import List NArith ZArith Bool Arith Lia.
From Coq Require Import Strings.Byte.
From Verif Require Import Base BaseProofs VarintModel KeyModel ValueModel ValueProofs ObjModel ObjSpec ObjProofs ObjHistory EstSpec.
Import ListNotations.
Local Open Scope Z_scope.

(** ** Encode *)
Definition efield (h h' : heap) (o o' : obj) : Prop :=
  match o, o' with
  | OArr _ b e _, OArr _ b' e' _ | OKeyObj _ _ b e, OKeyObj _ _ b' e' =>
      (b' = b /\ e' = e) \/ (exists s, b' = Some s /\ (length (mem h) <= sl_blk s)%nat /\ e' = len_of h' b')
  | ORecs _ _ e _, ORecs _ _ e' _ => e' = e
  | ORec _ _ e _ _ _ _ _ _, ORec _ _ e' _ _ _ _ _ _ => e' = e
  | OPrim _ _ _, OPrim _ _ _ => True
  | _, _ => o' = o
  end.
Definition erel (h h' : heap) : Prop := forall a o, get h a = Some o -> exists o', get h' a = Some o' /\ efield h h' o o'.
Lemma efield_refl h o : efield h h o o.
Proof. destruct o; cbn [efield]; auto. Qed.
Lemma erel_refl h : erel h h.
Proof. intros a o G. exists o. split; [assumption|apply efield_refl]. Qed.
Lemma len_mono h h' s : (exists m, mem h' = mem h ++ m) -> slice_ok h s = true -> len_of h' s = len_of h s.
Proof. intros (m & M) K. unfold len_of. now rewrite (rd_mono h h' s m M K). Qed.
(** The same objects, more memory. *)
Lemma efield_later h h1 h2 o o1 : (exists m, mem h2 = mem h1 ++ m) -> (forall s, In s (slices_of o1) -> slice_ok h1 s = true) ->
  efield h h1 o o1 -> efield h h2 o o1.
Proof.
  intros M K E. destruct o, o1; cbn [efield] in *; auto; destruct E as [E|(s & -> & L & ->)]; auto; right; exists s;
    (split; [reflexivity|]); (split; [assumption|]); symmetry; apply len_mono; auto; apply K; cbn [slices_of]; auto with datatypes.
Qed.
Lemma efield_trans h1 h2 h3 o1 o2 o3 : (length (mem h1) <= length (mem h2))%nat -> (exists m, mem h3 = mem h2 ++ m) ->
  (forall s, In s (slices_of o2) -> slice_ok h2 s = true) ->
  efield h1 h2 o1 o2 -> efield h2 h3 o2 o3 -> efield h1 h3 o1 o3.
Proof.
  intros L M K E E'. pose proof (efield_later _ _ _ _ _ M K E) as E2. clear E.
  destruct o1, o2; cbn [efield] in E2; try discriminate; destruct o3; cbn [efield] in *; try discriminate; auto; try congruence.
  - destruct E' as [(-> & ->)|(s & -> & L' & ->)]; [assumption|]. right. exists s. split; [reflexivity|]. split; [lia|reflexivity].
  - destruct E' as [(-> & ->)|(s & -> & L' & ->)]; [assumption|]. right. exists s. split; [reflexivity|]. split; [lia|reflexivity].
Qed.
Lemma mem_le h h' : (exists m, mem h' = mem h ++ m) -> (length (mem h) <= length (mem h'))%nat.
Proof. intros (m & ->). rewrite app_length. lia. Qed.
Lemma erel_trans h1 h2 h3 : extends h1 h2 -> extends h2 h3 -> erel h1 h2 -> erel h2 h3 -> erel h1 h3.
Proof.
  intros ((M & _) & S2 & _) ((M' & _) & _) E E' a o G. destruct (E a o G) as (o2 & G2 & F). destruct (E' a o2 G2) as (o3 & G3 & F').
  exists o3. split; [assumption|]. apply (efield_trans h1 h2 h3 o o2 o3); [now apply mem_le|assumption| |assumption|assumption]. intros s I. exact (S2 a o2 s G2 I).
Qed.
Lemma erel_cache h h1 a o b o' : extends h h1 -> erel h h1 -> get h a = Some o ->
  efield h (put (fst (new_block h1 b)) a o') o o' -> erel h (put (fst (new_block h1 b)) a o').
Proof.
  intros (_ & S1 & _) E G F x ox Gx. destruct (Nat.eq_dec a x) as [<- |N].
  - rewrite G in Gx. inv Gx. exists o'. split; [|assumption]. destruct (E a ox G) as (o1 & G1 & _).
    apply (get_put (fst (new_block h1 b)) a o1). exact G1.
  - destruct (E x ox Gx) as (o1 & G1 & F1). exists o1. split; [rewrite get_put_other by assumption; exact G1|].
    apply (efield_later h h1); [eexists; reflexivity| |assumption]. intros s I. eapply S1; eauto.
Qed.
Lemma new_len h a o b : len_of (put (fst (new_block h b)) a o) (Some (Sl (length (mem h)) 0 (length b))) = zlen b.
Proof. unfold len_of. cbn [rd sl_len sl_off sl_blk put new_block fst mem skipn]. rewrite app_nth2, Nat.sub_diag by lia. cbn [nth]. now rewrite firstn_all. Qed.

Definition enc_x (enc : heap -> ref -> option (heap * res unit)) : Prop :=
  forall h x h' r, sound h -> enc h x = Some (h', r) -> extends h h' /\ erel h h'.
Lemma key_enc_x : enc_x (fun h x => Some (key_enc h x)).
Proof.
  intros h x h' r S H. split; [eapply (proj1 key_enc_spec); eauto|].
  injection H as H. unfold key_enc in H. destruct (get h x) as [[]|] eqn:G; try (inv H; apply erel_refl).
  destruct (encode_keys (map (rd h) keys)) as [b| |]; try (inv H; apply erel_refl).
  cbn [new_block] in H. inv H. apply (erel_cache h h x _ b _ (extends_refl _ S) (erel_refl h) G).
  cbn [efield]. right. eexists. split; [reflexivity|]. split; [cbn [sl_blk]; lia|]. now rewrite new_len.
Qed.
Lemma enc_all_x enc : enc_x enc -> forall l h h' r, sound h -> enc_all enc h l = Some (h', r) -> extends h h' /\ erel h h'.
Proof.
  intros X. induction l as [|x l IH]; intros h h' r S H; cbn [enc_all] in H.
  - inv H. split; [now apply extends_refl|apply erel_refl].
  - destruct (enc h x) as [[h1 [u| |]]|] eqn:En; try discriminate; destruct (X _ _ _ _ S En) as (X1 & E1); [|now inv H|now inv H].
    destruct (buf_of h1 x) as [g| |]; [|now inv H|now inv H].
    pose proof X1 as (_ & S1 & _).
    destruct (enc_all enc h1 l) as [[h2 [c| |]]|] eqn:Rest; try discriminate; inv H; destruct (IH _ _ _ S1 Rest) as (X2 & E2);
      (split; [eapply extends_trans; eauto|eapply erel_trans; eauto]).
Qed.
Lemma enc_part_x skip enc : enc_x enc -> forall p h h' r, sound h -> enc_part skip enc h p = Some (h', r) -> extends h h' /\ erel h h'.
Proof.
  intros X [x|] h h' r S H; cbn [enc_part] in H; [|inv H; split; [now apply extends_refl|apply erel_refl]].
  destruct (skip h x) as [[]| |]; try (inv H; split; [now apply extends_refl|apply erel_refl]).
  destruct (enc h x) as [[h1 [u| |]]|] eqn:En; try discriminate; pose proof (X _ _ _ _ S En) as X1; [|now inv H|now inv H].
  destruct (buf_of h1 x); now inv H.
Qed.
Lemma enc_fields n : enc_x (venc n) /\ enc_x (renc n).
Proof.
  induction n as [|n [IHv IHr]]; [split; intros h x h' r S H; discriminate|].
  pose proof (enc_all_x _ IHv) as AV. pose proof (enc_all_x _ IHr) as AR.
  pose proof (enc_part_x is_empty_of _ key_enc_x) as PK. pose proof (enc_part_x is_nil_of _ IHv) as PV.
  destruct (enc_correct (S n)) as ((XV & _) & (XR & _)).
  split; intros h a h' r S H.
  - split; [eapply XV; eauto|]. clear XV XR. cbn [venc] in H.
    destruct (get h a) as [[]|] eqn:G; try (inv H; apply erel_refl).
    + destruct data as [d|].
      * destruct (prim_encode (rd h (Some d))) as [b| |]; try (inv H; apply erel_refl).
        cbn [new_block] in H. inv H. apply (erel_cache h h a _ b _ (extends_refl _ S) (erel_refl h) G). exact Logic.I.
      * cbn [rd prim_encode] in H. inv H. intros x ox Gx. destruct (Nat.eq_dec a x) as [<- |N].
        -- rewrite G in Gx. inv Gx. eexists. split; [eapply get_put; exact G|exact Logic.I].
        -- exists ox. split; [rewrite get_put_other by assumption; exact Gx|]. destruct ox; cbn [efield]; auto.
    + destruct (size_header 6 (length elems)) as [[magic sizes]| |]; try (inv H; apply erel_refl).
      destruct (enc_all (venc n) h elems) as [[h1 [c| |]]|] eqn:All; try discriminate; destruct (AV _ _ _ _ S All) as (X & E); [|now inv H|now inv H].
      destruct (with_content magic sizes c) as [b| |]; [|now inv H|now inv H].
      cbn [new_block] in H. inv H. apply (erel_cache h h1 a _ b _ X E G). cbn [efield]. right. eexists. split; [reflexivity|].
      split; [cbn [sl_blk]; apply mem_le; exact (proj1 (proj1 X))|]. now rewrite new_len.
    + destruct (size_header 4 (length elems)) as [[magic sizes]| |]; try (inv H; apply erel_refl).
      destruct (enc_all (renc n) h elems) as [[h1 [c| |]]|] eqn:All; try discriminate; destruct (AR _ _ _ _ S All) as (X & E); [|now inv H|now inv H].
      destruct (with_content magic sizes c) as [b| |]; [|now inv H|now inv H].
      cbn [new_block] in H. inv H. apply (erel_cache h h1 a _ b _ X E G). reflexivity.
  - split; [eapply XR; eauto|]. clear XV XR. cbn [renc] in H.
    destruct (get h a) as [[]|] eqn:G; try (inv H; apply erel_refl).
    destruct (enc_part is_empty_of (fun h x => Some (key_enc h x)) h key) as [[h1 [[kb kbytes]| |]]|] eqn:K1; try discriminate;
      destruct (PK _ _ _ _ S K1) as (X1 & E1); [|now inv H|now inv H].
    pose proof X1 as (_ & S1 & _).
    destruct (enc_part is_nil_of (venc n) h1 val) as [[h2 [[vb vbytes]| |]]|] eqn:K2; try discriminate;
      destruct (PV _ _ _ _ S1 K2) as (X2 & E2); pose proof (extends_trans _ _ _ S X1 X2) as X12; pose proof (erel_trans _ _ _ X1 X2 E1 E2) as E12;
      [|now inv H|now inv H].
    pose proof X2 as (_ & S2 & _).
    destruct (enc_part is_nil_of (venc n) h2 scheme) as [[h3 [[sb sbytes]| |]]|] eqn:K3; try discriminate;
      destruct (PV _ _ _ _ S2 K3) as (X3 & E3); pose proof (extends_trans _ _ _ S X12 X3) as X123; pose proof (erel_trans _ _ _ X12 X3 E12 E3) as E123;
      [|now inv H|now inv H].
    destruct (tail_part ts sig_r sig_s) as [tb tbytes]. cbn [new_block] in H. cbn zeta in H. inv H.
    match goal with |- erel _ (put {| mem := _ ++ [?b]; objs := _ |} _ _) => apply (erel_cache h h3 a _ b _ X123 E123 G) end. reflexivity.
Qed.

(** ** New objects *)
Definition fresh_est (h : heap) (o : obj) : Prop :=
  match o with
  | OArr _ _ e _ | ORecs _ _ e _ => e = 1
  | OKeyObj _ ks _ e => e = 1 + total (map (fun s => 1 + len_of h s) ks)
  | ORec _ _ e _ _ _ _ _ _ => e = (0, 0, 0)
  | _ => True
  end.
Definition opens (h h' : heap) : Prop :=
  grows h h' /\ forall a o, (length (objs h) <= a)%nat -> get h' a = Some o -> fresh_est h' o.
Lemma total_ext {A} (f g : A -> Z) l : (forall x, In x l -> f x = g x) -> total (map f l) = total (map g l).
Proof. intros E. f_equal. now apply map_ext_in. Qed.
Lemma fresh_later h h' o : (exists m, mem h' = mem h ++ m) -> (forall s, In s (slices_of o) -> slice_ok h s = true) -> fresh_est h o -> fresh_est h' o.
Proof.
  intros M K F. destruct o; cbn [fresh_est slices_of] in *; auto. rewrite F. f_equal. apply total_ext. intros s I. f_equal. symmetry.
  apply len_mono; auto with datatypes.
Qed.
Lemma opens_refl h : sound h -> opens h h.
Proof. intros S. split; [now apply grows_refl|]. intros a o L G. apply get_lt in G. lia. Qed.
Lemma opens_trans h1 h2 h3 : opens h1 h2 -> opens h2 h3 -> opens h1 h3.
Proof.
  intros (G1 & F1) (G2 & F2). split; [eapply grows_trans; eauto|]. intros a o L G.
  destruct (Nat.lt_ge_cases a (length (objs h2))) as [C|C]; [|now apply (F2 a)].
  destruct (grows_back _ _ _ _ G2 G) as [G'|(C' & _)]; [|lia].
  apply (fresh_later h2); [exact (proj1 G2)| |now apply (F1 a)]. intros s I. exact (proj2 (proj2 G1) a o s G' I).
Qed.
Lemma new_block_opens h b : sound h -> opens h (fst (new_block h b)).
Proof. intros S. split; [now apply new_block_grows|]. intros a o L G. change (get h a = Some o) in G. apply get_lt in G. lia. Qed.
Lemma new_obj_opens h o : sound h -> blank o -> (forall s, In s (slices_of o) -> slice_ok h s = true) -> fresh_est h o -> opens h (fst (new_obj h o)).
Proof.
  intros S B K F. split; [now apply new_obj_grows|]. intros a o' L G. unfold get in G. cbn [new_obj fst objs] in G.
  rewrite nth_error_app2 in G by assumption. destruct (a - length (objs h))%nat as [|[|?]]; cbn in G; inv G.
  apply (fresh_later h); auto. exists []. cbn. now rewrite app_nil_r.
Qed.
Lemma add_slices_est h l : forall e ks b est o, add_slices h e ks b est l = Ok o ->
  o = OKeyObj e (ks ++ l) b (est + total (map (fun s => 1 + len_of h s) l)).
Proof.
  induction l as [|s l IH]; intros e ks b est o H; cbn [add_slices] in H.
  - inv H. rewrite app_nil_r. cbn. now rewrite Z.add_0_r.
  - destruct (gcontent (rd h s)) as [|x c] eqn:C; [discriminate|]. apply IH in H. rewrite H, <- app_assoc. cbn [map total fold_right].
    f_equal. unfold len_of at 2. rewrite C. unfold total. lia.
Qed.
Definition cp_opens (cp : heap -> ref -> option (heap * res ref)) : Prop :=
  forall h x h' r, sound h -> cp h x = Some (h', r) -> opens h h'.
Lemma key_copy_opens : cp_opens (fun h x => Some (key_copy h x)).
Proof.
  intros h x h' r S H. injection H as H. unfold key_copy in H.
  destruct (get h x) as [[]|] eqn:G; try (inv H; now apply opens_refl).
  - destruct (add_slices h false [] None 1 keys) as [o| |] eqn:A; try (inv H; now apply opens_refl).
    pose proof (add_slices_est _ _ _ _ _ _ _ A) as ->. cbn [new_obj] in H. inv H.
    apply (new_obj_opens h _ S); [now right| |reflexivity]. cbn [app slices_of]. intros s [<- |I]; [reflexivity|]. eapply S; [exact G|]. cbn. auto.
  - cbn [new_obj] in H. inv H. apply (new_obj_opens h _ S); [now left| |exact Logic.I]. intros s [].
  - destruct (new_mapped_key (Some buf)) as [[[] ?]| |]; try (inv H; now apply opens_refl).
    cbn [new_obj] in H. inv H. apply (new_obj_opens h _ S); [now left| |exact Logic.I]. intros s [].
Qed.
Lemma copy_all_opens cp : cp_opens cp -> forall l h h' r, sound h -> copy_all cp h l = Some (h', r) -> opens h h'.
Proof.
  intros C. induction l as [|x l IH]; intros h h' r S H; cbn [copy_all] in H; [inv H; now apply opens_refl|].
  destruct (cp h x) as [[h1 [y| |]]|] eqn:E; try discriminate; pose proof (C _ _ _ _ S E) as G1; [|now inv H|now inv H].
  pose proof G1 as ((_ & _ & S1) & _).
  destruct (copy_all cp h1 l) as [[h2 [ys| |]]|] eqn:E2; try discriminate; inv H; eapply opens_trans; eauto.
Qed.
Lemma copy_part_opens cp : cp_opens cp -> forall p h h' r, sound h -> copy_part cp h p = Some (h', r) -> opens h h'.
Proof.
  intros C [x|] h h' r S H; cbn [copy_part] in H; [|inv H; now apply opens_refl].
  destruct (cp h x) as [[h1 [y| |]]|] eqn:E; try discriminate; inv H; eauto.
Qed.
Lemma copy_opens n : cp_opens (vcopy n) /\ cp_opens (rcopy n).
Proof.
  induction n as [|n [IHv IHr]]; [split; intros h x h' r S H; discriminate|].
  split; intros h a h' r S H.
  - cbn [vcopy] in H. destruct (get h a) as [[]|] eqn:G; try (inv H; now apply opens_refl).
    + destruct data as [d|].
      * pose proof (new_block_opens h (gcontent (rd h (Some d))) S) as G1. pose proof G1 as ((_ & _ & S1) & _).
        pose proof (new_block_ok h (gcontent (rd h (Some d)))) as K.
        destruct (new_block h (gcontent (rd h (Some d)))) as [h1 s]. cbn [fst snd] in G1, S1, K. cbn [new_obj] in H. inv H.
        eapply opens_trans; [exact G1|]. apply (new_obj_opens h1 _ S1); [now right| |exact Logic.I].
        intros s' [<- |[<- |[]]]; [reflexivity|exact K].
      * cbn [new_obj] in H. inv H. apply (new_obj_opens h _ S); [now right| |exact Logic.I]. intros s [<- |[<- |[]]]; reflexivity.
    + destruct (copy_all (vcopy n) h elems) as [[h1 [l'| |]]|] eqn:E; try discriminate;
        pose proof (copy_all_opens _ IHv _ _ _ _ S E) as G1; [|now inv H|now inv H].
      pose proof G1 as ((_ & _ & S1) & _). cbn [new_obj] in H. inv H. eapply opens_trans; [exact G1|].
      apply (new_obj_opens h1 _ S1); [now right| |reflexivity]. intros s [<- |[]]. reflexivity.
    + destruct (copy_all (rcopy n) h elems) as [[h1 [l'| |]]|] eqn:E; try discriminate;
        pose proof (copy_all_opens _ IHr _ _ _ _ S E) as G1; [|now inv H|now inv H].
      pose proof G1 as ((_ & _ & S1) & _). cbn [new_obj] in H. inv H. eapply opens_trans; [exact G1|].
      apply (new_obj_opens h1 _ S1); [now right| |reflexivity]. intros s [<- |[]]. reflexivity.
    + destruct (new_std_value (mv_buf m)) as [[m' ?]| |]; try (inv H; now apply opens_refl).
      cbn [new_obj] in H. inv H. apply (new_obj_opens h _ S); [now left| |exact Logic.I]. intros s [].
    + destruct (new_simple_value buf) as [[[] ?]| |]; try (inv H; now apply opens_refl).
      cbn [new_obj] in H. inv H. apply (new_obj_opens h _ S); [now left| |exact Logic.I]. intros s [].
  - cbn [rcopy] in H. destruct (get h a) as [[]|] eqn:G; try (inv H; now apply opens_refl).
    + destruct (copy_part (fun h x => Some (key_copy h x)) h key) as [[h1 [k'| |]]|] eqn:E1; try discriminate;
        pose proof (copy_part_opens _ key_copy_opens _ _ _ _ S E1) as G1; [|now inv H|now inv H]. pose proof G1 as ((_ & _ & S1) & _).
      destruct (copy_part (vcopy n) h1 val) as [[h2 [v'| |]]|] eqn:E2; try discriminate;
        pose proof (copy_part_opens _ IHv _ _ _ _ S1 E2) as G2; pose proof (opens_trans _ _ _ G1 G2) as G12; [|now inv H|now inv H].
      pose proof G2 as ((_ & _ & S2) & _).
      destruct (copy_part (vcopy n) h2 scheme) as [[h3 [s'| |]]|] eqn:E3; try discriminate;
        pose proof (copy_part_opens _ IHv _ _ _ _ S2 E3) as G3; pose proof (opens_trans _ _ _ G12 G3) as G123; [|now inv H|now inv H].
      pose proof G3 as ((_ & _ & S3) & _). cbn [new_obj] in H. inv H. eapply opens_trans; [exact G123|].
      apply (new_obj_opens h3 _ S3); [now right| |reflexivity]. intros s [<- |[]]. reflexivity.
    + destruct (new_mapped_record (mr_buf r0)) as [[r' ?]| |]; try (inv H; now apply opens_refl).
      cbn [new_obj] in H. inv H. apply (new_obj_opens h _ S); [now left| |exact Logic.I]. intros s [].
Qed.
Lemma step_opens h o h' : sound h -> step h o = Some h' -> target o = None -> writes o = None -> is_encode o = false -> opens h h'.
Proof.
  intros S H T W E. destruct o; try discriminate; cbn [step] in H.
  - inv H. now apply (new_block_opens h b S).
  - destruct (slice_ok h d) eqn:Sl; [|discriminate]. injection H as <-. apply (new_obj_opens h _ S); [now right| |exact Logic.I].
    intros s [<- |[<- |[]]]; [reflexivity|assumption].
  - inv H. apply (new_obj_opens h _ S); [now right| |reflexivity]. intros s [<- |[]]. reflexivity.
  - inv H. apply (new_obj_opens h _ S); [now right| |reflexivity]. intros s [<- |[]]. reflexivity.
  - inv H. apply (new_obj_opens h _ S); [now right| |reflexivity]. intros s [<- |[]]. reflexivity.
  - inv H. apply (new_obj_opens h _ S); [now right| |reflexivity]. intros s [<- |[]]. reflexivity.
  - destruct (slice_ok h d) eqn:Sl; [|discriminate]. remember (2 + zlen (gcontent (rd h d))) as n eqn:En. injection H as <-.
    apply (new_obj_opens h _ S); [now right| |].
    + intros s [<- |[<- |[]]]; [reflexivity|assumption].
    + cbn [fresh_est map]. unfold total, len_of. cbn [fold_right]. rewrite En. lia.
  - destruct (is_parsed o) eqn:P; [|discriminate]. inv H. apply (new_obj_opens h _ S); [now left| |destruct o; try discriminate; exact Logic.I].
    intros s I. destruct o; try discriminate; destruct I.
  - destruct (copy_opens fuel) as (V & _). destruct (vcopy fuel h a) as [[h1 [u| |]]|] eqn:C; inv H; eapply V in C; assumption.
  - destruct (copy_opens fuel) as (_ & V). destruct (rcopy fuel h a) as [[h1 [u| |]]|] eqn:C; inv H; eapply V in C; assumption.
  - destruct (key_copy h a) as [h1 r] eqn:C. destruct r; inv H; eapply key_copy_opens with (x := a); try assumption; now rewrite C.
Qed.
Lemma step_erel h o h' : sound h -> step h o = Some h' -> is_encode o = true -> extends h h' /\ erel h h'.
Proof.
  intros S H E. destruct o; try discriminate; cbn [step] in H.
  - destruct (enc_fields fuel) as (V & _). destruct (venc fuel h a) as [[h1 [u| |]]|] eqn:En; inv H; eapply V in En; assumption.
  - destruct (enc_fields fuel) as (_ & V). destruct (renc fuel h a) as [[h1 [u| |]]|] eqn:En; inv H; eapply V in En; assumption.
  - destruct (key_enc h a) as [h1 r] eqn:En. destruct (key_enc_x h a h1 r S) as (X & Y); [now rewrite En|]. destruct r; now inv H.
Qed.

(** ** The ledger *)
Definition acct (p : ledger) (a : ref) (o : obj) : Prop :=
  match o with
  | OArr _ _ e _ | ORecs _ _ e _ | OKeyObj _ _ _ e => p a Whole = e
  | ORec _ _ e _ _ _ _ _ _ => (p a KeyPart, p a ValuePart, p a SchemePart) = e
  | _ => True
  end.
Definition kept (h : heap) (p : ledger) : Prop := forall a o, get h a = Some o -> acct p a o.
Lemma fresh_acct h a o p : get h a = Some o -> fresh_est h o -> p a = opening h a -> acct p a o.
Proof.
  intros G F E. unfold acct. destruct o; try exact Logic.I; rewrite ?E; unfold opening; rewrite ?G; cbn [fresh_est] in F; rewrite ?F; reflexivity.
Qed.
Lemma set_same p a c n : set_to p a c n a c = n.
Proof. unfold set_to. rewrite Nat.eqb_refl. now destruct c. Qed.
Lemma set_else p a c n x d : x <> a \/ c <> d -> set_to p a c n x d = p x d.
Proof.
  unfold set_to. intros [H|H].
  - apply Nat.eqb_neq in H. now rewrite H.
  - destruct (Nat.eqb x a); [|reflexivity]. destruct c, d; try reflexivity; now elim H.
Qed.
Lemma book_other h o p a c : target o <> Some a -> book h o p a c = p a c.
Proof. destruct o; cbn [target book]; intros H; try reflexivity; apply set_else; left; intros ->; now apply H. Qed.
Lemma next_old h o h' p a c : (a < length (objs h))%nat -> is_encode o = false -> next h o h' p a c = book h o p a c.
Proof. intros L E. unfold next. rewrite (proj2 (Nat.leb_gt _ _) L), E. reflexivity. Qed.
Lemma acct_ext p q a o : (forall c, p a c = q a c) -> acct p a o -> acct q a o.
Proof. intros E. unfold acct. destruct o; try easy; now rewrite !E. Qed.
Lemma kept_put h o p a o1 o' : kept h p -> get h a = Some o1 -> target o = Some a -> is_encode o = false ->
  acct (book h o p) a o' -> kept (put h a o') (next h o (put h a o') p).
Proof.
  intros K G T E A x ox Gx.
  assert (x < length (objs h))%nat as L. { apply get_lt in Gx. cbn [put objs] in Gx. now rewrite upd_length in Gx. }
  apply (acct_ext (book h o p)); [intros c; symmetry; now apply next_old|].
  destruct (Nat.eq_dec x a) as [-> |N].
  - rewrite (get_put _ _ _ _ G) in Gx. inv Gx. assumption.
  - rewrite get_put_other in Gx by auto. apply (acct_ext p); [intros c; symmetry; apply book_other; congruence|]. now apply K.
Qed.
Lemma kept_step h o h' p : sound h -> kept h p -> step h o = Some h' -> kept h' (next h o h' p).
Proof.
  intros S K H. destruct (target o) as [a|] eqn:T.
  - destruct o; try discriminate; cbn [target] in T; inv T; cbn [step] in H.
    + destruct (get h a) as [[]|] eqn:G; try discriminate. destruct (est_of h x) as [n| |] eqn:En; try discriminate.
      destruct (is_val h x); [|discriminate]. inv H. eapply kept_put; eauto; try reflexivity. pose proof (K _ _ G) as A. cbn [acct book] in *.
      rewrite set_same. unfold size_of. now rewrite En, A.
    + destruct (get h a) as [[]|] eqn:G; try discriminate. destruct (N.leb _ _); [discriminate|].
      destruct (nth_error elems (N.to_nat i)) as [x|] eqn:Nx; [|discriminate]. destruct (est_of h x) as [n| |] eqn:En; try discriminate.
      inv H. eapply kept_put; eauto; try reflexivity. pose proof (K _ _ G) as A. cbn [acct book] in *. rewrite set_same. unfold elements. rewrite G.
      rewrite (nth_error_nth _ _ _ Nx). unfold size_of. now rewrite En, A.
    + destruct (get h a) as [[]|] eqn:G; try discriminate. destruct (est_of h x) as [n| |] eqn:En; try discriminate.
      destruct (is_rec h x); [|discriminate]. inv H. eapply kept_put; eauto; try reflexivity. pose proof (K _ _ G) as A. cbn [acct book] in *.
      rewrite set_same. unfold size_of. now rewrite En, A.
    + destruct (get h a) as [[]|] eqn:G; try discriminate. destruct (N.leb _ _); [discriminate|].
      destruct (nth_error elems (N.to_nat i)) as [x|] eqn:Nx; [|discriminate]. destruct (est_of h x) as [n| |] eqn:En; try discriminate.
      inv H. eapply kept_put; eauto; try reflexivity. pose proof (K _ _ G) as A. cbn [acct book] in *. rewrite set_same. unfold elements. rewrite G.
      rewrite (nth_error_nth _ _ _ Nx). unfold size_of. now rewrite En, A.
    + destruct (get h a) as [[]|] eqn:G; try discriminate. destruct (slice_ok h s); [|discriminate].
      destruct (add_slices h encoded keys buf est [s]) as [o'| |] eqn:A; try discriminate. inv H.
      pose proof (add_slices_est _ _ _ _ _ _ _ A) as ->. eapply kept_put; eauto; try reflexivity. pose proof (K _ _ G) as B. cbn [acct book] in *.
      rewrite set_same, B. cbn [map]. unfold total. cbn [fold_right]. lia.
    + destruct (get h a) as [[]|] eqn:G; try discriminate. destruct est as [[ek ev] es]. destruct (est_of h k) as [n| |] eqn:En; try discriminate.
      destruct (is_key h k); [|discriminate]. inv H. eapply kept_put; eauto; try reflexivity. pose proof (K _ _ G) as B. cbn [acct book] in *. inv B.
      rewrite set_same, !set_else by (right; discriminate). unfold size_of. now rewrite En.
    + destruct (get h a) as [[]|] eqn:G; try discriminate. destruct est as [[ek ev] es]. destruct (est_of h v) as [n| |] eqn:En; try discriminate.
      destruct (is_val h v); [|discriminate]. inv H. eapply kept_put; eauto; try reflexivity. pose proof (K _ _ G) as B. cbn [acct book] in *. inv B.
      rewrite set_same, !set_else by (right; discriminate). unfold size_of. now rewrite En.
    + destruct (get h a) as [[]|] eqn:G; try discriminate. destruct est as [[ek ev] es]. destruct (est_of h v) as [n| |] eqn:En; try discriminate.
      destruct (is_val h v); [|discriminate]. inv H. eapply kept_put; eauto; try reflexivity. pose proof (K _ _ G) as B. cbn [acct book] in *. inv B.
      rewrite set_same, !set_else by (right; discriminate). unfold size_of. now rewrite En.
    + destruct (get h a) as [[]|] eqn:G; try discriminate. inv H. eapply kept_put; eauto; try reflexivity. exact (K _ _ G).
    + destruct (get h a) as [[]|] eqn:G; try discriminate. inv H. eapply kept_put; eauto; try reflexivity. exact (K _ _ G).
  - destruct (writes o) as [k|] eqn:W.
    + pose proof (step_kind _ _ _ S H) as Q. rewrite T, W in Q. destruct Q as (Eo & _). intros a ob G.
      unfold get in G. rewrite Eo in G. apply (acct_ext p); [|now apply K]. intros c. symmetry.
      rewrite next_old by ((apply nth_error_Some; congruence) || now destruct o). apply book_other. congruence.
    + destruct (is_encode o) eqn:E.
      * destruct (step_erel _ _ _ S H E) as (X & R). pose proof X as (((m & M) & L & _) & S' & _). intros a ob G.
        assert (a < length (objs h))%nat as La by (rewrite <- L; eapply get_lt; eauto).
        destruct (get h a) as [o1|] eqn:G1; [|apply nth_error_None in G1; lia].
        destruct (R a o1 G1) as (o2 & G2 & F). assert (o2 = ob) by congruence. subst o2. pose proof (K a o1 G1) as A.
        assert (forall c, book h o p a c = p a c) as Bk by (intros c; apply book_other; congruence).
        assert (forall c, c <> Whole -> next h o h' p a c = p a c) as Nx.
        { intros c Hc. unfold next. rewrite (proj2 (Nat.leb_gt _ _) La), E. destruct c; cbn [same_account andb]; auto; now elim Hc. }
        assert (forall s, In s (slices_of o1) -> slice_ok h s = true) as Ks by (intros; eapply S; eauto).
        assert (next h o h' p a Whole = if counts_buf h' a && moved h h' a then len_of h' (slot h' a) else p a Whole) as Nw.
        { unfold next. rewrite (proj2 (Nat.leb_gt _ _) La), E, Bk. reflexivity. }
        unfold counts_buf, moved, slot in Nw. rewrite G, G1 in Nw.
        assert (forall (b b' : option slc), slice_ok h b = true -> b' = b \/ (exists s, b' = Some s /\ (length (mem h) <= sl_blk s)%nat) ->
          match b', b with Some s', Some s => negb (Nat.eqb (sl_blk s') (sl_blk s)) | Some _, None => true | None, _ => false end = true <->
          (exists s, b' = Some s /\ (length (mem h) <= sl_blk s)%nat)) as Mv.
        { intros b b' Kb [-> |(s & -> & Ls)].
          - destruct b as [s|]; [|split; [discriminate|intros (s & Q & _); discriminate]]. rewrite Nat.eqb_refl. cbn [negb]. cbn [slice_ok] in Kb.
            rewrite andb_true_iff, Nat.ltb_lt in Kb. split; [discriminate|]. intros (s' & Q & Ls). inv Q. lia.
          - split; [eauto|]. intros _. destruct b as [s'|]; [|reflexivity]. cbn [slice_ok] in Kb. rewrite andb_true_iff, Nat.ltb_lt in Kb.
            apply negb_true_iff, Nat.eqb_neq. lia. }
        destruct o1, ob; cbn [efield acct obj_slice andb] in *; auto; try discriminate.
        -- rewrite Nw. destruct F as [(-> & ->)|(s & -> & Ls & ->)].
           ++ destruct buf as [s|]; [rewrite Nat.eqb_refl; cbn|]; assumption.
           ++ rewrite (proj2 (Mv buf (Some s) (Ks _ (or_introl eq_refl)) (or_intror (ex_intro _ s (conj eq_refl Ls))))) by eauto. reflexivity.
        -- rewrite Nw. congruence.
        -- rewrite !Nx by discriminate. congruence.
        -- rewrite Nw. destruct F as [(-> & ->)|(s & -> & Ls & ->)].
           ++ destruct buf as [s|]; [rewrite Nat.eqb_refl; cbn|]; assumption.
           ++ rewrite (proj2 (Mv buf (Some s) (Ks _ (or_introl eq_refl)) (or_intror (ex_intro _ s (conj eq_refl Ls))))) by eauto. reflexivity.
      * destruct (step_opens _ _ _ S H T W E) as (Gr & F). intros a ob G.
        destruct (Nat.lt_ge_cases a (length (objs h))) as [La|La].
        -- destruct (grows_back _ _ _ _ Gr G) as [G'|(C & _)]; [|lia]. apply (acct_ext p); [|now apply K]. intros c. symmetry.
           rewrite next_old by assumption. apply book_other. congruence.
        -- apply (fresh_acct h'); [assumption|now apply (F a)|]. unfold next. rewrite (proj2 (Nat.leb_le _ _) La). reflexivity.
Qed.
Lemma kept_run ops : forall h p h', sound h -> kept h p -> run h ops = Some h' -> kept h' (ledger_after h p ops).
Proof.
  induction ops as [|o ops IH]; intros h p h' S K H; cbn [run ledger_after] in *; [now inv H|].
  destruct (step h o) as [h1|] eqn:E; [|discriminate]. apply IH; [eapply step_sound; eauto|eapply kept_step; eauto|assumption].
Qed.
Lemma max1 n : (if n <=? 0 then 1 else n) = Z.max 1 n.
Proof. destruct (Z.leb_spec n 0); lia. Qed.
Lemma kept_shown h p a : kept h p -> size_of h a = shown h p a.
Proof.
  intros K. unfold size_of, est_of, shown. destruct (get h a) as [o|] eqn:G; [|reflexivity]. pose proof (K a o G) as A.
  destruct o; cbn [obj_est value_est record_est ikey_est acct] in *.
  - fold (len_of h data). change (2 ^ 7) with 128. change (2 ^ 15) with 32768. change (2 ^ 23) with 8388608.
    destruct (_ <? _); [lia|]. destruct (_ <? _); [lia|]. destruct (_ <? _); lia.
  - now rewrite max1, A.
  - now rewrite max1, A.
  - destruct est as [[ek ev] es]. inv A. unfold at_least_1. now rewrite !max1.
  - now symmetry.
  - reflexivity.
  - reflexivity.
  - reflexivity.
  - reflexivity.
  - unfold ikey_is_empty. now destruct buf, keys.
Qed.
Lemma empty_kept p : kept empty_heap p.
Proof. intros a o G. unfold get in G. cbn in G. destruct a; discriminate. Qed.

(** ** Histories that build from the bottom up *)
Definition psz (h : heap) (p : option ref) : Z := match p with Some x => size_of h x | None => 0 end.
Definition level (h : heap) (o : obj) : Prop :=
  match o with
  | OArr _ _ e l | ORecs _ _ e l => e = 1 + total (map (size_of h) l)
  | OKeyObj _ ks _ e => e = 1 + total (map (fun s => 1 + len_of h s) ks)
  | ORec _ _ e k v s _ _ _ => e = (psz h k, psz h v, psz h s)
  | _ => True
  end.
Definition built (h : heap) : Prop :=
  (forall a o, get h a = Some o -> level h o) /\ (forall a b, holds h b a -> (a < length (objs h))%nat).
Lemma size_same h h' y : get h' y = get h y -> (forall e b d, get h y = Some (OPrim e b d) -> len_of h' d = len_of h d) -> size_of h' y = size_of h y.
Proof.
  intros G L. unfold size_of, est_of. rewrite G. destruct (get h y) as [[]|] eqn:Gy; try reflexivity.
  cbn [obj_est value_est]. specialize (L _ _ _ eq_refl). unfold len_of in L. now rewrite L.
Qed.
Definition held (o : obj) (a : ref) : Prop :=
  match o with
  | OArr _ _ _ l | ORecs _ _ _ l => In a l
  | ORec _ _ _ k v s _ _ _ => k = Some a \/ v = Some a \/ s = Some a
  | _ => False
  end.
Lemma holds_held h b a : holds h b a <-> exists o, get h b = Some o /\ held o a.
Proof.
  unfold holds, elements, parts. split.
  - intros [I|I]; destruct (get h b) as [[]|] eqn:G; try destruct I; try discriminate; try (destruct H; discriminate); eauto;
      try (exfalso; intuition discriminate); eexists; (split; [reflexivity|]); cbn [held]; auto.
  - intros (o & G & I). rewrite G. destruct o; cbn [held] in I; try contradiction; auto.
Qed.
(** The same fields, and everything held has the same size. *)
Lemma level_same h h' o : (forall a, held o a -> size_of h' a = size_of h a) ->
  (forall e ks b est s, o = OKeyObj e ks b est -> In s ks -> len_of h' s = len_of h s) -> level h o -> level h' o.
Proof.
  intros E K L. destruct o; cbn [level held] in *; auto.
  - rewrite L. f_equal. apply total_ext. intros x I. symmetry. auto.
  - rewrite L. f_equal. apply total_ext. intros x I. symmetry. auto.
  - rewrite L. assert (forall p, (forall x, p = Some x -> size_of h' x = size_of h x) -> psz h' p = psz h p) as P by (intros [x|] Q; cbn [psz]; auto).
    rewrite !P by auto. reflexivity.
  - rewrite L. f_equal. apply total_ext. intros s I. f_equal. symmetry. eapply K; eauto.
Qed.
Lemma size_nonneg h a o : get h a = Some o -> (is_val h a = true \/ is_rec h a = true) -> 0 <= size_of h a.
Proof.
  intros G I. unfold size_of, est_of, is_val, is_rec in *. rewrite G in *. destruct o; try (destruct I; discriminate); cbn [obj_est value_est record_est].
  - pose proof (zlen_nonneg (gcontent (rd h data))). repeat (destruct (_ <? _); try lia).
  - destruct (_ <=? 0) eqn:E; [lia|]. apply Z.leb_gt in E. lia.
  - destruct (_ <=? 0) eqn:E; [lia|]. apply Z.leb_gt in E. lia.
  - destruct est as [[ek ev] es]. unfold at_least_1. rewrite !max1. destruct ts, sig_r, sig_s; lia.
  - apply zlen_nonneg.
  - apply zlen_nonneg.
  - apply zlen_nonneg.
Qed.
Lemma total_app l1 l2 : total (l1 ++ l2) = total l1 + total l2.
Proof. induction l1 as [|x l IH]; cbn [app total fold_right]; [reflexivity|]. unfold total in IH. rewrite IH. unfold total. lia. Qed.
Lemma total_delete (f : ref -> Z) l i x : nth_error l (N.to_nat i) = Some x -> total (map f (delete_at l i)) = total (map f l) - f x.
Proof.
  intros H. destruct (nth_error_split _ _ H) as (l1 & l2 & -> & L). unfold delete_at. rewrite <- L.
  rewrite firstn_app, firstn_all, Nat.sub_diag, firstn_O, app_nil_r.
  replace (S (length l1)) with (length l1 + 1)%nat by lia. rewrite skipn_app, skipn_all2 by lia.
  replace (length l1 + 1 - length l1)%nat with 1%nat by lia. cbn [skipn app]. rewrite !map_app, !total_app. cbn [map].
  unfold total. cbn [fold_right]. lia.
Qed.
Lemma in_delete {A} (l : list A) i x : In x (delete_at l i) -> In x l.
Proof.
  unfold delete_at. rewrite in_app_iff. intros [I|I]; rewrite <- (firstn_skipn (N.to_nat i) l), in_app_iff; [now left|right].
  replace (S (N.to_nat i)) with (1 + N.to_nat i)%nat in I by lia.
  assert (forall m (l' : list A), skipn (1 + m) l' = skipn 1 (skipn m l')) as Sk.
  { induction m as [|m IH]; intros l'; [reflexivity|]. destruct l' as [|y l']; [reflexivity|]. cbn [skipn Nat.add] in *. apply IH. }
  rewrite Sk in I. destruct (skipn (N.to_nat i) l) as [|y l']; [destruct I|]. now right.
Qed.
Lemma est_exists h x n : est_of h x = Ok n -> size_of h x = n /\ (x < length (objs h))%nat.
Proof. unfold size_of, est_of. destruct (get h x) as [o|] eqn:G; [|discriminate]. intros E. inv E. split; [reflexivity|]. eapply get_lt; eauto. Qed.
Lemma built_put h a o1 o' : built h -> get h a = Some o1 -> (forall b, ~ holds (put h a o') b a) ->
  (forall x, held o' x -> (x < length (objs h))%nat) -> level h o' -> built (put h a o').
Proof.
  intros (L & R) G N He Lv.
  assert (forall y, y <> a -> size_of (put h a o') y = size_of h y) as Sz.
  { intros y Ny. apply size_same; [rewrite get_put_other by auto; reflexivity|]. reflexivity. }
  assert (forall b ob x, get (put h a o') b = Some ob -> held ob x -> x <> a) as Nh.
  { intros b ob x Gb Hx ->. apply (N b). apply holds_held. eauto. }
  split.
  - intros x ox Gx. apply (level_same h); [intros y Hy; apply Sz; eapply Nh; eauto|reflexivity|].
    destruct (Nat.eq_dec a x) as [<- |Nx].
    + rewrite (get_put _ _ _ _ G) in Gx. inv Gx. assumption.
    + rewrite get_put_other in Gx by assumption. now apply (L x).
  - intros x b Hb. apply holds_held in Hb. destruct Hb as (ob & Gb & Hx). cbn [put objs]. rewrite upd_length.
    destruct (Nat.eq_dec a b) as [<- |Nb].
    + rewrite (get_put _ _ _ _ G) in Gb. inv Gb. auto.
    + rewrite get_put_other in Gb by assumption. apply (R x b). apply holds_held. eauto.
Qed.
(** New objects hold nothing. *)
Lemma new_empty h o : (forall x, ~ held o x) -> forall a ob x, (length (objs h) <= a)%nat -> get (fst (new_obj h o)) a = Some ob -> ~ held ob x.
Proof.
  intros N a ob x L G. unfold get in G. cbn [new_obj fst objs] in G. rewrite nth_error_app2 in G by assumption.
  destruct (a - length (objs h))%nat as [|[|?]]; cbn in G; inv G. apply N.
Qed.
Lemma step_empty h o h' : sound h -> step h o = Some h' -> target o = None -> writes o = None -> is_encode o = false -> copies o = false ->
  forall a ob x, (length (objs h) <= a)%nat -> get h' a = Some ob -> ~ held ob x.
Proof.
  intros S H T W E C a ob x La G. destruct o; try discriminate; cbn [step] in H.
  - inv H. change (get h a = Some ob) in G. apply get_lt in G. lia.
  - destruct (slice_ok h d); [|discriminate]. injection H as <-. revert G. apply new_empty; auto.
  - inv H. revert G. apply (new_empty h); auto.
  - inv H. revert G. apply (new_empty h); auto.
  - inv H. revert G. apply (new_empty h); [|assumption]. intros y. cbn [held]. intuition discriminate.
  - inv H. revert G. apply (new_empty h); auto.
  - destruct (slice_ok h d); [|discriminate]. injection H as <-. revert G. apply new_empty; auto.
  - destruct (is_parsed o) eqn:P; [|discriminate]. inv H. revert G. apply (new_empty h); [|assumption]. destruct o; try discriminate; auto.
  - unfold key_copy in H. destruct (get h a0) as [[]|] eqn:Ga; try discriminate.
    + destruct (add_slices h false [] None 1 keys) as [o| |] eqn:A; try discriminate.
      pose proof (add_slices_est _ _ _ _ _ _ _ A) as ->. cbn [new_obj] in H. inv H. revert G. apply (new_empty h); [|assumption]. auto.
    + cbn [new_obj] in H. inv H. revert G. apply (new_empty h); [|assumption]. auto.
    + destruct (new_mapped_key (Some buf)) as [[[] ?]| |]; try discriminate. cbn [new_obj] in H. inv H. revert G.
      apply (new_empty h); [|assumption]. auto.
Qed.
Lemma wrote_len h h' k s : wrote h h' k -> len_of h' s = len_of h s.
Proof.
  intros (_ & _ & _ & L). unfold len_of, zlen. destruct s as [s|]; [|reflexivity]. cbn [rd gcontent].
  rewrite !firstn_length, !skipn_length. now rewrite L.
Qed.
Lemma fresh_level h o : (forall x, ~ held o x) -> fresh_est h o -> level h o.
Proof.
  intros N F. destruct o; cbn [fresh_est level held] in *; auto.
  - destruct elems as [|x l]; [assumption|]. elim (N x). now left.
  - destruct elems as [|x l]; [assumption|]. elim (N x). now left.
  - destruct key as [x|]; [elim (N x); auto|]. destruct val as [x|]; [elim (N x); auto|]. destruct scheme as [x|]; [elim (N x); auto|]. assumption.
Qed.
Lemma built_step h o h' : sound h -> built h -> step h o = Some h' -> tidy_call h' o -> built h'.
Proof.
  intros S B H (E & C & Td). pose proof B as (L & R). destruct (target o) as [a|] eqn:T.
  - specialize (Td a eq_refl). destruct o; try discriminate; cbn [target] in T; inv T; cbn [step] in H.
    + destruct (get h a) as [[]|] eqn:G; try discriminate. destruct (est_of h x) as [n| |] eqn:En; try discriminate.
      destruct (is_val h x); [|discriminate]. inv H. destruct (est_exists _ _ _ En) as (Sx & Lx). apply (built_put h a _ _ B G); [exact Td| |].
      * cbn [held]. intros y I. apply in_app_iff in I. destruct I as [I|[<- |[]]]; [|assumption]. apply (R y a), holds_held. eauto.
      * pose proof (L _ _ G) as Lv. cbn [level] in *. rewrite map_app, total_app, Lv. cbn [map]. rewrite Sx. unfold total. cbn [fold_right]. lia.
    + destruct (get h a) as [[]|] eqn:G; try discriminate. destruct (N.leb _ _); [discriminate|].
      destruct (nth_error elems (N.to_nat i)) as [x|] eqn:Nx; [|discriminate]. destruct (est_of h x) as [n| |] eqn:En; try discriminate.
      inv H. destruct (est_exists _ _ _ En) as (Sx & Lx). apply (built_put h a _ _ B G); [exact Td| |].
      * cbn [held]. intros y I. apply (R y a), holds_held. eexists. split; [exact G|]. exact (in_delete _ _ _ I).
      * pose proof (L _ _ G) as Lv. cbn [level] in *. rewrite (total_delete _ _ _ _ Nx), Lv, Sx. lia.
    + destruct (get h a) as [[]|] eqn:G; try discriminate. destruct (est_of h x) as [n| |] eqn:En; try discriminate.
      destruct (is_rec h x); [|discriminate]. inv H. destruct (est_exists _ _ _ En) as (Sx & Lx). apply (built_put h a _ _ B G); [exact Td| |].
      * cbn [held]. intros y I. apply in_app_iff in I. destruct I as [I|[<- |[]]]; [|assumption]. apply (R y a), holds_held. eauto.
      * pose proof (L _ _ G) as Lv. cbn [level] in *. rewrite map_app, total_app, Lv. cbn [map]. rewrite Sx. unfold total. cbn [fold_right]. lia.
    + destruct (get h a) as [[]|] eqn:G; try discriminate. destruct (N.leb _ _); [discriminate|].
      destruct (nth_error elems (N.to_nat i)) as [x|] eqn:Nx; [|discriminate]. destruct (est_of h x) as [n| |] eqn:En; try discriminate.
      inv H. destruct (est_exists _ _ _ En) as (Sx & Lx). apply (built_put h a _ _ B G); [exact Td| |].
      * cbn [held]. intros y I. apply (R y a), holds_held. eexists. split; [exact G|]. exact (in_delete _ _ _ I).
      * pose proof (L _ _ G) as Lv. cbn [level] in *. rewrite (total_delete _ _ _ _ Nx), Lv, Sx. lia.
    + destruct (get h a) as [[]|] eqn:G; try discriminate. destruct (slice_ok h s); [|discriminate].
      destruct (add_slices h encoded keys buf est [s]) as [o'| |] eqn:A; try discriminate. inv H.
      pose proof (add_slices_est _ _ _ _ _ _ _ A) as ->. apply (built_put h a _ _ B G); [exact Td|intros y []|].
      pose proof (L _ _ G) as Lv. cbn [level] in *. rewrite map_app, total_app, Lv. lia.
    + destruct (get h a) as [[]|] eqn:G; try discriminate. destruct est as [[ek ev] es]. destruct (est_of h k) as [n| |] eqn:En; try discriminate.
      destruct (is_key h k); [|discriminate]. inv H. destruct (est_exists _ _ _ En) as (Sx & Lx). apply (built_put h a _ _ B G); [exact Td| |].
      * cbn [held]. intros y [I|I]; [now inv I|]. apply (R y a), holds_held. eexists. split; [exact G|]. cbn [held]. auto.
      * pose proof (L _ _ G) as Lv. cbn [level] in *. injection Lv as -> -> ->. cbn [psz]. congruence.
    + destruct (get h a) as [[]|] eqn:G; try discriminate. destruct est as [[ek ev] es]. destruct (est_of h v) as [n| |] eqn:En; try discriminate.
      destruct (is_val h v); [|discriminate]. inv H. destruct (est_exists _ _ _ En) as (Sx & Lx). apply (built_put h a _ _ B G); [exact Td| |].
      * cbn [held]. intros y [I|[I|I]]; [|now inv I|]; apply (R y a), holds_held; (eexists; split; [exact G|]); cbn [held]; auto.
      * pose proof (L _ _ G) as Lv. cbn [level] in *. injection Lv as -> -> ->. cbn [psz]. congruence.
    + destruct (get h a) as [[]|] eqn:G; try discriminate. destruct est as [[ek ev] es]. destruct (est_of h v) as [n| |] eqn:En; try discriminate.
      destruct (is_val h v); [|discriminate]. inv H. destruct (est_exists _ _ _ En) as (Sx & Lx). apply (built_put h a _ _ B G); [exact Td| |].
      * cbn [held]. intros y [I|[I|I]]; [| |now inv I]; apply (R y a), holds_held; (eexists; split; [exact G|]); cbn [held]; auto.
      * pose proof (L _ _ G) as Lv. cbn [level] in *. injection Lv as -> -> ->. cbn [psz]. congruence.
    + destruct (get h a) as [[]|] eqn:G; try discriminate. inv H. apply (built_put h a _ _ B G); [exact Td| |exact (L _ _ G)].
      intros y I. apply (R y a), holds_held. eexists. split; [exact G|]. exact I.
    + destruct (get h a) as [[]|] eqn:G; try discriminate. inv H. apply (built_put h a _ _ B G); [exact Td| |exact (L _ _ G)].
      intros y I. apply (R y a), holds_held. eexists. split; [exact G|]. exact I.
  - destruct (writes o) as [k|] eqn:W.
    + pose proof (step_kind _ _ _ S H) as Q. rewrite T, W in Q. pose proof Q as (Eo & _).
      assert (forall x, get h' x = get h x) as Ge by (intros x; unfold get; now rewrite Eo).
      assert (forall x, size_of h' x = size_of h x) as Sz by (intros x; apply size_same; [apply Ge|]; intros; eapply wrote_len; eauto).
      split.
      * intros x ox Gx. rewrite Ge in Gx. apply (level_same h); [auto| |now apply (L x)]. intros. eapply wrote_len; eauto.
      * intros x b Hb. rewrite Eo. apply (R x b). apply holds_held in Hb. apply holds_held. destruct Hb as (ob & Gb & Hx). rewrite Ge in Gb. eauto.
    + destruct (step_opens _ _ _ S H T W E) as (Gr & F). pose proof (step_empty _ _ _ S H T W E C) as Em.
      pose proof Gr as (M & (l & Lo & _) & _).
      assert (forall x, (x < length (objs h))%nat -> size_of h' x = size_of h x) as Sz.
      { intros x Lx. destruct (get h x) as [ox|] eqn:Gx; [|apply nth_error_None in Gx; lia].
        apply size_same; [rewrite (grows_get _ _ _ _ Gr Gx); now symmetry|]. intros e b d Gd. apply len_mono; [assumption|].
        eapply S; [exact Gd|]. cbn [slices_of]. auto with datatypes. }
      split.
      * intros x ox Gx. destruct (Nat.lt_ge_cases x (length (objs h))) as [Lx|Lx].
        -- destruct (grows_back _ _ _ _ Gr Gx) as [G'|(Q & _)]; [|lia]. apply (level_same h); [| |now apply (L x)].
           ++ intros y Hy. apply Sz. apply (R y x), holds_held. eauto.
           ++ intros e ks b est s -> I. apply len_mono; [assumption|]. eapply S; [exact G'|]. cbn [slices_of]. auto with datatypes.
        -- apply fresh_level; [intros y; now apply (Em x)|now apply (F x)].
      * intros x b Hb. apply holds_held in Hb. destruct Hb as (ob & Gb & Hx). rewrite Lo, app_length.
        destruct (Nat.lt_ge_cases b (length (objs h))) as [Lx|Lx]; [|elim (Em b ob x Lx Gb Hx)].
        destruct (grows_back _ _ _ _ Gr Gb) as [G'|(Q & _)]; [|lia]. assert (x < length (objs h))%nat; [|lia]. apply (R x b), holds_held. eauto.
Qed.
Lemma empty_built : built empty_heap.
Proof.
  split; [intros a o G; unfold get in G; cbn in G; destruct a; discriminate|]. intros a b Hb. apply holds_held in Hb.
  destruct Hb as (o & G & _). unfold get in G. cbn in G. destruct b; discriminate.
Qed.
Lemma built_run ops : forall h h', sound h -> built h -> tidy h ops -> run h ops = Some h' -> built h'.
Proof.
  induction ops as [|o ops IH]; intros h h' S B Td H; cbn [run tidy] in *; [now inv H|].
  destruct (step h o) as [h1|] eqn:E; [|discriminate]. destruct Td as (Tc & Td). apply (IH h1); [eapply step_sound; eauto|eapply built_step; eauto|assumption|assumption].
Qed.
Lemma total_nonneg l : (forall x, In x l -> 0 <= x) -> 0 <= total l.
Proof.
  induction l as [|x l IH]; intros H; unfold total; cbn [fold_right]; [lia|]. assert (0 <= x) by (apply H; now left).
  assert (0 <= total l) by (apply IH; intros; apply H; now right). unfold total in *. lia.
Qed.
Lemma built_nonneg h a : built h -> 0 <= size_of h a.
Proof.
  intros (L & _). destruct (get h a) as [o|] eqn:G; [|unfold size_of, est_of; rewrite G; lia]. specialize (L _ _ G).
  destruct o; try (apply (size_nonneg h a _ G); unfold is_val, is_rec; rewrite G; auto; fail); unfold size_of, est_of; rewrite G; cbn [obj_est].
  - cbn [level] in L. rewrite L. assert (0 <= total (map (fun s => 1 + len_of h s) keys)); [|lia]. apply total_nonneg.
    intros x I. apply in_map_iff in I. destruct I as (s & <- & _). unfold len_of. pose proof (zlen_nonneg (gcontent (rd h s))). lia.
  - cbn. lia.
  - cbn [ikey_est]. destruct (ikey_is_empty _); [lia|apply zlen_nonneg].
Qed.
Lemma built_adds_up h a : built h -> adds_up h a.
Proof.
  intros B. pose proof B as (L & _). unfold adds_up. destruct (get h a) as [o|] eqn:G; [|exact Logic.I]. specialize (L _ _ G).
  assert (forall l, 0 <= total (map (size_of h) l)) as T.
  { intros l. apply total_nonneg. intros x I. apply in_map_iff in I. destruct I as (y & <- & _). now apply built_nonneg. }
  destruct o; try exact Logic.I; unfold size_of at 1, est_of; rewrite G; cbn [obj_est value_est record_est level] in *.
  - rewrite max1, L. pose proof (T elems). lia.
  - rewrite max1, L. pose proof (T elems). lia.
  - destruct est as [[ek ev] es]. injection L as -> -> ->. unfold at_least_1. rewrite !max1.
    assert (forall p, Z.max 1 (psz h p) = part_size h p) as P by (intros [x|]; reflexivity). now rewrite !P.
  - assumption.
Qed.
(** Encode that returns no error. *)
Lemma encode_array n h a h' l : sound h -> venc n h a = Some (h', Ok tt) -> array_of h a l ->
  exists b, buf_of h' a = Ok (Some b) /\ size_of h' a = zlen b.
Proof.
  intros S H (e & bf & est & G). pose proof H as H0. destruct n as [|n]; [discriminate|]. cbn [venc] in H. rewrite G in H.
  destruct (size_header 6 (length l)) as [[magic sizes]| |]; try discriminate.
  destruct (enc_all (venc n) h l) as [[h1 [c| |]]|] eqn:All; try discriminate.
  destruct (with_content magic sizes c) as [b| |] eqn:W; try discriminate. cbn [new_block] in H.
  destruct (enc_all_x _ (proj1 (enc_fields n)) _ _ _ _ S All) as (X & E). destruct (E a _ G) as (o1 & G1 & _).
  injection H as <-.
  set (s := {| sl_blk := length (mem h1); sl_off := 0; sl_len := length b |}).
  assert (get (put (fst (new_block h1 b)) a (OArr true (Some s) (zlen b) l)) a = Some (OArr true (Some s) (zlen b) l)) as G2.
  { apply (get_put _ _ o1). exact G1. }
  change ({| mem := mem h1 ++ [b]; objs := objs h1 |}) with (fst (new_block h1 b)).
  exists b. unfold buf_of, size_of, est_of. rewrite G2. split.
  - unfold s. cbn [obj_buf obj_encoded obj_slice rd sl_blk sl_off sl_len put new_block fst mem skipn].
    rewrite app_nth2, Nat.sub_diag by lia. cbn [nth]. now rewrite firstn_all.
  - cbn [obj_est value_est]. rewrite max1. assert (1 <= zlen b); [|lia]. clear - W. unfold with_content in W.
    destruct (zlen c =? 0)%Z; [inversion W; rewrite zlen_cons; pose proof (zlen_nonneg sizes); lia|].
    destruct (zlen c <? 256)%Z; [inversion W; rewrite zlen_cons; match goal with |- context [zlen ?x] => pose proof (zlen_nonneg x) end; lia|].
    destruct (zlen c <? 65536)%Z; [|discriminate].
    inversion W; rewrite zlen_cons; match goal with |- context [zlen ?x] => pose proof (zlen_nonneg x) end; lia.
Qed.
Lemma encode_key h a h' e ks b0 est : key_enc h a = (h', Ok tt) -> get h a = Some (OKeyObj e ks b0 est) ->
  exists b, buf_of h' a = Ok (Some b) /\ size_of h' a = zlen b.
Proof.
  intros H G. unfold key_enc in H. rewrite G in H. destruct (encode_keys (map (rd h) ks)) as [b| |]; try discriminate.
  cbn [new_block] in H. injection H as <-. exists b. unfold buf_of, size_of, est_of.
  set (s := {| sl_blk := length (mem h); sl_off := 0; sl_len := length b |}).
  assert (get (put (fst (new_block h b)) a (OKeyObj true ks (Some s) (zlen b))) a = Some (OKeyObj true ks (Some s) (zlen b))) as G2.
  { apply (get_put _ _ (OKeyObj e ks b0 est)). exact G. }
  change ({| mem := mem h ++ [b]; objs := objs h |}) with (fst (new_block h b)). rewrite G2. split; [|reflexivity].
  unfold s. cbn [obj_buf obj_encoded obj_slice rd sl_blk sl_off sl_len put new_block fst mem skipn].
  rewrite app_nth2, Nat.sub_diag by lia. cbn [nth]. now rewrite firstn_all.
Qed.
(** Encode changes the size of nothing but arrays and keys. *)
Lemma encode_keeps h o h' a : sound h -> step h o = Some h' -> is_encode o = true -> counts_buf h a = false -> size_of h' a = size_of h a.
Proof.
  intros S H E N. destruct (step_erel _ _ _ S H E) as (X & R). pose proof X as ((M & L & K) & S' & _). unfold counts_buf in N.
  destruct (get h a) as [ob|] eqn:G.
  - destruct (R a ob G) as (o' & G' & F). unfold size_of, est_of. rewrite G, G'. destruct (K a ob G) as (o2 & G2 & B).
    assert (o2 = o') by congruence. subst o2.
    destruct ob, o'; cbn [efield bare] in *; try discriminate; inv B; try reflexivity; try congruence.
    cbn [obj_est value_est]. fold (len_of h' data). fold (len_of h data). rewrite (len_mono h h' data M); [reflexivity|].
    eapply S; [exact G|]. cbn [slices_of]. auto with datatypes.
  - assert (get h' a = None) as G' by (apply nth_error_None; apply nth_error_None in G; lia). unfold size_of, est_of. now rewrite G, G'.
Qed.
