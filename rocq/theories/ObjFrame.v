(** * What calls leave alone: frames, up-to-date buffers and copies. *)
From Coq Require Import List NArith ZArith Bool Lia.
From Coq Require Import Strings.Byte.
From Verif Require Import Base BaseProofs VarintModel KeyModel ValueModel ValueProofs ValueCopy ObjModel ObjSpec ObjProofs ObjHistory.
Import ListNotations.

Definition untouched (h h' : heap) (ro : list ref) (rb : list nat) : Prop :=
  (forall a o, In a ro -> get h a = Some o -> exists o', get h' a = Some o' /\ bare o' = bare o) /\
  (forall k, In k rb -> k < length (mem h) -> nth k (mem h') [] = nth k (mem h) []).
Lemma untouched_incl h h' ro rb ro' rb' : untouched h h' ro rb -> incl ro' ro -> incl rb' rb -> untouched h h' ro' rb'.
Proof. intros (A & B) I J. split; intros; [eapply A|eapply B]; eauto. Qed.
Lemma untouched_rd h h' ro rb s : untouched h h' ro rb -> incl (blk_of s) rb -> slice_ok h s = true -> rd h' s = rd h s.
Proof.
  intros (_ & B) I Sl. destruct s as [s|]; [|reflexivity]. simpl in *. apply andb_true_iff in Sl. destruct Sl as [L _].
  apply Nat.ltb_lt in L. rewrite B; auto. apply I. now left.
Qed.

Lemma opt_all_in {A B} (f : A -> option B) l r x : opt_all f l = Some r -> In x l -> exists y, f x = Some y.
Proof.
  revert r. induction l as [|z l IH]; intros r H I; [destruct I|]. simpl in H.
  destruct (f z) as [y|] eqn:F; [|discriminate]. destruct (opt_all f l) as [ys|] eqn:E; [|discriminate].
  destruct I as [-> |I]; eauto.
Qed.
Lemma opt_all_same {A B} (f g : A -> option B) l : (forall x, In x l -> g x = f x) -> opt_all g l = opt_all f l.
Proof. induction l as [|z l IH]; intros H; simpl; [reflexivity|]. rewrite H by now left. rewrite IH; [reflexivity|]. intros. apply H. now right. Qed.
Lemma flat_map_same {A B} (f g : A -> list B) l : (forall x, In x l -> g x = f x) -> flat_map g l = flat_map f l.
Proof. induction l as [|z l IH]; intros H; simpl; [reflexivity|]. rewrite H by now left. rewrite IH; [reflexivity|]. intros. apply H. now right. Qed.
Lemma incl_flat_map {A B} (f : A -> list B) l x : In x l -> incl (f x) (flat_map f l).
Proof. intros I y J. apply in_flat_map. eauto. Qed.

(** What is read from a value depends only on its objects and blocks. *)
Lemma frame_key h h' a v rb : sound h -> untouched h h' [a] rb -> incl (kblks h a) rb -> kview h a = Some v ->
  kview h' a = Some v /\ kblks h' a = kblks h a.
Proof.
  intros S U I V. unfold kview in V. destruct (get h a) as [o|] eqn:G; [|discriminate].
  destruct U as (A & B). destruct (A a o) as (o' & G' & E); [now left|assumption|].
  unfold kview, kblks in *. rewrite G, G' in *. destruct o; try discriminate; destruct o'; simpl in E; inv E; inv V; try now split.
  split; [|reflexivity]. do 2 f_equal. apply map_ext_in. intros s Hs.
  eapply untouched_rd with (ro := []) (rb := rb); [split; [intros ? ? []|exact B]| |].
  - intros k Hk. apply I. apply in_flat_map. eauto.
  - eapply S; [exact G|]. simpl. auto.
Qed.
Lemma frame n : forall h h' a,
  (forall v, sound h -> untouched h h' (vobjs n h a) (vblks n h a) -> vview n h a = Some v ->
     vview n h' a = Some v /\ vobjs n h' a = vobjs n h a /\ vblks n h' a = vblks n h a /\ vkeyblks n h' a = vkeyblks n h a) /\
  (forall v, sound h -> untouched h h' (robjs n h a) (rblks n h a) -> rview n h a = Some v ->
     rview n h' a = Some v /\ robjs n h' a = robjs n h a /\ rblks n h' a = rblks n h a /\ rkeyblks n h' a = rkeyblks n h a).
Proof.
  induction n as [|n IH]; intros h h' a; [split; discriminate|]. split; intros v S U V.
  - cbn [vview] in V. destruct (get h a) as [o|] eqn:G; [|discriminate].
    destruct (proj1 U a o) as (o' & G' & E); [now left|assumption|].
    cbn [vview vobjs vblks vkeyblks] in *. rewrite G, G' in *.
    destruct o; try discriminate; destruct o'; simpl in E; try discriminate; injection E as E; subst; try (injection V as <-).
    + split; [|auto]. f_equal. f_equal. eapply untouched_rd; [exact U|apply incl_refl|]. eapply S; [exact G|]. simpl. auto.
    + destruct (opt_all (vview n h) elems) as [ys|] eqn:Ov; [|discriminate].
      assert (forall x, In x elems -> vview n h' x = vview n h x /\ vobjs n h' x = vobjs n h x /\ vblks n h' x = vblks n h x /\ vkeyblks n h' x = vkeyblks n h x) as Q.
      { intros x I. destruct (opt_all_in _ _ _ _ Ov I) as (y & Vy). destruct (IH h h' x) as (F & _). rewrite Vy. apply F; auto.
        eapply untouched_incl; [exact U| |]; [apply incl_tl|]; now apply incl_flat_map. }
      rewrite (opt_all_same (vview n h)) by (intros; now apply Q). rewrite Ov.
      rewrite (flat_map_same (vobjs n h) (vobjs n h')), (flat_map_same (vblks n h) (vblks n h')), (flat_map_same (vkeyblks n h) (vkeyblks n h'))
        by (intros; now apply Q). auto.
    + destruct (opt_all (rview n h) elems) as [ys|] eqn:Ov; [|discriminate].
      assert (forall x, In x elems -> rview n h' x = rview n h x /\ robjs n h' x = robjs n h x /\ rblks n h' x = rblks n h x /\ rkeyblks n h' x = rkeyblks n h x) as Q.
      { intros x I. destruct (opt_all_in _ _ _ _ Ov I) as (y & Vy). destruct (IH h h' x) as (_ & F). rewrite Vy. apply F; auto.
        eapply untouched_incl; [exact U| |]; [apply incl_tl|]; now apply incl_flat_map. }
      rewrite (opt_all_same (rview n h)) by (intros; now apply Q). rewrite Ov.
      rewrite (flat_map_same (robjs n h) (robjs n h')), (flat_map_same (rblks n h) (rblks n h')), (flat_map_same (rkeyblks n h) (rkeyblks n h'))
        by (intros; now apply Q). auto.
    + auto.
    + auto.
  - cbn [rview] in V. destruct (get h a) as [o|] eqn:G; [|discriminate].
    destruct (proj1 U a o) as (o' & G' & E); [now left|assumption|].
    cbn [rview robjs rblks rkeyblks] in *. rewrite G, G' in *.
    destruct o; try discriminate; destruct o'; simpl in E; try discriminate; injection E; intros; subst; [|injection V as <-; auto].
    destruct (ObjSpec.opt_part (kview h) key) as [k'|] eqn:Ok; [|discriminate].
    destruct (ObjSpec.opt_part (vview n h) val) as [v'|] eqn:Ov; [|discriminate].
    destruct (ObjSpec.opt_part (vview n h) scheme) as [s'|] eqn:Os; [|discriminate].
    assert (forall p q, ObjSpec.opt_part (vview n h) p = Some q -> incl (on_part (vobjs n h) p) (on_part (vobjs n h) val ++ on_part (vobjs n h) scheme) ->
       incl (on_part (vblks n h) p) (on_part (vblks n h) val ++ on_part (vblks n h) scheme) ->
       ObjSpec.opt_part (vview n h') p = Some q /\ on_part (vobjs n h') p = on_part (vobjs n h) p /\ on_part (vblks n h') p = on_part (vblks n h) p /\
       on_part (vkeyblks n h') p = on_part (vkeyblks n h) p) as Q.
    { intros [x|] q O I J; simpl in *; [|auto]. destruct (vview n h x) as [y|] eqn:Vy; [|discriminate].
      destruct (IH h h' x) as (F & _). destruct (F y S) as (F1 & F2 & F3 & F4); [|exact Vy|].
      - eapply untouched_incl; [exact U| |].
        + apply incl_tl. apply incl_appr. exact I.
        + apply incl_appr. exact J.
      - rewrite F1. auto. }
    destruct (Q _ _ Ov) as (Q1 & Q2 & Q3 & Q4); [apply incl_appl, incl_refl|apply incl_appl, incl_refl|].
    destruct (Q _ _ Os) as (P1 & P2 & P3 & P4); [apply incl_appr, incl_refl|apply incl_appr, incl_refl|].
    rewrite Q1, Q2, Q3, Q4, P1, P2, P3, P4.
    assert (ObjSpec.opt_part (kview h') key = Some k' /\ on_part (kblks h') key = on_part (kblks h) key) as (K1 & K2).
    { destruct key as [x|]; simpl in *; [|auto]. destruct (kview h x) as [y|] eqn:Vy; [|discriminate].
      destruct (frame_key h h' x y (rblks (Datatypes.S n) h a) S) as (F1 & F2); [| |assumption|].
      - cbn [rblks]. rewrite G. eapply untouched_incl; [exact U| |apply incl_refl]. intros z [<- |[]]. right. now left.
      - cbn [rblks]. rewrite G. now apply incl_appl.
      - rewrite F1, F2. auto. }
    rewrite K1, K2. auto.
Qed.

Lemma grows_untouched h h' ro rb : grows h h' -> untouched h h' ro rb.
Proof.
  intros G. split.
  - intros a o _ Ga. exists o. split; [eapply grows_get; eauto|reflexivity].
  - intros k _ L. destruct G as ((m & ->) & _). now rewrite app_nth1.
Qed.
Lemma step_untouched h o h' ro rb : sound h -> step h o = Some h' -> avoids ro rb o -> untouched h h' ro rb.
Proof.
  intros S H (At & Aw). pose proof (step_kind _ _ _ S H) as K. destruct (target o) as [b|] eqn:T.
  - destruct K as (o1 & o2 & G1 & -> & _). split; [|reflexivity]. intros a x I G. exists x. split; [|reflexivity].
    rewrite get_put_other; [assumption|]. intros ->. now apply (At a).
  - destruct (writes o) as [k|].
    + destruct K as (Eo & _ & N & _). split.
      * intros a x _ G. exists x. unfold get in *. rewrite Eo. auto.
      * intros j I _. apply N. intros ->. now apply (Aw k).
    + destruct (is_encode o); [|now apply grows_untouched].
      destruct K as (((m & M) & _ & E) & _). split; [intros; now apply E|]. intros k _ L. now rewrite M, app_nth1.
Qed.

(** ** Buffers stay up to date while nothing below changes *)
Lemma step_obj h o h' a x : sound h -> step h o = Some h' -> target o <> Some a -> get h a = Some x ->
  (forall k, writes o = Some k -> ~ In k (buf_blk h a)) -> (get h' a = Some x /\ buf_of h' a = buf_of h a) \/ current h' a.
Proof.
  intros S H T G W.
  assert (get h' a = Some x \/ current h' a) as [G'|C]; [| |now right].
  - pose proof (step_kind _ _ _ S H) as K. destruct (target o) as [b|] eqn:Tb.
    + destruct K as (o1 & o2 & G1 & -> & _). left. rewrite get_put_other; [assumption|]. congruence.
    + destruct (writes o) as [k|]; [destruct K as (Eo & _); left; unfold get in *; congruence|].
      destruct (is_encode o); [|left; eapply grows_get; eauto]. destruct K as (_ & _ & K). destruct (K a); [left; congruence|now right].
  - left. split; [assumption|]. unfold buf_of. rewrite G', G.
    destruct (is_parsed x) eqn:P; [destruct x; try discriminate; reflexivity|].
    assert (rd h' (obj_slice x) = rd h (obj_slice x)) as R.
    { eapply step_rd; [exact S|exact H| |].
      - eapply S; [exact G|now apply slice_in].
      - intros k Hk. specialize (W k Hk). unfold buf_blk in W. now rewrite G in W. }
    destruct x; try discriminate; simpl; simpl in R; now rewrite R.
Qed.
Definition current_as {A} (view : heap -> ref -> option A) (code : A -> res bytes) (h : heap) (a : ref) : Prop :=
  exists v b g, view h a = Some v /\ code v = Ok b /\ buf_of h a = Ok g /\ gcontent g = b.
Lemma vview_det n m h a v w : vview n h a = Some v -> vview m h a = Some w -> v = w.
Proof.
  intros A B. destruct (Nat.le_ge_cases n m) as [L|L]; [apply (vview_mono _ _ _ _ _ L) in A|apply (vview_mono _ _ _ _ _ L) in B]; congruence.
Qed.
Lemma rview_det n m h a v w : rview n h a = Some v -> rview m h a = Some w -> v = w.
Proof.
  intros A B. destruct (Nat.le_ge_cases n m) as [L|L]; [apply (rview_mono _ _ _ _ _ L) in A|apply (rview_mono _ _ _ _ _ L) in B]; congruence.
Qed.
Lemma val_not_rec n m h a v w : vview n h a = Some v -> rview m h a = Some w -> False.
Proof. destruct n, m; try discriminate. cbn [vview rview]. destruct (get h a) as [[]|]; discriminate. Qed.
Lemma val_not_key n h a v : vview n h a = Some v -> ~ current_key h a.
Proof. destruct n; [discriminate|]. cbn [vview]. intros V (ks & b & (e & bf & est & G) & _). rewrite G in V. discriminate. Qed.
Lemma rec_not_key n h a v : rview n h a = Some v -> ~ current_key h a.
Proof. destruct n; [discriminate|]. cbn [rview]. intros V (ks & b & (e & bf & est & G) & _). rewrite G in V. discriminate. Qed.

Lemma avoids_incl ro rb ro' rb' o : avoids ro rb o -> incl ro' ro -> incl rb' rb -> avoids ro' rb' o.
Proof. intros (A & B) I J. split; intros x Hx K; [eapply A|eapply B]; eauto. Qed.
Lemma calm_val n ops : forall h h' a v, sound h -> vview n h a = Some v -> current_as (vview n) value_encode h a ->
  calm (vobjs n h a) (vblks n h a) a h ops -> run h ops = Some h' -> vview n h' a = Some v /\ current_as (vview n) value_encode h' a.
Proof.
  induction ops as [|o ops IH]; intros h h' a v S V C K R; [inv R; auto|].
  simpl in K, R. destruct K as (A & K). destruct (step h o) as [h1|] eqn:St; [|discriminate].
  pose proof (step_sound _ _ _ S St) as S1.
  destruct (frame n h h1 a) as (F & _). destruct (F v S) as (V1 & O1 & B1 & _); [|assumption|].
  { eapply step_untouched; [exact S|exact St|]. eapply avoids_incl; [exact A|apply incl_refl|apply incl_appr, incl_refl]. }
  eapply IH; [exact S1|exact V1| |rewrite O1, B1; exact K|exact R].
  destruct n as [|n]; [discriminate|]. destruct (get h a) as [x|] eqn:G; [|cbn [vview] in V; rewrite G in V; discriminate].
  destruct (step_obj h o h1 a x S St) as [(G1 & Bf)|Cu]; [| exact G | | |].
  - intros T. apply (proj1 A a T). cbn [vobjs]. now left.
  - intros k Wk I. apply (proj2 A k Wk). apply in_app_iff. now left.
  - destruct C as (w & b & g & Vw & Cw & Bw & Ew). exists w, b, g. rewrite Bf.
    replace w with v by congruence. replace w with v in Cw by congruence. auto.
  - destruct Cu as [(m & w & b & g & Vw & Q)|[(m & w & b & g & Vw & Q)|Q]].
    + exists w, b, g. split; [|exact Q]. rewrite V1. f_equal. eapply vview_det; eauto.
    + exfalso. eapply val_not_rec; eauto.
    + exfalso. eapply val_not_key; eauto.
Qed.
Lemma calm_rec n ops : forall h h' a v, sound h -> rview n h a = Some v -> current_as (rview n) record_encode h a ->
  calm (robjs n h a) (rblks n h a) a h ops -> run h ops = Some h' -> rview n h' a = Some v /\ current_as (rview n) record_encode h' a.
Proof.
  induction ops as [|o ops IH]; intros h h' a v S V C K R; [inv R; auto|].
  simpl in K, R. destruct K as (A & K). destruct (step h o) as [h1|] eqn:St; [|discriminate].
  pose proof (step_sound _ _ _ S St) as S1.
  destruct (frame n h h1 a) as (_ & F). destruct (F v S) as (V1 & O1 & B1 & _); [|assumption|].
  { eapply step_untouched; [exact S|exact St|]. eapply avoids_incl; [exact A|apply incl_refl|apply incl_appr, incl_refl]. }
  eapply IH; [exact S1|exact V1| |rewrite O1, B1; exact K|exact R].
  destruct n as [|n]; [discriminate|]. destruct (get h a) as [x|] eqn:G; [|cbn [rview] in V; rewrite G in V; discriminate].
  destruct (step_obj h o h1 a x S St) as [(G1 & Bf)|Cu]; [| exact G | | |].
  - intros T. apply (proj1 A a T). cbn [robjs]. now left.
  - intros k Wk I. apply (proj2 A k Wk). apply in_app_iff. now left.
  - destruct C as (w & b & g & Vw & Cw & Bw & Ew). exists w, b, g. rewrite Bf.
    replace w with v by congruence. replace w with v in Cw by congruence. auto.
  - destruct Cu as [(m & w & b & g & Vw & Q)|[(m & w & b & g & Vw & Q)|Q]].
    + exfalso. eapply val_not_rec; eauto.
    + exists w, b, g. split; [|exact Q]. rewrite V1. f_equal. eapply rview_det; eauto.
    + exfalso. eapply rec_not_key; eauto.
Qed.

(** What a history leaves alone. *)
Lemma frame_run n ops : forall h h' a, sound h -> run h ops = Some h' ->
  (forall v, vview n h a = Some v -> Forall (avoids (vobjs n h a) (vblks n h a)) ops -> vview n h' a = Some v) /\
  (forall v, rview n h a = Some v -> Forall (avoids (robjs n h a) (rblks n h a)) ops -> rview n h' a = Some v).
Proof.
  induction ops as [|o ops IH]; intros h h' a S R; [inv R; auto|].
  simpl in R. destruct (step h o) as [h1|] eqn:St; [|discriminate].
  destruct (IH h1 h' a (step_sound _ _ _ S St) R) as (IHv & IHr). destruct (frame n h h1 a) as (Fv & Fr).
  split; intros v V A; inversion A as [|? ? A1 A2]; subst.
  - destruct (Fv v S) as (V1 & O1 & B1 & _); [eapply step_untouched; eauto|assumption|]. apply IHv; [assumption|]. now rewrite O1, B1.
  - destruct (Fr v S) as (V1 & O1 & B1 & _); [eapply step_untouched; eauto|assumption|]. apply IHr; [assumption|]. now rewrite O1, B1.
Qed.
