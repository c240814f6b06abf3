(** * Histories of calls on objects that share memory. *)
From Coq Require Import List NArith ZArith Bool Lia.
From Coq Require Import Strings.Byte.
From Verif Require Import Base BaseProofs VarintModel KeyModel ValueModel ValueProofs ObjModel ObjSpec ObjProofs.
Import ListNotations.

(** ** Calls that only allocate *)
Definition blank (o : obj) : Prop := is_parsed o = true \/ obj_encoded o = false.
Definition grows (h h' : heap) : Prop :=
  (exists m, mem h' = mem h ++ m) /\ (exists l, objs h' = objs h ++ l /\ Forall blank l) /\ sound h'.
Lemma grows_refl h : sound h -> grows h h.
Proof. intros S. split; [exists []; now rewrite app_nil_r|]. split; [|assumption]. exists []. now rewrite app_nil_r. Qed.
Lemma grows_trans h1 h2 h3 : grows h1 h2 -> grows h2 h3 -> grows h1 h3.
Proof.
  intros ((m & M) & (l & L & F) & S) ((m' & M') & (l' & L' & F') & S').
  split; [exists (m ++ m'); now rewrite M', M, app_assoc|]. split; [|assumption].
  exists (l ++ l'). rewrite L', L, app_assoc. split; [reflexivity|]. now apply Forall_app.
Qed.
Lemma grows_get h h' a o : grows h h' -> get h a = Some o -> get h' a = Some o.
Proof.
  intros (_ & (l & L & _) & _) G. unfold get in *. rewrite L, nth_error_app1; [assumption|].
  apply nth_error_Some. congruence.
Qed.
Lemma grows_back h h' a o : grows h h' -> get h' a = Some o -> get h a = Some o \/ (length (objs h) <= a /\ blank o).
Proof.
  intros (_ & (l & L & F) & _) G. unfold get in *. rewrite L in G.
  destruct (Nat.lt_ge_cases a (length (objs h))) as [H|H].
  - left. rewrite nth_error_app1 in G by assumption. assumption.
  - right. rewrite nth_error_app2 in G by assumption. split; [assumption|].
    apply nth_error_In in G. eapply Forall_forall in F; eauto.
Qed.
Lemma new_block_grows h b : sound h -> grows h (fst (new_block h b)).
Proof.
  intros S. split; [eexists; reflexivity|]. split; [exists []; simpl; now rewrite app_nil_r|].
  intros x o s G I. eapply slice_ok_mono; [reflexivity|]. eapply S; eauto.
Qed.
Lemma new_obj_grows h o : sound h -> blank o -> (forall s, In s (slices_of o) -> slice_ok h s = true) -> grows h (fst (new_obj h o)).
Proof.
  intros S B K. split; [exists []; simpl; now rewrite app_nil_r|]. split; [exists [o]; split; [reflexivity|]; now constructor|].
  intros x o' s G I. change (slice_ok h s = true). unfold get in G. simpl in G.
  destruct (Nat.lt_ge_cases x (length (objs h))) as [H|H].
  - rewrite nth_error_app1 in G by assumption. eapply S; eauto.
  - rewrite nth_error_app2 in G by assumption. destruct (x - length (objs h)) as [|[|?]]; inv G. auto.
Qed.
Lemma new_obj_get h o : get (fst (new_obj h o)) (length (objs h)) = Some o.
Proof. unfold get. simpl. rewrite nth_error_app2, Nat.sub_diag by lia. reflexivity. Qed.
Lemma new_block_ok h b : slice_ok (fst (new_block h b)) (Some (snd (new_block h b))) = true.
Proof.
  simpl. rewrite app_length, andb_true_iff, Nat.ltb_lt, Nat.leb_le. simpl. split; [lia|].
  rewrite app_nth2, Nat.sub_diag by lia. simpl. lia.
Qed.

Lemma add_slices_keys h l : forall e ks b est o, add_slices h e ks b est l = Ok o ->
  exists est', o = OKeyObj e (ks ++ l) b est'.
Proof.
  induction l as [|s l IH]; intros e ks b est o H; simpl in H.
  - inv H. rewrite app_nil_r. eauto.
  - destruct (gcontent (rd h s)); [discriminate|]. apply IH in H. destruct H as (est' & ->). rewrite <- app_assoc. eauto.
Qed.

Definition cp_grows (cp : heap -> ref -> option (heap * res ref)) : Prop :=
  forall h x h' r, sound h -> cp h x = Some (h', r) -> grows h h'.
Lemma key_copy_grows : cp_grows (fun h x => Some (key_copy h x)).
Proof.
  intros h x h' r S H. injection H as H. unfold key_copy in H.
  destruct (get h x) as [[]|] eqn:G; try (inv H; now apply grows_refl).
  - destruct (add_slices h false [] None 1 keys) as [o| |] eqn:A; try (inv H; now apply grows_refl).
    destruct (add_slices_keys _ _ _ _ _ _ _ A) as (est' & ->). simpl in H. inv H.
    apply (new_obj_grows h _ S); [now right|]. simpl. intros s [<- |I]; [reflexivity|]. eapply S; [exact G|]. simpl. auto.
  - simpl in H. inv H. apply (new_obj_grows h _ S); [now left|]. intros s [].
  - destruct (new_mapped_key (Some buf)) as [[[] ?]| |]; try (inv H; now apply grows_refl).
    simpl in H. inv H. apply (new_obj_grows h _ S); [now left|]. intros s [].
Qed.
Lemma copy_all_grows cp : cp_grows cp -> forall l h h' r, sound h -> copy_all cp h l = Some (h', r) -> grows h h'.
Proof.
  intros C. induction l as [|x l IH]; intros h h' r S H; simpl in H; [inv H; now apply grows_refl|].
  destruct (cp h x) as [[h1 [y| |]]|] eqn:E; try discriminate; pose proof (C _ _ _ _ S E) as G1; [|now inv H|now inv H].
  pose proof G1 as (_ & _ & S1).
  destruct (copy_all cp h1 l) as [[h2 [ys| |]]|] eqn:E2; try discriminate; inv H; eapply grows_trans; eauto.
Qed.
Lemma copy_part_grows cp : cp_grows cp -> forall p h h' r, sound h -> copy_part cp h p = Some (h', r) -> grows h h'.
Proof.
  intros C [x|] h h' r S H; simpl in H; [|inv H; now apply grows_refl].
  destruct (cp h x) as [[h1 [y| |]]|] eqn:E; try discriminate; inv H; eauto.
Qed.
Lemma copy_grows n : cp_grows (vcopy n) /\ cp_grows (rcopy n).
Proof.
  induction n as [|n [IHv IHr]]; [split; intros h x h' r S H; discriminate|].
  split; intros h a h' r S H.
  - cbn [vcopy] in H. destruct (get h a) as [[]|] eqn:G; try (inv H; now apply grows_refl).
    + destruct data as [d|].
      * pose proof (new_block_grows h (gcontent (rd h (Some d))) S) as G1. pose proof G1 as (_ & _ & S1).
        pose proof (new_block_ok h (gcontent (rd h (Some d)))) as K.
        destruct (new_block h (gcontent (rd h (Some d)))) as [h1 s]. simpl in G1, S1, K. simpl new_obj in H. cbn iota in H. inv H.
        eapply grows_trans; [exact G1|]. apply (new_obj_grows h1 _ S1); [now right|].
        intros s' [<- |[<- |[]]]; [reflexivity|exact K].
      * simpl in H. inv H. apply (new_obj_grows h _ S); [now right|]. intros s [<- |[<- |[]]]; reflexivity.
    + destruct (copy_all (vcopy n) h elems) as [[h1 [l'| |]]|] eqn:E; try discriminate;
        pose proof (copy_all_grows _ IHv _ _ _ _ S E) as G1; [|now inv H|now inv H].
      pose proof G1 as (_ & _ & S1). simpl in H. inv H. eapply grows_trans; [exact G1|].
      apply (new_obj_grows h1 _ S1); [now right|]. intros s [<- |[]]. reflexivity.
    + destruct (copy_all (rcopy n) h elems) as [[h1 [l'| |]]|] eqn:E; try discriminate;
        pose proof (copy_all_grows _ IHr _ _ _ _ S E) as G1; [|now inv H|now inv H].
      pose proof G1 as (_ & _ & S1). simpl in H. inv H. eapply grows_trans; [exact G1|].
      apply (new_obj_grows h1 _ S1); [now right|]. intros s [<- |[]]. reflexivity.
    + destruct (new_std_value (mv_buf m)) as [[m' ?]| |]; try (inv H; now apply grows_refl).
      simpl in H. inv H. apply (new_obj_grows h _ S); [now left|]. intros s [].
    + destruct (new_simple_value buf) as [[[] ?]| |]; try (inv H; now apply grows_refl).
      simpl in H. inv H. apply (new_obj_grows h _ S); [now left|]. intros s [].
  - cbn [rcopy] in H. destruct (get h a) as [[]|] eqn:G; try (inv H; now apply grows_refl).
    + destruct (copy_part (fun h x => Some (key_copy h x)) h key) as [[h1 [k'| |]]|] eqn:E1; try discriminate;
        pose proof (copy_part_grows _ key_copy_grows _ _ _ _ S E1) as G1; [|now inv H|now inv H]. pose proof G1 as (_ & _ & S1).
      destruct (copy_part (vcopy n) h1 val) as [[h2 [v'| |]]|] eqn:E2; try discriminate;
        pose proof (copy_part_grows _ IHv _ _ _ _ S1 E2) as G2; pose proof (grows_trans _ _ _ G1 G2) as G12; [|now inv H|now inv H].
      pose proof G2 as (_ & _ & S2).
      destruct (copy_part (vcopy n) h2 scheme) as [[h3 [s'| |]]|] eqn:E3; try discriminate;
        pose proof (copy_part_grows _ IHv _ _ _ _ S2 E3) as G3; pose proof (grows_trans _ _ _ G12 G3) as G123; [|now inv H|now inv H].
      pose proof G3 as (_ & _ & S3). simpl in H. inv H. eapply grows_trans; [exact G123|].
      apply (new_obj_grows h3 _ S3); [now right|]. intros s [<- |[]]. reflexivity.
    + destruct (new_mapped_record (mr_buf r0)) as [[r' ?]| |]; try (inv H; now apply grows_refl).
      simpl in H. inv H. apply (new_obj_grows h _ S); [now left|]. intros s [].
Qed.

(** ** The four kinds of calls *)
Definition key_longer (o o' : obj) : Prop :=
  exists e ks b est s est', o = OKeyObj e ks b est /\ o' = OKeyObj e (ks ++ [s]) b est'.
Definition sets (h h' : heap) (a : ref) : Prop :=
  exists o o', get h a = Some o /\ h' = put h a o' /\ is_parsed o = false /\
    (obj_encoded o' = false \/ key_longer o o') /\ (forall s, In s (slices_of o') -> slice_ok h s = true).
Definition wrote (h h' : heap) (k : nat) : Prop :=
  objs h' = objs h /\ length (mem h') = length (mem h) /\
  (forall j, j <> k -> nth j (mem h') [] = nth j (mem h) []) /\ (forall j, length (nth j (mem h') []) = length (nth j (mem h) [])).
Lemma step_kind h o h' : sound h -> step h o = Some h' ->
  match target o, writes o with
  | Some a, _ => sets h h' a
  | None, Some k => wrote h h' k
  | None, None => if is_encode o then extends h h' else grows h h'
  end.
Proof.
  intros S H.
  assert (forall a o', get h a = Some o' -> forall s, In s (slices_of o') -> slice_ok h s = true) as K by (intros; eapply S; eauto).
  destruct o; cbn [target writes is_encode]; cbn [step] in H.
  - inv H. now apply (new_block_grows h b S).
  - destruct (nth_error (mem h) blk) as [b|] eqn:E; [|discriminate]. destruct (Nat.ltb_spec i (length b)); [|discriminate].
    inv H. split; [reflexivity|]. split; [apply upd_length|]. simpl.
    assert (forall j, j <> blk -> nth j (upd (mem h) blk (upd b i x)) [] = nth j (mem h) []) as N.
    { intros j Hj.
      destruct (nth_error (mem h) j) as [c|] eqn:Ej.
      - rewrite (nth_error_nth _ _ _ Ej). apply nth_error_nth. now rewrite upd_other by auto.
      - apply nth_error_None in Ej. rewrite !nth_overflow; auto. now rewrite upd_length. }
    split; [exact N|]. intros j. destruct (Nat.eq_dec j blk) as [-> |Hj]; [|now rewrite N].
    rewrite (nth_error_nth _ _ _ E). rewrite (nth_error_nth _ blk [] (x := upd b i x)); [apply upd_length|].
    apply upd_same. apply nth_error_Some. unfold bytes in *. congruence.
  - destruct (slice_ok h d) eqn:Sl; [|discriminate]. injection H as <-. apply (new_obj_grows h _ S); [now right|].
    intros s [<- |[<- |[]]]; [reflexivity|assumption].
  - inv H. apply (new_obj_grows h _ S); [now right|]. intros s [<- |[]]. reflexivity.
  - inv H. apply (new_obj_grows h _ S); [now right|]. intros s [<- |[]]. reflexivity.
  - inv H. apply (new_obj_grows h _ S); [now right|]. intros s [<- |[]]. reflexivity.
  - inv H. apply (new_obj_grows h _ S); [now right|]. intros s [<- |[]]. reflexivity.
  - destruct (slice_ok h d) eqn:Sl; [|discriminate]. injection H as <-. apply (new_obj_grows h _ S); [now right|].
    intros s [<- |[<- |[]]]; [reflexivity|assumption].
  - destruct (is_parsed o) eqn:P; [|discriminate]. inv H. apply (new_obj_grows h _ S); [now left|].
    intros s I. destruct o; try discriminate; destruct I.
  - destruct (get h a) as [[]|] eqn:G; try discriminate. destruct (est_of h x); try discriminate. destruct (is_val h x); [|discriminate].
    inv H. do 2 eexists. split; [exact G|]. split; [reflexivity|]. split; [reflexivity|]. split; [now left|].
    intros s I. eapply K; [exact G|exact I].
  - destruct (get h a) as [[]|] eqn:G; try discriminate. destruct (N.leb _ _); [discriminate|].
    destruct (nth_error elems (N.to_nat i)) as [x|]; [|discriminate]. destruct (est_of h x); try discriminate.
    inv H. do 2 eexists. split; [exact G|]. split; [reflexivity|]. split; [reflexivity|]. split; [now left|].
    intros s I. eapply K; [exact G|exact I].
  - destruct (get h a) as [[]|] eqn:G; try discriminate. destruct (est_of h x); try discriminate. destruct (is_rec h x); [|discriminate].
    inv H. do 2 eexists. split; [exact G|]. split; [reflexivity|]. split; [reflexivity|]. split; [now left|].
    intros s I. eapply K; [exact G|exact I].
  - destruct (get h a) as [[]|] eqn:G; try discriminate. destruct (N.leb _ _); [discriminate|].
    destruct (nth_error elems (N.to_nat i)) as [x|]; [|discriminate]. destruct (est_of h x); try discriminate.
    inv H. do 2 eexists. split; [exact G|]. split; [reflexivity|]. split; [reflexivity|]. split; [now left|].
    intros s I. eapply K; [exact G|exact I].
  - destruct (get h a) as [[]|] eqn:G; try discriminate. destruct (slice_ok h s) eqn:Sl; [|discriminate].
    destruct (add_slices h encoded keys buf est [s]) as [o'| |] eqn:A; try discriminate. inv H.
    destruct (add_slices_keys _ _ _ _ _ _ _ A) as (est' & ->).
    do 2 eexists. split; [exact G|]. split; [reflexivity|]. split; [reflexivity|].
    split; [right; unfold key_longer; do 6 eexists; split; reflexivity|].
    simpl. intros s' [<- |I]; [eapply K; [exact G|]; simpl; auto|]. apply in_app_iff in I. destruct I as [I|[<- |[]]]; [|assumption].
    eapply K; [exact G|]. simpl. auto.
  - destruct (get h a) as [[]|] eqn:G; try discriminate. destruct est as [[ek ev] es]. destruct (est_of h k); try discriminate.
    destruct (is_key h k); [|discriminate]. inv H. do 2 eexists. split; [exact G|]. split; [reflexivity|]. split; [reflexivity|].
    split; [now left|]. intros s I. eapply K; [exact G|exact I].
  - destruct (get h a) as [[]|] eqn:G; try discriminate. destruct est as [[ek ev] es]. destruct (est_of h v); try discriminate.
    destruct (is_val h v); [|discriminate]. inv H. do 2 eexists. split; [exact G|]. split; [reflexivity|]. split; [reflexivity|].
    split; [now left|]. intros s I. eapply K; [exact G|exact I].
  - destruct (get h a) as [[]|] eqn:G; try discriminate. destruct est as [[ek ev] es]. destruct (est_of h v); try discriminate.
    destruct (is_val h v); [|discriminate]. inv H. do 2 eexists. split; [exact G|]. split; [reflexivity|]. split; [reflexivity|].
    split; [now left|]. intros s I. eapply K; [exact G|exact I].
  - destruct (get h a) as [[]|] eqn:G; try discriminate. inv H. do 2 eexists. split; [exact G|]. split; [reflexivity|].
    split; [reflexivity|]. split; [now left|]. intros s' I. eapply K; [exact G|exact I].
  - destruct (get h a) as [[]|] eqn:G; try discriminate. inv H. do 2 eexists. split; [exact G|]. split; [reflexivity|].
    split; [reflexivity|]. split; [now left|]. intros s' I. eapply K; [exact G|exact I].
  - destruct (enc_correct fuel) as ((V & _) & _).
    destruct (venc fuel h a) as [[h1 [u| |]]|] eqn:E; inv H; eapply V in E; try assumption; tauto.
  - destruct (enc_correct fuel) as (_ & (V & _)).
    destruct (renc fuel h a) as [[h1 [u| |]]|] eqn:E; inv H; eapply V in E; try assumption; tauto.
  - destruct key_enc_spec as (V & _). destruct (key_enc h a) as [h1 r] eqn:E.
    destruct (V h a h1 r S) as (X & _); [now rewrite E|]. destruct r; now inv H.
  - destruct (copy_grows fuel) as (V & _).
    destruct (vcopy fuel h a) as [[h1 [u| |]]|] eqn:E; inv H; eapply V in E; assumption.
  - destruct (copy_grows fuel) as (_ & V).
    destruct (rcopy fuel h a) as [[h1 [u| |]]|] eqn:E; inv H; eapply V in E; assumption.
  - destruct (key_copy h a) as [h1 r] eqn:E. destruct r; inv H; eapply key_copy_grows with (x := a); try assumption; now rewrite E.
Qed.

Lemma wrote_ok h h' k s : wrote h h' k -> slice_ok h' s = slice_ok h s.
Proof. intros (_ & L & _ & Lj). destruct s as [s|]; [|reflexivity]. simpl. now rewrite L, Lj. Qed.
Lemma step_sound h o h' : sound h -> step h o = Some h' -> sound h'.
Proof.
  intros S H. pose proof (step_kind _ _ _ S H) as K. destruct (target o) as [a|].
  - destruct K as (o1 & o2 & G & -> & _ & _ & Sl). intros x ox s Gx I. change (slice_ok h s = true).
    destruct (Nat.eq_dec x a) as [-> |N].
    + rewrite (get_put _ _ _ _ G) in Gx. inv Gx. auto.
    + rewrite get_put_other in Gx by auto. eapply S; eauto.
  - destruct (writes o) as [k|].
    + intros x ox s Gx I. rewrite (wrote_ok _ _ _ _ K). destruct K as (E & _). unfold get in Gx. rewrite E in Gx. eapply S; eauto.
    + destruct (is_encode o); [destruct K as (_ & S' & _)|destruct K as (_ & _ & S')]; assumption.
Qed.
Lemma empty_sound : sound empty_heap.
Proof. intros a o s G. unfold get in G. simpl in G. destruct a; discriminate. Qed.
Lemma run_sound ops : forall h h', sound h -> run h ops = Some h' -> sound h'.
Proof.
  induction ops as [|o ops IH]; intros h h' S H; simpl in H; [now inv H|].
  destruct (step h o) as [h1|] eqn:E; [|discriminate]. eapply IH; [|exact H]. eapply step_sound; eauto.
Qed.
Lemma run_app ops1 : forall ops2 h, run h (ops1 ++ ops2) = match run h ops1 with Some h1 => run h1 ops2 | None => None end.
Proof. induction ops1 as [|o ops1 IH]; intros ops2 h; simpl; [reflexivity|]. destruct (step h o); auto. Qed.

(** ** An encoded object says what its contents were after some Encode *)
Lemma rd_grow h h' s : (exists m, mem h' = mem h ++ m) -> slice_ok h s = true -> rd h' s = rd h s.
Proof. intros (m & M). now apply rd_mono with m. Qed.
Lemma rd_wrote h h' k s : wrote h h' k -> ~ In k (blk_of s) -> rd h' s = rd h s.
Proof.
  intros (_ & _ & N & _) H. destruct s as [s|]; [|reflexivity]. simpl in *. rewrite N; [reflexivity|]. intros E. apply H. now left.
Qed.
Lemma step_rd h o h' s : sound h -> step h o = Some h' -> slice_ok h s = true ->
  (forall k, writes o = Some k -> ~ In k (blk_of s)) -> rd h' s = rd h s.
Proof.
  intros S H Sl W. pose proof (step_kind _ _ _ S H) as K. destruct (target o) as [a|] eqn:T.
  - destruct K as (o1 & o2 & _ & -> & _). reflexivity.
  - destruct (writes o) as [k|]; [eapply rd_wrote; eauto|].
    destruct (is_encode o); [destruct K as (((m & M) & _) & _)|destruct K as ((m & M) & _)]; eapply rd_mono; eauto.
Qed.
Lemma slice_in o : is_parsed o = false -> In (obj_slice o) (slices_of o).
Proof. destruct o; simpl; intros; auto; discriminate. Qed.

(** An object unchanged by a step, or just encoded, or a key that got another sub-key. *)
Lemma step_encoded h o h' a x : sound h -> step h o = Some h' -> get h' a = Some x -> is_parsed x = false -> obj_encoded x = true ->
  get h a = Some x \/ (is_encode o = true /\ current h' a) \/ (exists y, get h a = Some y /\ key_longer y x).
Proof.
  intros S H G P E. pose proof (step_kind _ _ _ S H) as K. destruct (target o) as [b|] eqn:T.
  - destruct K as (o1 & o2 & G1 & -> & _ & [B|B] & _).
    + destruct (Nat.eq_dec b a) as [-> |N]; [|rewrite get_put_other in G by auto; now left].
      rewrite (get_put _ _ _ _ G1) in G. inv G. congruence.
    + destruct (Nat.eq_dec b a) as [-> |N]; [|rewrite get_put_other in G by auto; now left].
      rewrite (get_put _ _ _ _ G1) in G. inv G. right. right. eauto.
  - destruct (writes o) as [k|].
    + destruct K as (Eo & _). unfold get in *. rewrite Eo in G. now left.
    + destruct (is_encode o).
      * destruct K as (_ & _ & C). destruct (C a) as [Ca|Ca]; [left; congruence|right; left; now split].
      * destruct (grows_back _ _ _ _ K G) as [?|(_ & [B|B])]; [now left| |]; congruence.
Qed.

Definition since (o1 o : obj) : Prop :=
  bare o1 = bare o \/ exists e ks b est e' more est', o1 = OKeyObj e ks b est /\ o = OKeyObj e' (ks ++ more) b est'.
Lemma since_longer o1 o o' : since o1 o -> key_longer o o' -> obj_slice o1 = obj_slice o -> since o1 o'.
Proof.
  intros [B|(e & ks & b & est & e' & more & est' & -> & ->)] (f & ls & c & r & s & r' & L & ->) Sl; right.
  - subst o. destruct o1; simpl in B; try discriminate. inv B. simpl in Sl. subst.
    exists encoded, ls, c, est, f, [s], r'. split; reflexivity.
  - inv L. exists e, ks, c, est, f, (more ++ [s]), r'. split; [reflexivity|]. now rewrite app_assoc.
Qed.
Lemma snapshot ops : forall h a o, run empty_heap ops = Some h -> get h a = Some o -> is_parsed o = false -> obj_encoded o = true ->
  exists ops1 e ops2 h1 o1, ops = ops1 ++ e :: ops2 /\ is_encode e = true /\ run empty_heap (ops1 ++ [e]) = Some h1 /\
    get h1 a = Some o1 /\ current h1 a /\ obj_slice o1 = obj_slice o /\ since o1 o /\
    ((forall k, In k (blk_of (obj_slice o)) -> ~ In (Some k) (map writes ops2)) -> rd h (obj_slice o) = rd h1 (obj_slice o)).
Proof.
  induction ops as [|op ops IH] using rev_ind; intros h a o R G P E.
  - inv R. unfold get in G. simpl in G. destruct a; discriminate.
  - rewrite run_app in R. destruct (run empty_heap ops) as [h0|] eqn:R0; [|discriminate].
    cbn [run] in R. destruct (step h0 op) as [h'|] eqn:St; [|discriminate]. inv R.
    pose proof (run_sound _ _ _ empty_sound R0) as S0.
    assert (forall y, get h0 a = Some y -> is_parsed y = false -> obj_encoded y = true -> obj_slice y = obj_slice o ->
      (forall o1, since o1 y -> obj_slice o1 = obj_slice y -> since o1 o) ->
      exists ops1 e ops2 h1 o1, ops ++ [op] = ops1 ++ e :: ops2 /\ is_encode e = true /\ run empty_heap (ops1 ++ [e]) = Some h1 /\
        get h1 a = Some o1 /\ current h1 a /\ obj_slice o1 = obj_slice o /\ since o1 o /\
        ((forall k, In k (blk_of (obj_slice o)) -> ~ In (Some k) (map writes ops2)) -> rd h (obj_slice o) = rd h1 (obj_slice o))) as Old.
    { intros y Gy Py Ey Sy Th. destruct (IH h0 a y eq_refl Gy Py Ey) as (ops1 & e & ops2 & h1 & o1 & -> & Ie & R1 & G1 & C1 & Sl & Si & Rd).
      exists ops1, e, (ops2 ++ [op]), h1, o1. rewrite <- app_assoc. split; [reflexivity|]. split; [assumption|]. split; [assumption|].
      split; [assumption|]. split; [assumption|]. split; [congruence|]. split; [now apply Th|]. intros W.
      rewrite Sy in *. rewrite <- Rd.
      - eapply step_rd; [exact S0|exact St| |].
        + rewrite <- Sy. eapply S0; [exact Gy|]. now apply slice_in.
        + intros k Wk I. apply (W k I). rewrite map_app, in_app_iff. right. left. exact Wk.
      - intros k I J. apply (W k I). rewrite map_app, in_app_iff. now left. }
    destruct (step_encoded _ _ _ _ _ S0 St G P E) as [Gy|[(Ie & C)|(y & Gy & L)]].
    + apply (Old o); auto.
    + exists ops, op, [], h, o. split; [reflexivity|]. split; [assumption|]. split; [rewrite run_app, R0; cbn [run]; now rewrite St|].
      split; [assumption|]. split; [assumption|]. split; [reflexivity|]. split; [now left|]. reflexivity.
    + pose proof L as (e & ks & b & est & s & est' & -> & ->).
      apply (Old _ Gy); try reflexivity; [exact E|]. intros o1 Si Sl. eapply since_longer; eauto.
Qed.
