(** * Histories of calls *)
From Coq Require Import List NArith ZArith Lia Bool.
From Coq Require Import Strings.Byte.
From Verif Require Import Base BaseProofs KeyModel ValueModel ViewModel ViewSpec ViewProofs ViewInv ViewStep.
Import ListNotations.
Local Open Scope nat_scope.

Lemma run_snoc ops : forall s o, run s (ops ++ [o]) =
  let (s1, rs) := run s ops in let (s2, r) := step s1 o in (s2, rs ++ [r]).
Proof.
  induction ops as [|x ops IH]; intros s o; cbn [app run].
  { destruct (step s o). reflexivity. }
  destruct (step s x) as [s1 r]. rewrite IH. destruct (run s1 ops) as [s2 rs]. destruct (step s2 o). reflexivity.
Qed.
Lemma run_length ops : forall s s2 rs, run s ops = (s2, rs) -> length rs = length ops.
Proof.
  induction ops as [|x ops IH]; intros s s2 rs; cbn [run].
  { intros [= <- <-]. reflexivity. }
  destruct (step s x) as [s1 r]. destruct (run s1 ops) as [s3 rs'] eqn:Hr. intros [= <- <-]. cbn. rewrite (IH _ _ _ Hr). reflexivity.
Qed.
Lemma run_at ops : forall s s2 rs j o, run s ops = (s2, rs) -> nth_error ops j = Some o ->
  exists sj sj' r, run s (firstn j ops) = (sj, firstn j rs) /\ step sj o = (sj', r) /\ nth_error rs j = Some r.
Proof.
  induction ops as [|x ops IH]; intros s s2 rs j o; cbn [run].
  { destruct j; discriminate. }
  destruct (step s x) as [s1 r] eqn:Hs. destruct (run s1 ops) as [s3 rs'] eqn:Hr. intros [= <- <-]. destruct j as [|j]; cbn [nth_error firstn].
  - intros [= ->]. exists s, s1, r. auto.
  - intros Hj. destruct (IH _ _ _ _ _ Hr Hj) as (sj & sj' & r' & A & B & C). exists sj, sj', r'. cbn [run]. rewrite Hs, A. auto.
Qed.

Lemma nth_error_snoc_cases {A} (l : list A) x j y : nth_error (l ++ [x]) j = Some y ->
  (j < length l /\ nth_error l j = Some y) \/ (j = length l /\ y = x).
Proof.
  intros H. destruct (Nat.lt_ge_cases j (length l)) as [L|L].
  - left. rewrite nth_error_app1 in H by exact L. auto.
  - right. rewrite nth_error_app2 in H by exact L. destruct (j - length l) as [|q] eqn:Q.
    + cbn in H. split; [lia|congruence].
    + destruct q; discriminate.
Qed.
Lemma firstn_snoc {A} (l : list A) x j : j <= length l -> firstn j (l ++ [x]) = firstn j l.
Proof. intros L. rewrite firstn_app. replace (j - length l) with 0 by lia. cbn. apply app_nil_r. Qed.

Lemma history R s E0 a e : Inv R s E0 -> E0 a = Some e -> forall ops s2 rs, Forall (spares R) ops -> run s ops = (s2, rs) ->
  exists E, Inv R s2 E /\ forall d x, says a e ops rs d x -> E d = Some x.
Proof.
  intros I0 Ha ops. induction ops as [|o ops IH] using rev_ind; intros s2 rs Sp H.
  { injection H as <- <-. exists E0. split; [exact I0|]. intros d x Hs.
    inversion Hs; subst; try exact Ha; destruct j; discriminate. }
  rewrite run_snoc in H. destruct (run s ops) as [s1 rs1] eqn:H1. destruct (step s1 o) as [s2' r] eqn:H2. injection H as <- <-.
  apply Forall_app in Sp. destruct Sp as (Sp1 & Sp2). inversion Sp2 as [|? ? So _]; subst.
  destruct (IH _ _ Sp1 eq_refl) as (E & I1 & K1). pose proof (run_length _ _ _ _ H1) as L.
  destruct (step_ok R s1 E o s2' r I1 So H2) as (_ & E2 & X & I2 & (N1 & N2 & N3 & N4)).
  exists E2. split; [exact I2|]. intros d x Hs.
  assert (PF : forall j, j <= length ops -> firstn j (ops ++ [o]) = firstn j ops /\ firstn j (rs1 ++ [r]) = firstn j rs1).
  { intros j Hj. split; apply firstn_snoc; lia. }
  inversion Hs as [|j b m i c y Hb Ho Hr He|j b m i c y Hb Ho Hr He|j b rr p c Hb Ho Hr|j b k c Hb Ho Hr]; subst.
  - apply X, K1. constructor.
  - destruct (nth_error_snoc_cases _ _ _ _ Ho) as [(J & Ho')|(-> & <-)]; destruct (nth_error_snoc_cases _ _ _ _ Hr) as [(J' & Hr')|(J' & Hr')]; try lia.
    + destruct (PF j ltac:(lia)) as (F1 & F2). rewrite F1, F2 in Hb. apply X, K1. eapply says_value; eassumption.
    + destruct (PF (length ops) ltac:(lia)) as (F1 & F2). rewrite F1, F2, firstn_all in Hb. rewrite <- L, firstn_all in Hb.
      eapply N1; [reflexivity|apply K1; exact Hb|symmetry; exact Hr'|exact He].
  - destruct (nth_error_snoc_cases _ _ _ _ Ho) as [(J & Ho')|(-> & <-)]; destruct (nth_error_snoc_cases _ _ _ _ Hr) as [(J' & Hr')|(J' & Hr')]; try lia.
    + destruct (PF j ltac:(lia)) as (F1 & F2). rewrite F1, F2 in Hb. apply X, K1. eapply says_record; eassumption.
    + destruct (PF (length ops) ltac:(lia)) as (F1 & F2). rewrite F1, F2, firstn_all in Hb. rewrite <- L, firstn_all in Hb.
      eapply N2; [reflexivity|apply K1; exact Hb|symmetry; exact Hr'|exact He].
  - destruct (nth_error_snoc_cases _ _ _ _ Ho) as [(J & Ho')|(-> & <-)]; destruct (nth_error_snoc_cases _ _ _ _ Hr) as [(J' & Hr')|(J' & Hr')]; try lia.
    + destruct (PF j ltac:(lia)) as (F1 & F2). rewrite F1, F2 in Hb. apply X, K1. eapply says_part; eassumption.
    + destruct (PF (length ops) ltac:(lia)) as (F1 & F2). rewrite F1, F2, firstn_all in Hb. rewrite <- L, firstn_all in Hb.
      eapply N3; [reflexivity|apply K1; exact Hb|symmetry; exact Hr'].
  - destruct (nth_error_snoc_cases _ _ _ _ Ho) as [(J & Ho')|(-> & <-)]; destruct (nth_error_snoc_cases _ _ _ _ Hr) as [(J' & Hr')|(J' & Hr')]; try lia.
    + destruct (PF j ltac:(lia)) as (F1 & F2). rewrite F1, F2 in Hb. apply X, K1. eapply says_key_copy; eassumption.
    + destruct (PF (length ops) ltac:(lia)) as (F1 & F2). rewrite F1, F2, firstn_all in Hb. rewrite <- L, firstn_all in Hb.
      eapply N4; [reflexivity|apply K1; exact Hb|symmetry; exact Hr'].
Qed.

Lemma Forall_firstn {A} (P : A -> Prop) l : Forall P l -> forall n, Forall P (firstn n l).
Proof. intros H. induction H as [|x l Px H IH]; intros [|n]; cbn; constructor; auto. Qed.

Lemma history_right R s E0 a e : Inv R s E0 -> E0 a = Some e -> forall ops s2 rs, Forall (spares R) ops -> run s ops = (s2, rs) ->
  forall j o r d x, nth_error ops j = Some o -> nth_error rs j = Some r -> says a e (firstn j ops) (firstn j rs) d x -> right x d o r.
Proof.
  intros I0 Ha ops s2 rs Sp H j o r d x Ho Hr Hs.
  destruct (run_at _ _ _ _ _ _ H Ho) as (sj & sj' & r' & A & B & C). assert (r' = r) as -> by congruence.
  destruct (history R s E0 a e I0 Ha _ _ _ (Forall_firstn _ _ Sp j) A) as (E & I1 & K).
  assert (So : spares R o). { rewrite Forall_forall in Sp. apply Sp. eapply nth_error_In. exact Ho. }
  destruct (step_ok R sj E o sj' r I1 So B) as (F & _). apply F, K, Hs.
Qed.

(** A parse inside memory. *)
Lemma in_range_valid M w : in_range M w = true -> valid M w.
Proof. unfold in_range, valid. intros H. apply andb_prop in H. destruct H as (A & B). apply Nat.ltb_lt in A. apply Nat.leb_le in B. auto. Qed.
Lemma parse_known k s w s1 d : step s (OParse k w) = (s1, Ok (ARef d)) ->
  exists e E, reads k (rdw (s_mem s) w) = Some e /\ Inv w s1 E /\ E d = Some e.
Proof.
  cbn [step]. destruct (in_range (s_mem s) w) eqn:V; [|discriminate]. apply in_range_valid in V.
  destruct (parse_as k s w) as [s' q] eqn:P. unfold as_ref. cbn [fst snd]. intros [= <- Hq].
  assert (I0 : Inv w s (fun _ => None)) by (split; [exact V|discriminate]).
  destruct (good_as w k s _ w s' q I0 (inside_refl w) P) as (_ & _ & Q). destruct q as [a| |]; try discriminate.
  cbn [rbind] in Hq. injection Hq as <-. destruct Q as (e & E2 & Q1 & _ & Q2 & Q3). eauto.
Qed.

(** ** What never changes in an object *)
Definition same_shape (o o' : pobj) : Prop :=
  match o, o' with
  | PVal b c PPrim, PVal b' c' PPrim => b = b' /\ c = c'
  | PVal b c (PArr l), PVal b' c' (PArr l') => b = b' /\ c = c' /\ length l = length l'
  | PVal b c (PRecs l), PVal b' c' (PRecs l') => b = b' /\ c = c' /\ length l = length l'
  | PVal _ _ _, _ => False
  | _, _ => o = o'
  end.
Lemma same_shape_refl o : same_shape o o.
Proof. destruct o as [b c [|l|l]|b c|ks w|b k v c ts sig]; cbn; auto. Qed.
Lemma same_shape_trans o1 o2 o3 : same_shape o1 o2 -> same_shape o2 o3 -> same_shape o1 o3.
Proof.
  destruct o1 as [b c [|l|l]|b c|ks w|b k v c ts sig]; cbn [same_shape].
  1-3: destruct o2 as [b2 c2 [|l2|l2]|b2 c2|ks2 w2|b2 k2 v2 c3 ts2 sig2]; cbn [same_shape]; try contradiction;
       destruct o3 as [b4 c4 [|l4|l4]|b4 c4|ks4 w4|b4 k4 v4 c5 ts4 sig4]; cbn [same_shape]; try contradiction; intuition congruence.
  all: intros <-; cbn [same_shape]; tauto.
Qed.

Lemma step_shape s o s2 r : step s o = (s2, r) -> forall d x, nth_error (s_objs s) d = Some x ->
  exists y, nth_error (s_objs s2) d = Some y /\ same_shape x y.
Proof.
  intros H d x Hd.
  assert (AP : forall s', (exists tl, s_objs s' = s_objs s ++ tl) -> exists y, nth_error (s_objs s') d = Some y /\ same_shape x y).
  { intros s' (tl & ->). exists x. split; [apply nth_error_snoc, Hd|apply same_shape_refl]. }
  assert (SM : forall s', s_objs s' = s_objs s -> exists y, nth_error (s_objs s') d = Some y /\ same_shape x y).
  { intros s' ->. exists x. split; [exact Hd|apply same_shape_refl]. }
  assert (EL : forall wrap k a bw cw cells i, paired wrap k -> nth_error (s_objs s) a = Some (PVal bw cw (wrap cells)) ->
    elem_at (parse_as k) s a bw cw wrap cells i = (s2, r) -> exists y, nth_error (s_objs s2) d = Some y /\ same_shape x y).
  { intros wrap k a bw cw cells i Pk Na. unfold elem_at. destruct (nth_error cells i) as [[| |c]|]; try (intros [= <- <-]; apply SM; reflexivity).
    destruct (load_cells (parse_as k) s cw cells (S i) 0) as [[s1 cells'] q] eqn:L. intros [= <- <-].
    destruct (load_plain _ (parse_plain k) _ _ _ _ _ _ _ _ L) as (M1 & (tl & O1) & L1). cbn [put s_objs]. rewrite nth_upd, O1.
    destruct (Nat.eqb_spec a d) as [->|N].
    - rewrite Na in Hd. injection Hd as <-. destruct (Nat.ltb_spec d (length (s_objs s ++ tl))) as [_|C].
      + eexists. split; [reflexivity|]. destruct Pk as [(-> & ->) | (-> & ->)]; cbn; auto.
      + rewrite app_length in C. assert (d < length (s_objs s)) by (apply nth_error_Some; congruence). lia.
    - exists x. split; [apply nth_error_snoc, Hd|apply same_shape_refl]. }
  assert (CP : forall k bw, as_ref (copy_into k s bw) = (s2, r) -> exists y, nth_error (s_objs s2) d = Some y /\ same_shape x y).
  { intros k bw Hc. destruct (copy_into k s bw) as [s1 q] eqn:C. unfold as_ref in Hc. cbn [fst snd] in Hc. injection Hc as <- _.
    destruct (copy_ok k s bw s1 q C) as (_ & O1 & _). apply AP, O1. }
  destruct o as [b|b i y|k w|a|a|a|a|a|a|a i|a i|a p|a]; cbn [step] in H;
    try (injection H as <- _; apply SM; reflexivity).
  - destruct (i <? length (nth b (s_mem s) [])); injection H as <- _; apply SM; reflexivity.
  - destruct (in_range (s_mem s) w); [|injection H as <- _; apply SM; reflexivity].
    destruct (parse_as k s w) as [s1 q] eqn:P. unfold as_ref in H. cbn [fst snd] in H. injection H as <- _.
    destruct (parse_plain k _ _ _ _ P) as (_ & O1). apply AP, O1.
  - destruct (nth_error (s_objs s) a) as [[bw cw [|cs|cs]|bw cw|ks w|bw k v c ts sig]|] eqn:Na;
      try (injection H as <- _; apply SM; reflexivity).
    eapply (EL PArr KValue); [left; auto|exact Na|exact H].
  - destruct (nth_error (s_objs s) a) as [[bw cw [|cs|cs]|bw cw|ks w|bw k v c ts sig]|] eqn:Na;
      try (injection H as <- _; apply SM; reflexivity).
    eapply (EL PRecs KRecord); [right; auto|exact Na|exact H].
  - destruct (nth_error (s_objs s) a) as [[bw cw body|bw cw|ks w|bw k v c ts sig]|]; try (eapply CP; exact H).
    + destruct (new_key_at s w) as [s1 q] eqn:P. unfold no_err, as_ref in H. cbn [fst snd] in H. injection H as <- _.
      destruct (parse_plain KKey _ _ _ _ P) as (_ & O1). apply AP, O1.
    + injection H as <- _. apply SM; reflexivity.
Qed.
Lemma run_shape ops : forall s s2 rs, run s ops = (s2, rs) -> forall d x, nth_error (s_objs s) d = Some x ->
  exists y, nth_error (s_objs s2) d = Some y /\ same_shape x y.
Proof.
  induction ops as [|o ops IH]; intros s s2 rs; cbn [run].
  { intros [= <- <-] d x Hd. exists x. split; [exact Hd|apply same_shape_refl]. }
  destruct (step s o) as [s1 r] eqn:Hs. destruct (run s1 ops) as [s3 rs'] eqn:Hr. intros [= <- <-] d x Hd.
  destruct (step_shape _ _ _ _ Hs d x Hd) as (y & A & B). destruct (IH _ _ _ Hr d y A) as (z & C & D).
  exists z. split; [exact C|]. eapply same_shape_trans; eassumption.
Qed.

(** ** Memory *)
Lemma step_memory s o s2 r : step s o = (s2, r) -> forall b i, b < length (s_mem s) ->
  byte_at (s_mem s2) b i =
    match o with
    | OWrite b' i' x => if Nat.eqb b' b && Nat.eqb i' i && Nat.ltb i (length (nth b (s_mem s) [])) then Some x else byte_at (s_mem s) b i
    | _ => byte_at (s_mem s) b i
    end.
Proof.
  intros H b i Lb.
  assert (AP : forall tl, byte_at (s_mem s ++ tl) b i = byte_at (s_mem s) b i) by (intros tl; unfold byte_at; rewrite app_nth1 by exact Lb; reflexivity).
  assert (EL : forall wrap k a bw cw cells j, elem_at (parse_as k) s a bw cw wrap cells j = (s2, r) -> s_mem s2 = s_mem s).
  { intros wrap k a bw cw cells j. unfold elem_at. destruct (nth_error cells j) as [[| |c]|]; try (intros [= <- <-]; reflexivity).
    destruct (load_cells (parse_as k) s cw cells (S j) 0) as [[s1 cells'] q] eqn:L. intros [= <- <-].
    apply (load_plain _ (parse_plain k) _ _ _ _ _ _ _ _ L). }
  assert (CP : forall k bw, as_ref (copy_into k s bw) = (s2, r) -> byte_at (s_mem s2) b i = byte_at (s_mem s) b i).
  { intros k bw Hc. destruct (copy_into k s bw) as [s1 q] eqn:C. unfold as_ref in Hc. cbn [fst snd] in Hc. injection Hc as <- _.
    destruct (copy_ok k s bw s1 q C) as (-> & _). apply AP. }
  destruct o as [x|b' i' y|k w|a|a|a|a|a|a|a j|a j|a p|a]; cbn [step] in H;
    try (injection H as <- _; reflexivity).
  - injection H as <- _. cbn [s_mem]. apply AP.
  - destruct (Nat.eqb_spec b' b) as [->|Nb]; cbn [andb].
    + destruct (Nat.ltb_spec i' (length (nth b (s_mem s) []))) as [Li|Li]; injection H as <- _; cbn [s_mem].
      * unfold byte_at. unfold bytes in *. rewrite nth_upd_d, Nat.eqb_refl. match goal with |- context [if ?c then upd _ _ _ else _] => replace c with true by (symmetry; apply Nat.ltb_lt; exact Lb) end.
        rewrite nth_upd. destruct (Nat.eqb_spec i' i) as [->|Ni]; [|reflexivity]. cbn [andb].
        pose proof (proj2 (Nat.ltb_lt _ _) Li) as Q. unfold bytes in *. rewrite !Q. reflexivity.
      * destruct (Nat.eqb_spec i' i) as [->|Ni]; [|reflexivity]. cbn [andb].
        destruct (Nat.ltb_spec i (length (nth b (s_mem s) []))); [lia|reflexivity].
    + destruct (i' <? length (nth b' (s_mem s) [])); injection H as <- _; cbn [s_mem]; [|reflexivity].
      unfold byte_at. rewrite nth_upd_d. destruct (Nat.eqb_spec b' b); [contradiction|reflexivity].
  - destruct (in_range (s_mem s) w); [|injection H as <- _; reflexivity].
    destruct (parse_as k s w) as [s1 q] eqn:P. unfold as_ref in H. cbn [fst snd] in H. injection H as <- _.
    destruct (parse_plain k _ _ _ _ P) as (-> & _). reflexivity.
  - destruct (nth_error (s_objs s) a) as [[bw cw [|cs|cs]|bw cw|ks w|bw k v c ts sig]|];
      try (injection H as <- _; reflexivity). rewrite (EL PArr KValue _ _ _ _ _ H). reflexivity.
  - destruct (nth_error (s_objs s) a) as [[bw cw [|cs|cs]|bw cw|ks w|bw k v c ts sig]|];
      try (injection H as <- _; reflexivity). rewrite (EL PRecs KRecord _ _ _ _ _ H). reflexivity.
  - destruct (nth_error (s_objs s) a) as [[bw cw body|bw cw|ks w|bw k v c ts sig]|]; try (eapply CP; exact H).
    + destruct (new_key_at s w) as [s1 q] eqn:P. unfold no_err, as_ref in H. cbn [fst snd] in H. injection H as <- _.
      destruct (parse_plain KKey _ _ _ _ P) as (-> & _). reflexivity.
    + injection H as <- _. reflexivity.
Qed.

(** ** What the windows answer *)
Lemma now_rdw M w x i : w_blk x = w_blk w -> w_off x = w_off w + i -> rdw M x = now M w i (w_len x).
Proof. intros A B. unfold rdw, now. rewrite A, B. reflexivity. Qed.

Lemma windows k s w s1 d : step s (OParse k w) = (s1, Ok (ARef d)) ->
  exists e, reads k (rdw (s_mem s) w) = Some e /\ exists places refs, forall ops s2 rs, run s1 ops = (s2, rs) ->
    window_answers e (s_mem s) w places refs d s2.
Proof.
  cbn [step]. destruct (in_range (s_mem s) w) eqn:V; [|discriminate]. apply in_range_valid in V.
  destruct (parse_as k s w) as [s' q] eqn:P. unfold as_ref. cbn [fst snd]. intros [= <- Hq].
  destruct q as [a| |]; try discriminate. cbn [rbind] in Hq. injection Hq as <-.
  destruct k; cbn [parse_as reads] in *.
  - unfold new_value, alloc in P. pose proof (parse_value_spec (s_mem s) w V) as Q.
    destruct (parse_value (s_mem s) w) as [o| |]; try discriminate. injection P as <- <-.
    destruct Q as (m & n & Q1 & (Q2 & _) & _). rewrite Q1. exists (RVal m). split; [reflexivity|]. exists [], (fun _ => 0).
    intros ops s2 rs Hr. destruct Q2 as (bw & cw & body & -> & I1 & I2 & B & C & D & F & G).
    destruct (run_shape _ _ _ _ Hr (length (s_objs s)) (PVal bw cw body)) as (y & Y1 & Y2); [apply nth_last|].
    assert (Lb : w_len bw = length (mv_buf m)) by (rewrite <- B; symmetry; apply rdw_length; eapply valid_inside; eassumption).
    assert (Lc : w_len cw = length (mv_content m)) by (rewrite <- C; symmetry; apply rdw_length; eapply valid_inside; eassumption).
    assert (Eb : rdw (s_mem s2) bw = now (s_mem s2) w 0 (length (mv_buf m))).
    { rewrite <- Lb. apply now_rdw; [apply I1|lia]. }
    assert (Ec : rdw (s_mem s2) cw = now (s_mem s2) w (length (mv_buf m) - length (mv_content m)) (length (mv_content m))).
    { rewrite <- Lc at 2. apply now_rdw; [apply I2|]. destruct I2 as (_ & I2 & _). lia. }
    cbn [window_answers]. unfold tells. cbn [step snd]. rewrite Y1.
    destruct (mv_body m), body; cbn [body_of] in D; try contradiction;
      destruct y as [b' c' [|l'|l']|b' c'|ks' w'|b' k' v' c' ts' sig']; cbn [same_shape] in Y2; try contradiction.
    + destruct Y2 as (<- & <-). rewrite Eb, Ec. auto.
    + destruct Y2 as (<- & <- & <-). rewrite Eb, D. auto.
    + destruct Y2 as (<- & <- & <-). rewrite Eb, D. auto.
  - unfold new_simple, alloc in P. pose proof (parse_simple_spec (s_mem s) w V) as Q.
    destruct (parse_simple (s_mem s) w) as [o| |]; try discriminate. injection P as <- <-.
    destruct Q as (bw & cw & n & -> & Q1 & I1 & I2 & F & G). rewrite Q1. eexists. split; [reflexivity|]. exists [], (fun _ => 0).
    intros ops s2 rs Hr.
    destruct (run_shape _ _ _ _ Hr (length (s_objs s)) (PSimple bw cw)) as (y & Y1 & <-); [apply nth_last|].
    cbn [window_answers]. unfold tells. cbn [step snd]. rewrite Y1.
    rewrite (rdw_length _ _ (valid_inside _ _ _ V I1)), (rdw_length _ _ (valid_inside _ _ _ V I2)).
    rewrite (now_rdw (s_mem s2) w bw 0) by (try apply I1; lia).
    rewrite (now_rdw (s_mem s2) w cw (w_len bw - w_len cw)) by (try apply I2; destruct I2 as (_ & I2 & _); lia). auto.
  - unfold new_key_at, alloc in P. pose proof (parse_key_spec (s_mem s) w V) as Q. unfold bytes in *.
    destruct (parse_key (s_mem s) w) as [o| |]; try discriminate. injection P as <- <-.
    destruct Q as (k & n & Q1 & ((ks & kw & Eo & Ek & Ik & Fk) & _ & _) & (ks' & E')). rewrite E' in Eo. injection Eo as -> ->. subst o.
    rewrite Q1. eexists. split; [reflexivity|]. exists (map (fun x => (w_off x - w_off kw, w_len x)) ks), (fun _ => 0).
    intros ops s2 rs Hr.
    destruct (run_shape _ _ _ _ Hr (length (s_objs s)) (PKey ks kw)) as (y & Y1 & <-); [apply nth_last|].
    cbn [window_answers]. unfold tells. cbn [step snd]. rewrite Y1. rewrite !map_map. rewrite Forall_forall in Fk.
    assert (N : forall M x, In x ks -> rdw M x = now M kw (w_off x - w_off kw) (w_len x)).
    { intros M x Hx. destruct (Fk x Hx) as (A & B & C). apply now_rdw; [exact A|lia]. }
    splits.
    + rewrite Ek. cbn [ikey_keys]. rewrite map_map. cbn [gcontent]. apply map_ext_in. intros x Hx. apply N, Hx.
    + f_equal. f_equal. apply map_ext_in. intros x Hx. apply N, Hx.
    + destruct (w_len kw) as [|l] eqn:Lk.
      * assert (ks = []) as ->; [|reflexivity]. pose proof (rdw_length _ _ V) as L. rewrite Lk in L. apply length_zero_iff_nil in L.
        unfold bytes in *. rewrite L in Q1. cbn in Q1. rewrite Ek in Q1. destruct ks; [reflexivity|discriminate].
      * destruct ks as [|x ks]; [reflexivity|]. cbn [map]. rewrite (now_rdw (s_mem s2) kw kw 0) by lia. rewrite Lk. reflexivity.
  - unfold new_record_at in P. pose proof (parse_record_spec (s_mem s) w V) as Q.
    destruct (parse_record (s_mem s) w) as [[[[ko vo] co] ro]| |]; try discriminate. injection P as <- <-.
    destruct Q as (bw & ts & sig & k & v & c & kw & vw & cw & n & P1 & P2 & P3 & P4 & Ik & Iv & Ic & (kb & Kb & Ov) & Oc & _ & _ & Sk & Sv & Sc & _ & _).
    rewrite P1. eexists. split; [reflexivity|].
    set (x := length (s_objs s)) in *. exists [], (fun p => match p with KeyPart => x + 1 | ValuePart => x + 2 | SchemePart => x + 3 end).
    intros ops s2 rs Hr.
    destruct (nth_four (s_objs s) (ro x) ko vo co) as (N0 & N1 & N2 & N3).
    destruct (run_shape _ _ _ _ Hr x (ro x)) as (y & Y1 & Y2); [exact N0|]. rewrite P2 in Y2. cbn [same_shape] in Y2. subst y.
    destruct (run_shape _ _ _ _ Hr (x + 2) vo) as (yv & V1 & V2); [exact N2|].
    destruct (run_shape _ _ _ _ Hr (x + 3) co) as (yc & C1 & C2); [exact N3|].
    assert (HV : forall z u o y, inside z w -> val_shows (s_mem s) z o u -> same_shape o y ->
      exists b1 b2 b3, y = PVal b1 b2 b3 /\ w_blk b1 = w_blk w /\ w_off b1 = w_off z /\ w_len b1 = length (mv_buf u)).
    { intros z u o y Iz ((b1 & b2 & b3 & -> & J1 & J2 & B & C & D & F & G) & _) Hs.
      exists b1, b2. assert (w_len b1 = length (mv_buf u)).
      { rewrite <- B. symmetry. apply rdw_length. eapply valid_inside; [|exact J1]. eapply valid_inside; eassumption. }
      assert (w_blk b1 = w_blk w) by (rewrite (proj1 J1); apply Iz).
      destruct b3 as [|l|l]; destruct y as [b' c' [|l'|l']|b' c'|ks' w'|b' k' v' c' ts' sig']; cbn [same_shape] in Hs; try contradiction.
      - destruct Hs as (<- & <-). eauto.
      - destruct Hs as (<- & <- & _). eauto.
      - destruct Hs as (<- & <- & _). eauto. }
    destruct (HV vw v vo yv Iv Sv V2) as (v1 & v2 & v3 & -> & Bv & Ov' & Lv).
    destruct (HV cw c co yc Ic Sc C2) as (c1 & c2 & c3 & -> & Bc & Oc' & Lc).
    cbn [window_answers]. unfold tells. cbn [step snd]. rewrite Y1, V1, C1. splits.
    + rewrite (rdw_length _ _ (valid_inside _ _ _ V P3)). rewrite (now_rdw (s_mem s2) w bw 0) by (try apply P3; lia). reflexivity.
    + reflexivity.
    + intros [| |]; reflexivity.
    + intros kb' Kb'. rewrite Kb in Kb'. injection Kb' as <-. split.
      * rewrite (now_rdw (s_mem s2) w v1 (1 + length kb)) by (try exact Bv; lia). rewrite Lv. reflexivity.
      * rewrite (now_rdw (s_mem s2) w c1 (1 + length kb + length (mv_buf v))) by (try exact Bc; lia). rewrite Lc. reflexivity.
Qed.
