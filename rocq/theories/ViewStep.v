(** * One call and then many *)
From Coq Require Import List NArith ZArith Lia Bool.
From Coq Require Import Strings.Byte.
From Verif Require Import Base BaseProofs KeyModel ValueModel ViewModel ViewSpec ViewProofs ViewInv.
Import ListNotations.
Local Open Scope nat_scope.

(** Parsing only adds objects. *)
Definition plain (parse : st -> win -> st * res nat) : Prop :=
  forall s w s1 r, parse s w = (s1, r) -> s_mem s1 = s_mem s /\ exists tl, s_objs s1 = s_objs s ++ tl.
Lemma alloc_plain s x s1 r : alloc s x = (s1, r) -> s_mem s1 = s_mem s /\ exists tl, s_objs s1 = s_objs s ++ tl.
Proof.
  unfold alloc. destruct x; intros [= <- <-]; cbn [s_mem s_objs]; split; try reflexivity; eauto; exists []; rewrite app_nil_r; reflexivity.
Qed.
Lemma parse_plain k : plain (parse_as k).
Proof.
  intros s w s1 r. destruct k; cbn [parse_as]; try apply alloc_plain.
  unfold new_record_at. destruct (parse_record (s_mem s) w) as [[[[ko vo] co] ro]| |]; intros [= <- <-]; cbn [s_mem s_objs];
    split; try reflexivity; eauto; exists []; rewrite app_nil_r; reflexivity.
Qed.
Lemma load_plain parse : plain parse -> forall todo s cw cells pos s2 cells2 r,
  load_cells parse s cw cells todo pos = (s2, cells2, r) ->
  s_mem s2 = s_mem s /\ (exists tl, s_objs s2 = s_objs s ++ tl) /\ length cells2 = length cells.
Proof.
  intros P. induction todo as [|n IH]; intros s cw cells pos s2 cells2 r; cbn [load_cells].
  { intros [= <- <- <-]. splits; try reflexivity. exists []. rewrite app_nil_r. reflexivity. }
  assert (N : forall (x : st * list cell * res unit), x = (s2, cells2, r) -> forall c q, x = (s, c, q) -> length c = length cells ->
     s_mem s2 = s_mem s /\ (exists tl, s_objs s2 = s_objs s ++ tl) /\ length cells2 = length cells).
  { intros x -> c q [= -> -> ->] L. splits; try reflexivity; [|exact L]. exists []. rewrite app_nil_r. reflexivity. }
  destruct cells as [|[| |a] cs]; try (intros H; eapply N; [exact H|reflexivity|reflexivity]).
  - destruct (Z.of_nat (w_len cw) <? pos)%Z; [intros H; eapply N; [exact H|reflexivity|reflexivity]|].
    destruct (win_from cw pos) as [rest| |]; try (intros H; eapply N; [exact H|reflexivity|reflexivity]).
    destruct (parse s rest) as [s1 q] eqn:Ep. destruct (P _ _ _ _ Ep) as (M1 & tl & O1). destruct q as [a| |].
    + destruct (load_cells parse s1 cw cs n _) as [[s3 cs3] r3] eqn:E3. intros [= <- <- <-].
      destruct (IH _ _ _ _ _ _ _ E3) as (A & (tl2 & B) & C). rewrite A, B, O1, M1. splits; [reflexivity| |cbn [length]; congruence].
      exists (tl ++ tl2). rewrite app_assoc. reflexivity.
    + intros [= <- <- <-]. splits; [exact M1|eauto|reflexivity].
    + intros [= <- <- <-]. splits; [exact M1|eauto|reflexivity].
  - destruct (load_cells parse s cw cs n _) as [[s3 cs3] r3] eqn:E3. intros [= <- <- <-].
    destruct (IH _ _ _ _ _ _ _ E3) as (A & B & C). splits; [exact A|exact B|cbn [length]; congruence].
Qed.

Section Step.
  Context (R : win).
  Notation Inv := (Inv R).

  Lemma inv_put s E a bw cw b b' : Inv s E -> nth_error (s_objs s) a = Some (PVal bw cw b) ->
    (forall m, E a = Some (RVal m) -> body_of (mv_body m) b' /\ body_ok E (mv_content m) b') ->
    Inv (put s a (PVal bw cw b')) E.
  Proof.
    intros (V & H) Ha Hm. split; [exact V|]. intros d e Hd. specialize (H d e Hd).
    assert (La : a < length (s_objs s)) by (apply nth_error_Some; congruence).
    assert (Hn : forall x o, x <> a -> nth_error (s_objs s) x = Some o -> nth_error (s_objs (put s a (PVal bw cw b'))) x = Some o).
    { intros x o Nx Hx. cbn [put s_objs]. rewrite nth_upd. destruct (Nat.eqb_spec a x); [congruence|exact Hx]. }
    assert (Hs : nth_error (s_objs (put s a (PVal bw cw b'))) a = Some (PVal bw cw b')).
    { cbn [put s_objs]. rewrite nth_upd, Nat.eqb_refl. destruct (Nat.ltb_spec a (length (s_objs s))); [reflexivity|lia]. }
    destruct e; cbn [holds] in *.
    - destruct H as (bw' & cw' & body & A & B & C & D & F & G & I & J). destruct (Nat.eq_dec d a) as [->|Nd].
      + rewrite Ha in A. injection A as <- <- <-. destruct (Hm m Hd) as (Q1 & Q2). exists bw, cw, b'. splits; try assumption.
      + exists bw', cw', body. splits; try assumption. apply Hn; assumption.
    - destruct H as (bw' & cw' & A & B & C & D & F & G). exists bw', cw'. splits; try assumption.
      apply Hn; [congruence|exact A].
    - destruct H as (ks & kw & n & A & B & C & D & F). exists ks, kw, n. splits; try assumption. apply Hn; [congruence|exact A].
    - destruct H as (bw' & k & v & c & ts & sig & kd & vd & cd & A & B & C & D & F & G).
      exists bw', k, v, c, ts, sig, kd, vd, cd. splits; try assumption. apply Hn; [congruence|exact B].
  Qed.

  (** [wrap] and [k] go together. *)
  Definition paired (wrap : list cell -> pbody) (k : kind) : Prop := (wrap = PArr /\ k = KValue) \/ (wrap = PRecs /\ k = KRecord).
  Lemma paired_good wrap k : paired wrap k -> good_parse R (parse_as k) k.
  Proof. intros [(_ & ->) | (_ & ->)]; [apply good_value|apply good_record]. Qed.
  Lemma paired_kind wrap k : paired wrap k -> k = KValue \/ k = KRecord.
  Proof. intros [(_ & ->) | (_ & ->)]; auto. Qed.
  Lemma paired_body wrap k E c cs : paired wrap k -> body_ok E c (wrap cs) <-> cells_ok E k c cs.
  Proof. intros [(-> & ->) | (-> & ->)]; reflexivity. Qed.
  Lemma paired_len wrap k b cs cs' : paired wrap k -> length cs' = length cs -> body_of b (wrap cs) -> body_of b (wrap cs').
  Proof. intros [(-> & ->) | (-> & ->)] L; destruct b; cbn [body_of]; congruence. Qed.

  Lemma elem_other wrap k s E a bw cw cells i s2 r : paired wrap k -> Inv s E -> E a = None ->
    nth_error (s_objs s) a = Some (PVal bw cw (wrap cells)) -> elem_at (parse_as k) s a bw cw wrap cells i = (s2, r) -> Inv s2 E.
  Proof.
    intros Pk I Ea Ha. unfold elem_at. destruct (nth_error cells i) as [[| |c]|]; try (intros [= <- <-]; exact I).
    destruct (load_cells (parse_as k) s cw cells (S i) 0) as [[s1 cells'] q] eqn:L. intros [= <- <-].
    destruct (load_plain _ (parse_plain k) _ _ _ _ _ _ _ _ L) as (M1 & (tl & O1) & L1).
    assert (I1 : Inv s1 E). { apply (inv_grow R s); [rewrite M1; apply keeps_refl| |exact I]. intros x o Hx. rewrite O1. apply nth_error_snoc, Hx. }
    apply inv_put with (b := wrap cells); [exact I1| |intros m Hm; congruence]. rewrite O1. apply nth_error_snoc, Ha.
  Qed.

  Lemma elem_known wrap k s E a m bw cw cells i s2 r : paired wrap k -> Inv s E -> E a = Some (RVal m) ->
    nth_error (s_objs s) a = Some (PVal bw cw (wrap cells)) -> elem_at (parse_as k) s a bw cw wrap cells i = (s2, r) ->
    let want := if Nat.ltb i (length cells) then nth_in k (mv_content m) i else None in
    ref_if want r /\ exists E2, ext E E2 /\ Inv s2 E2 /\ forall c x, r = Ok (ARef c) -> want = Some x -> E2 c = Some x.
  Proof.
    intros Pk I Ea Ha. pose proof (proj2 I a _ Ea) as Hh. cbn [holds] in Hh.
    destruct Hh as (bw' & cw' & body & A & Ib & Ic & Rb & Rc & Bo & Bk & _). rewrite Ha in A. injection A as <- <- <-.
    apply (paired_body wrap k) in Bk; [|exact Pk]. cbv zeta.
    unfold elem_at. destruct (nth_error cells i) as [[| |c]|] eqn:Ni.
    4:{ intros [= <- <-]. apply nth_error_None in Ni. destruct (Nat.ltb_spec i (length cells)); [lia|]. split; [cbn; discriminate|].
        exists E. splits; [apply ext_refl|exact I|discriminate]. }
    all: assert (Li : i < length cells) by (apply nth_error_Some; congruence); destruct (Nat.ltb_spec i (length cells)) as [_|]; [|lia].
    2:{ intros [= <- <-]. specialize (Bk i _ Ni). cbn [cell_ok] in Bk. rewrite Bk. split; [cbn; discriminate|].
        exists E. splits; [apply ext_refl|exact I|discriminate]. }
    2:{ intros [= <- <-]. specialize (Bk i _ Ni). cbn [cell_ok] in Bk. destruct Bk as (e & B1 & B2). rewrite B1. cbn [cell_obs ref_if].
        split; [eauto|]. exists E. splits; [apply ext_refl|exact I|]. intros c' x [= <-] [= <-]. exact B2. }
    destruct (load_cells (parse_as k) s cw cells (S i) 0) as [[s1 cells'] q] eqn:L. intros [= <- <-].
    destruct (load_ok R _ _ (paired_good _ _ Pk) (paired_kind _ _ Pk) (S i) s E cw 0 cells s1 cells' q I Ic ltac:(lia)) as
      (E2 & X1 & X2 & X3 & (tl & X4) & X5 & X6 & X7 & X8).
    { cbn [skipn]. rewrite Rc. exact Bk. }
    { exact L. }
    cbn [skipn] in X5, X8. rewrite Rc in X5, X8.
    assert (I2 : Inv (put s1 a (PVal bw cw (wrap cells'))) E2).
    { apply inv_put with (b := wrap cells); [exact X2|rewrite X4; apply nth_error_snoc, Ha|].
      intros m' Hm'. apply X1 in Ea. rewrite Ea in Hm'. injection Hm' as <-. split; [eapply paired_len; eassumption|].
      apply (paired_body wrap k); assumption. }
    destruct q as [[]| |]; cbn [rbind].
    - destruct (X7 eq_refl i ltac:(lia)) as (d & Nd). rewrite Nd. cbn [cell_obs]. specialize (X5 i _ Nd). cbn [cell_ok] in X5.
      destruct X5 as (e & Y1 & Y2). rewrite Y1. cbn [ref_if]. split; [eauto|]. exists E2. splits; [exact X1|exact I2|].
      intros c x [= <-] [= <-]. exact Y2.
    - destruct (X8 ltac:(lia) ltac:(discriminate)) as (j & J1 & J2). rewrite (nth_in_none _ _ _ i J2) by lia. split; [cbn; discriminate|].
      exists E2. splits; [exact X1|exact I2|discriminate].
    - destruct (X8 ltac:(lia) ltac:(discriminate)) as (j & J1 & J2). rewrite (nth_in_none _ _ _ i J2) by lia. split; [cbn; discriminate|].
      exists E2. splits; [exact X1|exact I2|discriminate].
  Qed.

  Lemma good_as k : good_parse R (parse_as k) k.
  Proof. destruct k; [apply good_value|apply good_simple|apply good_key|apply good_record]. Qed.
End Step.

(** A copy in a new buffer. *)
Lemma copy_ok k s bw s1 r : copy_into k s bw = (s1, r) ->
  let b := rdw (s_mem s) bw in
  s_mem s1 = s_mem s ++ [b] /\ (exists tl, s_objs s1 = s_objs s ++ tl) /\
  match r with
  | Ok a => exists e E2, reads k b = Some e /\ Inv (Win (length (s_mem s)) 0 (length b)) s1 E2 /\ E2 a = Some e
  | Err => False
  | Panic => reads k b = None
  end.
Proof.
  intros H. cbv zeta. unfold copy_into in H. set (b := rdw (s_mem s) bw) in *. set (w := Win (length (s_mem s)) 0 (length b)) in *.
  set (s0 := St (s_mem s ++ [b]) (s_objs s)) in *. destruct (parse_as k s0 w) as [s' q] eqn:P.
  assert (V : valid (s_mem s0) w).
  { split; cbn [s0 s_mem w w_blk w_off w_len]. { rewrite nth_middle. lia. } rewrite app_length. cbn. lia. }
  assert (Ew : rdw (s_mem s0) w = b). { unfold rdw. cbn [s0 s_mem w w_blk w_off w_len skipn]. rewrite nth_middle. apply firstn_all. }
  assert (I0 : Inv w s0 (fun _ => None)) by (split; [exact V|discriminate]).
  destruct (good_as w k s0 _ w s' q I0 (inside_refl w) P) as (M1 & O1 & Q). rewrite Ew in Q. unfold no_err in H. cbn [fst snd] in H.
  injection H as <- <-. split; [exact M1|]. split; [exact O1|]. destruct q; cbn.
  - destruct Q as (e & E2 & Q1 & _ & Q2 & Q3). eauto.
  - apply Q.
  - apply Q.
Qed.

Section Step2.
  Context (R : win).
  Notation Inv := (Inv R).

  Definition news (E E2 : nat -> option reading) (o : op) (r : res obs) : Prop :=
    (forall b m i c x, o = OValueAt b i -> E b = Some (RVal m) -> r = Ok (ARef c) -> element m KValue i = Some x -> E2 c = Some x) /\
    (forall b m i c x, o = ORecordAt b i -> E b = Some (RVal m) -> r = Ok (ARef c) -> element m KRecord i = Some x -> E2 c = Some x) /\
    (forall b x p c, o = OPart b p -> E b = Some (RRec x) -> r = Ok (ARef c) -> E2 c = Some (part_of x p)) /\
    (forall b k c, o = OCopy b -> E b = Some (RKey k) -> r = Ok (ARef c) -> E2 c = Some (RKey k)).

  (** Calls that change no object. *)
  Definition looks (o : op) : Prop :=
    match o with OBuf _ | OContent _ | OKind _ | OSize _ | OKeys _ | OTail _ | OPart _ _ => True | _ => False end.
  Lemma looks_same s o : looks o -> fst (step s o) = s.
  Proof. destruct o; cbn; try contradiction; reflexivity. Qed.

  Lemma right_look s E o d e : Inv s E -> looks o -> E d = Some e -> right e d o (snd (step s o)).
  Proof.
    intros (V & H) L Hd. specialize (H d e Hd). destruct e; cbn [holds right] in *.
    - destruct H as (bw & cw & body & A & B & C & D & F & G & _).
      splits; intros; subst o; try contradiction; cbn [step snd]; rewrite A.
      + rewrite D. reflexivity.
      + destruct (mv_body m), body; cbn [body_of] in G; try contradiction; try reflexivity. rewrite F. reflexivity.
      + destruct (mv_body m), body; cbn [body_of] in G; try contradiction; reflexivity.
      + destruct (mv_body m), body; cbn [body_of] in G; try contradiction; try reflexivity; rewrite G; reflexivity.
    - destruct H as (bw & cw & A & B & C & D & F & G).
      splits; intros; subst o; try contradiction; cbn [step snd]; rewrite A, ?D, ?F; reflexivity.
    - destruct H as (ks & kw & n & A & B & C & D & F). pose proof (rdw_length _ _ (valid_inside _ _ _ V B)) as Lk.
      splits; intros; subst o; try contradiction; cbn [step snd]; rewrite A.
      + rewrite D. unfold ikey_buf, ikey_is_empty. destruct (rdw (s_mem s) kw) as [|x b] eqn:Q; cbn [length] in Lk; rewrite <- Lk.
        { reflexivity. } destruct ks; reflexivity.
      + rewrite D. cbn [ikey_keys]. rewrite map_map. cbn [gcontent]. reflexivity.
    - destruct H as (bw & k & v & c & ts & sig & kd & vd & cd & -> & A & _).
      splits; intros; subst o; try contradiction; cbn [step snd]; rewrite A; eauto.
  Qed.

  (** Calls about no object, or about another one. *)
  Definition subject (o : op) : option nat :=
    match o with
    | OMake _ | OWrite _ _ _ | OParse _ _ => None
    | OBuf a | OContent a | OKind a | OSize a | OKeys a | OTail a | OValueAt a _ | ORecordAt a _ | OPart a _ | OCopy a => Some a
    end.
  Lemma right_other e d o r : subject o <> Some d -> right e d o r.
  Proof. intros N. destruct e; cbn [right]; splits; intros; subst o; cbn [subject] in N; congruence. Qed.
  Lemma news_other E o r : match o with OValueAt _ _ | ORecordAt _ _ | OPart _ _ | OCopy _ => False | _ => True end -> news E E o r.
  Proof. intros N. unfold news. splits; intros; subst o; contradiction. Qed.

  Lemma element_array m cs i bw : mv_body m = bw -> body_of bw (PArr cs) ->
    element m KValue i = (if Nat.ltb i (length cs) then nth_in KValue (mv_content m) i else None) /\ element m KRecord i = None.
  Proof. intros E B. unfold element. rewrite E. destruct bw; cbn [body_of] in B; try contradiction. rewrite B. auto. Qed.
  Lemma element_records m cs i bw : mv_body m = bw -> body_of bw (PRecs cs) ->
    element m KRecord i = (if Nat.ltb i (length cs) then nth_in KRecord (mv_content m) i else None) /\ element m KValue i = None.
  Proof. intros E B. unfold element. rewrite E. destruct bw; cbn [body_of] in B; try contradiction. rewrite B. auto. Qed.
  Lemma element_prim m i k : mv_body m = BPrim -> element m k i = None.
  Proof. intros E. unfold element. rewrite E. reflexivity. Qed.

  Lemma step_ok s E o s2 r : Inv s E -> spares R o -> step s o = (s2, r) ->
    (forall d e, E d = Some e -> right e d o r) /\ exists E2, ext E E2 /\ Inv s2 E2 /\ news E E2 o r.
  Proof.
    intros I Sp H. pose proof (ext_refl E) as X0.
    assert (IA : forall s', keeps R (s_mem s) (s_mem s') -> (exists tl, s_objs s' = s_objs s ++ tl) -> Inv s' E).
    { intros s' K (tl & O). apply (inv_grow R s); [exact K| |exact I]. intros x y Hx. rewrite O. apply nth_error_snoc, Hx. }
    assert (LK : looks o -> match o with OPart _ _ => False | _ => True end ->
                 (forall d e, E d = Some e -> right e d o r) /\ exists E2, ext E E2 /\ Inv s2 E2 /\ news E E2 o r).
    { intros L NP. pose proof (looks_same s o L) as Es. rewrite H in Es. cbn [fst] in Es. subst s2. split.
      - intros d e Hd. replace r with (snd (step s o)) by (rewrite H; reflexivity). eapply right_look; eassumption.
      - exists E. splits; [exact X0|exact I|]. apply news_other. destruct o; cbn in *; tauto. }
    destruct o as [b|b i x|k w|a|a|a|a|a|a|a i|a i|a p|a]; try (apply LK; exact Logic.I).
    - (* make *) injection H as <- <-. split; [intros; apply right_other; discriminate|]. exists E. splits; [exact X0| |apply news_other; exact Logic.I].
      apply IA; cbn [s_mem s_objs]; [apply keeps_app, I|exists []; rewrite app_nil_r; reflexivity].
    - (* write *) cbn [step] in H. split; [intros; apply right_other; discriminate|]. exists E. splits; [exact X0| |apply news_other; exact Logic.I].
      destruct (i <? length (nth b (s_mem s) [])); injection H as <- <-; [|exact I].
      apply IA; cbn [s_mem s_objs]; [apply keeps_write; eapply Sp; reflexivity|exists []; rewrite app_nil_r; reflexivity].
    - (* parse *) cbn [step] in H. split; [intros; apply right_other; discriminate|]. exists E. splits; [exact X0| |apply news_other; exact Logic.I].
      destruct (in_range (s_mem s) w); [|injection H as <- <-; exact I].
      destruct (parse_as k s w) as [s1 q] eqn:P. unfold as_ref in H. cbn [fst snd] in H. injection H as <- _.
      destruct (parse_plain k _ _ _ _ P) as (M1 & O1). apply IA; [rewrite M1; apply keeps_refl|exact O1].
    - (* ValueAt *) cbn [step] in H. destruct (nth_error (s_objs s) a) as [o|] eqn:Na.
      2:{ injection H as <- <-. split.
          - intros d e Hd. apply right_other. cbn. intros [= ->]. pose proof (inv_dom _ _ _ _ _ I Hd). apply nth_error_None in Na. lia.
          - exists E. splits; [exact X0|exact I|]. unfold news. splits; intros; try discriminate. }
      destruct (E a) as [e|] eqn:Ea.
      + pose proof (proj2 I a e Ea) as Hh. destruct e as [m|xb xc|kk|rr].
        * cbn [holds] in Hh. destruct Hh as (bw & cw & body & A & Ib & Ic & Rb & Rc & Bo & Bk & _). rewrite Na in A. injection A as ->.
          destruct body as [|cs|cs].
          -- injection H as <- <-. split.
             ++ intros d e Hd. destruct (Nat.eq_dec d a) as [->|Nd]; [|apply right_other; cbn; congruence].
                rewrite Ea in Hd. injection Hd as <-. cbn [right]. splits; intros; try discriminate.
                rewrite element_prim; [cbn; discriminate|]. destruct (mv_body m); cbn [body_of] in Bo; tauto.
             ++ exists E. splits; [exact X0|exact I|]. unfold news. splits; intros; discriminate.
          -- destruct (elem_known R PArr KValue s E a m bw cw cs i s2 r (or_introl (conj eq_refl eq_refl)) I Ea Na H) as (Y1 & E2 & Y2 & Y3 & Y4).
             split.
             ++ intros d e Hd. destruct (Nat.eq_dec d a) as [->|Nd]; [|apply right_other; cbn; congruence].
                rewrite Ea in Hd. injection Hd as <-. cbn [right]. splits; intros; try discriminate.
                assert (i0 = i) as -> by congruence. rewrite (proj1 (element_array m cs i _ eq_refl Bo)). exact Y1.
             ++ exists E2. splits; [exact Y2|exact Y3|]. unfold news. splits; intros; try discriminate.
                assert (b = a /\ i0 = i) as (-> & ->) by (split; congruence). assert (m0 = m) as -> by congruence.
                rewrite (proj1 (element_array m cs i _ eq_refl Bo)) in H3. eapply Y4; eassumption.
          -- injection H as <- <-. split.
             ++ intros d e Hd. destruct (Nat.eq_dec d a) as [->|Nd]; [|apply right_other; cbn; congruence].
                rewrite Ea in Hd. injection Hd as <-. cbn [right]. splits; intros; try discriminate.
                rewrite (proj2 (element_records m cs i0 _ eq_refl Bo)). cbn; discriminate.
             ++ exists E. splits; [exact X0|exact I|]. unfold news. splits; intros; discriminate.
        * cbn [holds] in Hh. destruct Hh as (bw & cw & A & _). rewrite Na in A. injection A as ->. injection H as <- <-. split.
          -- intros d e Hd. destruct (Nat.eq_dec d a) as [->|Nd]; [|apply right_other; cbn; congruence].
             rewrite Ea in Hd. injection Hd as <-. cbn [right]. splits; intros; discriminate.
          -- exists E. splits; [exact X0|exact I|]. unfold news. splits; intros; discriminate.
        * cbn [holds] in Hh. destruct Hh as (ks & kw & n & A & _). rewrite Na in A. injection A as ->. injection H as <- <-. split.
          -- intros d e Hd. destruct (Nat.eq_dec d a) as [->|Nd]; [|apply right_other; cbn; congruence].
             rewrite Ea in Hd. injection Hd as <-. cbn [right]. splits; intros; discriminate.
          -- exists E. splits; [exact X0|exact I|]. unfold news. splits; intros; discriminate.
        * cbn [holds] in Hh. destruct Hh as (bw & k & v & c & ts & sig & kd & vd & cd & _ & A & _). rewrite Na in A. injection A as ->.
          injection H as <- <-. split.
          -- intros d e Hd. destruct (Nat.eq_dec d a) as [->|Nd]; [|apply right_other; cbn; congruence].
             rewrite Ea in Hd. injection Hd as <-. cbn [right]. splits; intros; discriminate.
          -- exists E. splits; [exact X0|exact I|]. unfold news. splits; intros; discriminate.
      + split. { intros d e Hd. apply right_other. cbn. congruence. }
        exists E. split; [exact X0|]. split.
        * destruct o as [bw cw [|cs|cs]|bw cw|ks w|bw k v c ts sig]; try (injection H as <- <-; exact I).
          eapply (elem_other R PArr KValue); [left; auto|exact I|exact Ea|exact Na|exact H].
        * unfold news. splits; intros; try discriminate. assert (b = a) as -> by congruence. congruence.
    - (* RecordAt *) cbn [step] in H. destruct (nth_error (s_objs s) a) as [o|] eqn:Na.
      2:{ injection H as <- <-. split.
          - intros d e Hd. apply right_other. cbn. intros [= ->]. pose proof (inv_dom _ _ _ _ _ I Hd). apply nth_error_None in Na. lia.
          - exists E. splits; [exact X0|exact I|]. unfold news. splits; intros; try discriminate. }
      destruct (E a) as [e|] eqn:Ea.
      + pose proof (proj2 I a e Ea) as Hh. destruct e as [m|xb xc|kk|rr].
        * cbn [holds] in Hh. destruct Hh as (bw & cw & body & A & Ib & Ic & Rb & Rc & Bo & Bk & _). rewrite Na in A. injection A as ->.
          destruct body as [|cs|cs].
          -- injection H as <- <-. split.
             ++ intros d e Hd. destruct (Nat.eq_dec d a) as [->|Nd]; [|apply right_other; cbn; congruence].
                rewrite Ea in Hd. injection Hd as <-. cbn [right]. splits; intros; try discriminate.
                rewrite element_prim; [cbn; discriminate|]. destruct (mv_body m); cbn [body_of] in Bo; tauto.
             ++ exists E. splits; [exact X0|exact I|]. unfold news. splits; intros; discriminate.
          -- injection H as <- <-. split.
             ++ intros d e Hd. destruct (Nat.eq_dec d a) as [->|Nd]; [|apply right_other; cbn; congruence].
                rewrite Ea in Hd. injection Hd as <-. cbn [right]. splits; intros; try discriminate.
                rewrite (proj2 (element_array m cs i0 _ eq_refl Bo)). cbn; discriminate.
             ++ exists E. splits; [exact X0|exact I|]. unfold news. splits; intros; discriminate.
          -- destruct (elem_known R PRecs KRecord s E a m bw cw cs i s2 r (or_intror (conj eq_refl eq_refl)) I Ea Na H) as (Y1 & E2 & Y2 & Y3 & Y4).
             split.
             ++ intros d e Hd. destruct (Nat.eq_dec d a) as [->|Nd]; [|apply right_other; cbn; congruence].
                rewrite Ea in Hd. injection Hd as <-. cbn [right]. splits; intros; try discriminate.
                assert (i0 = i) as -> by congruence. rewrite (proj1 (element_records m cs i _ eq_refl Bo)). exact Y1.
             ++ exists E2. splits; [exact Y2|exact Y3|]. unfold news. splits; intros; try discriminate.
                assert (b = a /\ i0 = i) as (-> & ->) by (split; congruence). assert (m0 = m) as -> by congruence.
                rewrite (proj1 (element_records m cs i _ eq_refl Bo)) in H3. eapply Y4; eassumption.
        * cbn [holds] in Hh. destruct Hh as (bw & cw & A & _). rewrite Na in A. injection A as ->. injection H as <- <-. split.
          -- intros d e Hd. destruct (Nat.eq_dec d a) as [->|Nd]; [|apply right_other; cbn; congruence].
             rewrite Ea in Hd. injection Hd as <-. cbn [right]. splits; intros; discriminate.
          -- exists E. splits; [exact X0|exact I|]. unfold news. splits; intros; discriminate.
        * cbn [holds] in Hh. destruct Hh as (ks & kw & n & A & _). rewrite Na in A. injection A as ->. injection H as <- <-. split.
          -- intros d e Hd. destruct (Nat.eq_dec d a) as [->|Nd]; [|apply right_other; cbn; congruence].
             rewrite Ea in Hd. injection Hd as <-. cbn [right]. splits; intros; discriminate.
          -- exists E. splits; [exact X0|exact I|]. unfold news. splits; intros; discriminate.
        * cbn [holds] in Hh. destruct Hh as (bw & k & v & c & ts & sig & kd & vd & cd & _ & A & _). rewrite Na in A. injection A as ->.
          injection H as <- <-. split.
          -- intros d e Hd. destruct (Nat.eq_dec d a) as [->|Nd]; [|apply right_other; cbn; congruence].
             rewrite Ea in Hd. injection Hd as <-. cbn [right]. splits; intros; discriminate.
          -- exists E. splits; [exact X0|exact I|]. unfold news. splits; intros; discriminate.
      + split. { intros d e Hd. apply right_other. cbn. congruence. }
        exists E. split; [exact X0|]. split.
        * destruct o as [bw cw [|cs|cs]|bw cw|ks w|bw k v c ts sig]; try (injection H as <- <-; exact I).
          eapply (elem_other R PRecs KRecord); [right; auto|exact I|exact Ea|exact Na|exact H].
        * unfold news. splits; intros; try discriminate. assert (b = a) as -> by congruence. congruence.
    - (* part *) pose proof (looks_same s (OPart a p) Logic.I) as Es. rewrite H in Es. cbn [fst] in Es. subst s2. split.
      + intros d e Hd. replace r with (snd (step s (OPart a p))) by (rewrite H; reflexivity). eapply right_look; [exact I|exact Logic.I|exact Hd].
      + exists E. splits; [exact X0|exact I|]. unfold news. splits; intros; try discriminate.
        assert (b = a /\ p0 = p) as (-> & ->) by (split; congruence). pose proof (proj2 I a _ H1) as Hh. cbn [holds] in Hh.
        destruct Hh as (bw & k & v & c' & ts & sig & kd & vd & cd & -> & A & _ & D & F & G). cbn [step] in H. rewrite A in H.
        injection H as <-. injection H2 as <-. destruct p; cbn [part_of]; assumption.
    - (* copy *) cbn [step] in H. destruct (nth_error (s_objs s) a) as [o|] eqn:Na.
      2:{ injection H as <- <-. split.
          - intros d e Hd. apply right_other. cbn. intros [= ->]. pose proof (inv_dom _ _ _ _ _ I Hd). apply nth_error_None in Na. lia.
          - exists E. splits; [exact X0|exact I|]. unfold news. splits; intros; try discriminate. }
      assert (CP : forall k bw, as_ref (copy_into k s bw) = (s2, r) -> Inv s2 E /\ ref_if (reads k (rdw (s_mem s) bw)) r).
      { intros k bw Hc. destruct (copy_into k s bw) as [s1 q] eqn:C. unfold as_ref in Hc. cbn [fst snd] in Hc. injection Hc as <- <-.
        destruct (copy_ok k s bw s1 q C) as (M1 & O1 & Q). split.
        - apply IA; [rewrite M1; apply keeps_app, I|exact O1].
        - destruct q; cbn [rbind]; [|contradiction|].
          + destruct Q as (e & E2 & Q1 & _). rewrite Q1. cbn. eauto.
          + rewrite Q. cbn. discriminate. }
      destruct (E a) as [e|] eqn:Ea.
      + pose proof (proj2 I a e Ea) as Hh. destruct e as [m|xb xc|kk|rr]; cbn [holds] in Hh.
        * destruct Hh as (bw & cw & body & A & Ib & Ic & Rb & Rc & Bo & Bk & (b0 & n0 & J)). rewrite Na in A. injection A as ->.
          destruct (CP _ _ H) as (C1 & C2). cbn [reads] in C2. rewrite Rb, (value_again _ _ _ J) in C2. cbn [ref_if] in C2. split.
          -- intros d e Hd. destruct (Nat.eq_dec d a) as [->|Nd]; [|apply right_other; cbn; congruence].
             rewrite Ea in Hd. injection Hd as <-. cbn [right]. splits; intros; try discriminate. exact C2.
          -- exists E. splits; [exact X0|exact C1|]. unfold news. splits; intros; try discriminate. assert (b = a) as -> by congruence. congruence.
        * destruct Hh as (bw & cw & A & Ib & Ic & Rb & Rc & (b0 & n0 & J)). rewrite Na in A. injection A as ->.
          destruct (CP _ _ H) as (C1 & C2). cbn [reads] in C2. rewrite Rb, (simple_again _ _ _ _ J) in C2. cbn [ref_if] in C2. split.
          -- intros d e Hd. destruct (Nat.eq_dec d a) as [->|Nd]; [|apply right_other; cbn; congruence].
             rewrite Ea in Hd. injection Hd as <-. cbn [right]. splits; intros; try discriminate. exact C2.
          -- exists E. splits; [exact X0|exact C1|]. unfold news. splits; intros; try discriminate. assert (b = a) as -> by congruence. congruence.
        * destruct Hh as (ks & kw & n & A & Ik & Ck & Ek & Rk). rewrite Na in A. injection A as ->.
          destruct (new_key_at s kw) as [s1 q] eqn:P. unfold no_err, as_ref in H. cbn [fst snd] in H. injection H as <- <-.
          destruct (good_key R s E kw s1 q I Ik P) as (M1 & O1 & Q). cbn [reads] in Q. unfold bytes in *. rewrite Rk in Q.
          destruct q as [c| |]; [|destruct Q; discriminate..]. cbn [rbind]. destruct Q as (e & E2 & [= <-] & Q2 & Q3 & Q4). split.
          -- intros d e Hd. destruct (Nat.eq_dec d a) as [->|Nd]; [|apply right_other; cbn; congruence].
             rewrite Ea in Hd. injection Hd as <-. cbn [right]. splits; intros; try discriminate. eauto.
          -- exists E2. splits; [exact Q2|exact Q3|]. unfold news. splits; intros; try discriminate. assert (b = a) as -> by congruence.
             congruence.
        * destruct Hh as (bw & k & v & c & ts & sig & kd & vd & cd & -> & A & _). rewrite Na in A. injection A as ->.
          destruct (CP _ _ H) as (C1 & C2). split.
          -- intros d e Hd. destruct (Nat.eq_dec d a) as [->|Nd]; [|apply right_other; cbn; congruence].
             rewrite Ea in Hd. injection Hd as <-. cbn [right]. splits; intros; try discriminate. exact C2.
          -- exists E. splits; [exact X0|exact C1|]. unfold news. splits; intros; try discriminate. assert (b = a) as -> by congruence. congruence.
      + split. { intros d e Hd. apply right_other. cbn. congruence. }
        exists E. split; [exact X0|]. split.
        * destruct o as [bw cw body|bw cw|ks w|bw k v c ts sig]; try apply (CP _ _ H).
          destruct (new_key_at s w) as [s1 q] eqn:P. unfold no_err, as_ref in H. cbn [fst snd] in H. injection H as <- <-.
          destruct (parse_plain KKey _ _ _ _ P) as (M1 & O1). apply IA; [rewrite M1; apply keeps_refl|exact O1].
        * unfold news. splits; intros; try discriminate. assert (b = a) as -> by congruence. congruence.
  Qed.
End Step2.
