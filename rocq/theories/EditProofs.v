(** * Proofs about editable copies of parsed objects *)
From Coq Require Import List NArith ZArith Bool Lia.
From Coq Require Import Strings.Byte.
From Verif Require Import Base BaseProofs KeyModel ValueModel ViewModel ViewSpec ViewProofs ViewInv ViewStep ViewHist EditModel EditSpec.
Import ListNotations.
Local Open Scope nat_scope.

Scheme contents_mind := Induction for contents Sort Prop
with contents_from_mind := Induction for contents_from Sort Prop.

(** Induction on trees of constructed objects. *)
Section MadeInd.
  Context (P : made -> Prop).
  Context (Hb : forall w, P (MBytes w)) (Ha : forall l, Forall P l -> P (MArray l)) (Hr : forall l, Forall P l -> P (MRecords l)).
  Context (Hk : forall ks, P (MKey ks)) (Hc : forall k v c ts sig, P k -> P v -> P c -> P (MRecord k v c ts sig)).
  Fixpoint made_ind' (x : made) : P x :=
    match x with
    | MBytes w => Hb w
    | MArray l => Ha l ((fix go l : Forall P l := match l with [] => Forall_nil P | y :: l' => Forall_cons y (made_ind' y) (go l') end) l)
    | MRecords l => Hr l ((fix go l : Forall P l := match l with [] => Forall_nil P | y :: l' => Forall_cons y (made_ind' y) (go l') end) l)
    | MKey ks => Hk ks
    | MRecord k v c ts sig => Hc k v c ts sig (made_ind' k) (made_ind' v) (made_ind' c)
    end.
End MadeInd.

(** Two memories that agree on the slices of a copy show the same. *)
Definition slices (x : made) : list win := byte_slices x ++ key_slices x.
Lemma look_same M M' x : (forall w, In w (slices x) -> rdw M' w = rdw M w) -> look M' x = look M x.
Proof.
  induction x as [w|l IH|l IH|ks|k v c ts sig IHk IHv IHc] using made_ind'; intros H; unfold slices in H; cbn [look byte_slices key_slices] in *.
  - rewrite <- !(now_rdw _ w w 0) by (reflexivity || lia). f_equal. apply H. left. reflexivity.
  - f_equal. apply map_ext_in. intros y Hy. rewrite Forall_forall in IH. apply (IH y Hy). intros w Hw. apply H. unfold slices in Hw.
    apply in_app_or in Hw. apply in_or_app. destruct Hw; [left|right]; apply in_flat_map; eauto.
  - f_equal. apply map_ext_in. intros y Hy. rewrite Forall_forall in IH. apply (IH y Hy). intros w Hw. apply H. unfold slices in Hw.
    apply in_app_or in Hw. apply in_or_app. destruct Hw; [left|right]; apply in_flat_map; eauto.
  - f_equal. apply map_ext_in. intros w Hw. rewrite <- !(now_rdw _ w w 0) by (reflexivity || lia). apply H. exact Hw.
  - f_equal; [apply IHk|apply IHv|apply IHc]; intros w Hw; apply H; unfold slices in Hw; rewrite !in_app_iff in *; tauto.
Qed.

Lemma rdw_app M tl w : valid M w -> rdw (M ++ tl) w = rdw M w.
Proof. intros (_ & V). unfold rdw. rewrite app_nth1 by exact V. reflexivity. Qed.
Lemma valid_app M tl w : valid M w -> valid (M ++ tl) w.
Proof. intros (A & B). unfold valid. rewrite app_nth1 by exact B. rewrite app_length. split; [exact A|lia]. Qed.
Definition sound (M : memory) (x : made) : Prop := Forall (valid M) (slices x).
Lemma sound_app M tl x : sound M x -> sound (M ++ tl) x.
Proof. unfold sound. apply Forall_impl. intros w. apply valid_app. Qed.
Lemma look_app M tl x : sound M x -> look (M ++ tl) x = look M x.
Proof. intros S0. apply look_same. intros w Hw. unfold sound in S0. rewrite Forall_forall in S0. apply rdw_app, S0, Hw. Qed.
Lemma sound_list M l : Forall (sound M) l -> Forall (valid M) (flat_map byte_slices l ++ flat_map key_slices l).
Proof.
  unfold sound, slices. intros H. rewrite Forall_app. split; apply Forall_forall; intros w Hw; apply in_flat_map in Hw; destruct Hw as (x & Hx & Hw);
    rewrite Forall_forall in H; specialize (H x Hx); rewrite Forall_forall in H; apply H, in_or_app; auto.
Qed.

(** ** Contents *)
Section Contents.
  Context (R : win).
  Notation Inv := (Inv R).

  Lemma no_write_spares o : no_write o -> spares R o.
  Proof. intros N b i x ->. exfalso. exact (N b i x eq_refl). Qed.

  (** One element: ValueAt or RecordAt. *)
  Lemma at_ok k s E a m i s1 r : k = KValue \/ k = KRecord -> Inv s E -> E a = Some (RVal m) ->
    step s (match k with KValue => OValueAt a i | _ => ORecordAt a i end) = (s1, r) ->
    exists E1, ext E E1 /\ Inv s1 E1 /\ (forall c, r = Ok (ARef c) -> exists e, element m k i = Some e /\ E1 c = Some e) /\
      ((forall c, r <> Ok (ARef c)) -> element m k i = None).
  Proof.
    intros Hk I Ha H.
    assert (Sp : spares R (match k with KValue => OValueAt a i | _ => ORecordAt a i end)).
    { apply no_write_spares. intros b j x. destruct k; discriminate. }
    destruct (step_ok R s E _ s1 r I Sp H) as (Rt & E1 & X & I1 & N1 & N2 & _). specialize (Rt a _ Ha). cbn [right] in Rt.
    destruct Rt as (_ & _ & _ & _ & RV & RR & _). exists E1. split; [exact X|]. split; [exact I1|].
    destruct Hk as [-> | ->].
    - specialize (RV i eq_refl). destruct (element m KValue i) as [e|] eqn:Q; cbn [ref_if] in RV.
      + split; [|intros F; destruct RV as (d & ->); exfalso; apply (F d eq_refl)].
        intros c ->. exists e. split; [reflexivity|]. eapply N1; eauto.
      + split; [|reflexivity]. intros c ->. exfalso. apply (RV c eq_refl).
    - specialize (RR i eq_refl). destruct (element m KRecord i) as [e|] eqn:Q; cbn [ref_if] in RR.
      + split; [|intros F; destruct RR as (d & ->); exfalso; apply (F d eq_refl)].
        intros c ->. exists e. split; [reflexivity|]. eapply N2; eauto.
      + split; [|reflexivity]. intros c ->. exfalso. apply (RR c eq_refl).
  Qed.
  Lemma at_memory k s a i s1 r : step s (match k with KValue => OValueAt a i | _ => ORecordAt a i end) = (s1, r) -> s_mem s1 = s_mem s.
  Proof.
    assert (G : forall k0 bw cw wrap cells, elem_at (parse_as k0) s a bw cw wrap cells i = (s1, r) -> s_mem s1 = s_mem s).
    { intros k0 bw cw wrap cells. unfold elem_at. destruct (nth_error cells i) as [[| |d]|].
      - destruct (load_cells (parse_as k0) s cw cells (S i) 0) as [[s0 cells'] q] eqn:L.
        destruct (load_plain _ (parse_plain k0) _ _ _ _ _ _ _ _ L) as (M1 & _). intros [= <- <-]. exact M1.
      - intros [= <- <-]. reflexivity.
      - intros [= <- <-]. reflexivity.
      - intros [= <- <-]. reflexivity. }
    destruct k; cbn [step]; destruct (nth_error (s_objs s) a) as [[bw cw [|cs|cs]|bw cw|ks w|bw k v c ts sig]|];
      try (intros [= <- <-]; reflexivity); first [apply (G KValue)|apply (G KRecord)].
  Qed.

  Definition grown (s s2 : st) : Prop := exists tl, s_mem s2 = s_mem s ++ tl.
  Lemma grown_refl s : grown s s.
  Proof. exists []. rewrite app_nil_r. reflexivity. Qed.
  Lemma grown_trans s1 s2 s3 : grown s1 s2 -> grown s2 s3 -> grown s1 s3.
  Proof. intros (a & A) (b & B). exists (a ++ b). rewrite B, A, app_assoc. reflexivity. Qed.
  Lemma grown_same s s1 : s_mem s1 = s_mem s -> grown s s1.
  Proof. intros H. exists []. rewrite H, app_nil_r. reflexivity. Qed.

  Definition copies (s2 : st) (e : reading) (r : res made) : Prop :=
    match r with
    | Ok x => contents e (look (s_mem s2) x) /\ sound (s_mem s2) x
    | _ => forall t, ~ contents e t
    end.
  Definition copier (f : st -> nat -> option (st * res made)) : Prop :=
    forall s E a e s2 r, Inv s E -> E a = Some e -> f s a = Some (s2, r) ->
      exists E2, ext E E2 /\ Inv s2 E2 /\ grown s s2 /\ copies s2 e r.

  Lemma edit_from_ok f k a m : k = KValue \/ k = KRecord -> copier f ->
    forall n s E i s2 r, Inv s E -> E a = Some (RVal m) ->
    edit_from (fun s i => step s (match k with KValue => OValueAt a i | _ => ORecordAt a i end)) f s i n = Some (s2, r) ->
    exists E2, ext E E2 /\ Inv s2 E2 /\ grown s s2 /\
      match r with
      | Ok l => contents_from m k i n (map (look (s_mem s2)) l) /\ Forall (sound (s_mem s2)) l
      | _ => forall t, ~ contents_from m k i n t
      end.
  Proof.
    intros Hk F. induction n as [|n IH]; intros s E i s2 r I Ha; cbn [edit_from].
    { intros [= <- <-]. exists E. split; [apply ext_refl|]. split; [exact I|]. split; [apply grown_refl|]. split; [apply from_none|constructor]. }
    destruct (step s (match k with KValue => OValueAt a i | _ => ORecordAt a i end)) as [s1 q] eqn:Q.
    destruct (at_ok k s E a m i s1 q Hk I Ha Q) as (E1 & X1 & I1 & P1 & P2). pose proof (at_memory k s a i s1 q Q) as M1.
    assert (Bad : (forall c, q <> Ok (ARef c)) -> exists E2, ext E E2 /\ Inv s1 E2 /\ grown s s1 /\ (forall t, ~ contents_from m k i (S n) t)).
    { intros N. exists E1. split; [exact X1|]. split; [exact I1|]. split; [apply grown_same, M1|]. intros t Ht. inversion Ht; subst.
      rewrite (P2 N) in *. discriminate. }
    destruct q as [o| |].
    2:{ intros [= <- <-]. apply Bad. discriminate. }
    2:{ intros [= <- <-]. apply Bad. discriminate. }
    destruct o as [|c| | | | | |]; try (intros [= <- <-]; apply Bad; discriminate).
    destruct (P1 c eq_refl) as (e & He & Hc). clear P1 P2 Bad.
    destruct (f s1 c) as [[s3 q]|] eqn:Fc; [|discriminate].
    destruct (F s1 E1 c e s3 q I1 Hc Fc) as (E3 & X3 & I3 & G3 & C3).
    assert (G : grown s s3) by (eapply grown_trans; [apply grown_same, M1|exact G3]).
    destruct q as [x| |]; cbn [copies] in C3.
    2:{ intros [= <- <-]. exists E3. split; [eapply ext_trans; eassumption|]. split; [exact I3|]. split; [exact G|].
        intros t Ht. inversion Ht; subst. assert (e0 = e) by congruence. subst e0. eapply C3. eassumption. }
    2:{ intros [= <- <-]. exists E3. split; [eapply ext_trans; eassumption|]. split; [exact I3|]. split; [exact G|].
        intros t Ht. inversion Ht; subst. assert (e0 = e) by congruence. subst e0. eapply C3. eassumption. }
    destruct C3 as (C3 & S3).
    destruct (edit_from _ f s3 (S i) n) as [[s4 q4]|] eqn:L; [|discriminate].
    destruct (IH s3 E3 (S i) s4 q4 I3 (X3 _ _ (X1 _ _ Ha)) L) as (E4 & X4 & I4 & G4 & C4).
    assert (G' : grown s s4) by (eapply grown_trans; eassumption).
    assert (X : ext E E4) by (eapply ext_trans; [exact X1|]; eapply ext_trans; eassumption).
    destruct q4 as [l| |].
    2:{ intros [= <- <-]. exists E4. split; [exact X|]. split; [exact I4|]. split; [exact G'|]. intros t Ht. inversion Ht; subst. eapply C4. eassumption. }
    2:{ intros [= <- <-]. exists E4. split; [exact X|]. split; [exact I4|]. split; [exact G'|]. intros t Ht. inversion Ht; subst. eapply C4. eassumption. }
    intros [= <- <-]. exists E4. split; [exact X|]. split; [exact I4|]. split; [exact G'|]. destruct C4 as (C4 & S4). destruct G4 as (tl & Et). split.
    - cbn [map]. eapply from_next; [exact He| |exact C4]. rewrite Et, look_app by exact S3. exact C3.
    - constructor; [|exact S4]. rewrite Et. apply sound_app, S3.
  Qed.

  Lemma edit_bytes_ok s E w s2 r : Inv s E -> valid (s_mem s) w -> edit_bytes s w = (s2, r) ->
    Inv s2 E /\ grown s s2 /\ exists x, r = Ok x /\ look (s_mem s2) x = SBytes (rdw (s_mem s) w) /\ sound (s_mem s2) x.
  Proof.
    intros I V [= <- <-]. split; [|split].
    - apply (inv_grow R s); cbn [s_mem s_objs]; [apply keeps_app, I|auto|exact I].
    - exists [rdw (s_mem s) w]. reflexivity.
    - eexists. split; [reflexivity|]. cbn [s_mem look w_len]. unfold now, sound, slices. cbn [w_off w_blk byte_slices key_slices app].
      rewrite app_nth2, Nat.sub_diag by lia. cbn [nth skipn plus]. rewrite firstn_all. split; [reflexivity|].
      constructor; [|constructor]. unfold valid. cbn [w_off w_len w_blk]. rewrite app_nth2, Nat.sub_diag, app_length by lia. cbn. lia.
  Qed.

  Lemma edit_key_ok s E a k ks kw : Inv s E -> E a = Some (RKey k) -> nth_error (s_objs s) a = Some (PKey ks kw) -> copies s (RKey k) (edit_key ks).
  Proof.
    intros I Ha N. pose proof (proj2 I a _ Ha) as H. cbn [holds] in H. destruct H as (ks' & kw' & n & A & B & C & D & _).
    rewrite N in A. injection A as <- <-. unfold edit_key.
    assert (V : Forall (valid (s_mem s)) ks).
    { eapply Forall_impl; [|exact C]. intros w. apply valid_inside, I. }
    assert (K : map gcontent (ikey_keys k) = map (rdw (s_mem s)) ks).
    { rewrite D. cbn [ikey_keys]. rewrite map_map. reflexivity. }
    assert (L : map (fun w => now (s_mem s) w 0 (w_len w)) ks = map (rdw (s_mem s)) ks).
    { apply map_ext. intros w. symmetry. apply now_rdw; [reflexivity|lia]. }
    destruct (forallb _ ks) eqn:Q; cbn [copies].
    - split; [|unfold sound, slices; cbn [byte_slices key_slices app]; exact V]. cbn [look]. constructor; [congruence|].
      rewrite L. intros Hin. apply in_map_iff in Hin. destruct Hin as (w & Ew & Hw). rewrite forallb_forall in Q. specialize (Q w Hw).
      rewrite Forall_forall in V. pose proof (rdw_length _ _ (V w Hw)) as Lw. rewrite Ew in Lw. cbn [length] in Lw. rewrite <- Lw in Q. discriminate.
    - intros t Ht. inversion Ht; subst. rewrite K in *. rewrite <- not_true_iff_false, forallb_forall in Q. apply Q. intros w Hw.
      apply negb_true_iff, Nat.eqb_neq. intros Z0. match goal with X : ~ In [] _ |- _ => apply X end. apply in_map_iff. exists w. split; [|exact Hw].
      rewrite Forall_forall in V. pose proof (rdw_length _ _ (V w Hw)) as Lw. rewrite Z0 in Lw. apply length_zero_iff_nil, Lw.
  Qed.

  Lemma edit_ok n : copier (edit n).
  Proof.
    induction n as [|n IH]; intros s E a e s2 r I Ha; cbn [edit]; [discriminate|].
    pose proof (proj2 I a e Ha) as H. destruct e as [m|b c|k|x]; cbn [holds] in H.
    - destruct H as (bw & cw & body & A & B & C & D & F & G & _). rewrite A. destruct body as [|cs|cs].
      + destruct (edit_bytes s cw) as [s1 q] eqn:Q. intros [= <- <-].
        destruct (edit_bytes_ok s E cw s1 q I (valid_inside _ _ _ (proj1 I) C) Q) as (I1 & G1 & x & -> & L & S1).
        exists E. split; [apply ext_refl|]. split; [exact I1|]. split; [exact G1|]. cbn [copies]. split; [|exact S1]. rewrite L, F.
        apply con_primitive. destruct (mv_body m); cbn [body_of] in G; try contradiction. reflexivity.
      + destruct (edit_from _ (edit n) s 0 (length cs)) as [[s1 q]|] eqn:Q; [|discriminate]. intros [= <- <-].
        destruct (edit_from_ok (edit n) KValue a m (or_introl eq_refl) IH _ s E 0 s1 q I Ha Q) as (E1 & X & I1 & G1 & C1).
        exists E1. split; [exact X|]. split; [exact I1|]. split; [exact G1|].
        destruct (mv_body m) as [|cs'|cs'] eqn:Bm; cbn [body_of] in G; try contradiction. rewrite G in C1.
        destruct q as [l| |]; cbn [rmap rbind copies].
        * destruct C1 as (C1 & S1). split; [|apply sound_list, S1]. cbn [look]. eapply con_array; eassumption.
        * intros t Ht. inversion Ht; subst; try congruence. assert (cs0 = cs') by congruence. subst. eapply C1. eassumption.
        * intros t Ht. inversion Ht; subst; try congruence. assert (cs0 = cs') by congruence. subst. eapply C1. eassumption.
      + destruct (edit_from _ (edit n) s 0 (length cs)) as [[s1 q]|] eqn:Q; [|discriminate]. intros [= <- <-].
        destruct (edit_from_ok (edit n) KRecord a m (or_intror eq_refl) IH _ s E 0 s1 q I Ha Q) as (E1 & X & I1 & G1 & C1).
        exists E1. split; [exact X|]. split; [exact I1|]. split; [exact G1|].
        destruct (mv_body m) as [|cs'|cs'] eqn:Bm; cbn [body_of] in G; try contradiction. rewrite G in C1.
        destruct q as [l| |]; cbn [rmap rbind copies].
        * destruct C1 as (C1 & S1). split; [|apply sound_list, S1]. cbn [look]. eapply con_records; eassumption.
        * intros t Ht. inversion Ht; subst; try congruence. assert (cs0 = cs') by congruence. subst. eapply C1. eassumption.
        * intros t Ht. inversion Ht; subst; try congruence. assert (cs0 = cs') by congruence. subst. eapply C1. eassumption.
    - destruct H as (bw & cw & A & B & C & D & F & _). rewrite A.
      destruct (edit_bytes s cw) as [s1 q] eqn:Q. intros [= <- <-].
      destruct (edit_bytes_ok s E cw s1 q I (valid_inside _ _ _ (proj1 I) C) Q) as (I1 & G1 & x & -> & L & S1).
      exists E. split; [apply ext_refl|]. split; [exact I1|]. split; [exact G1|]. cbn [copies]. split; [|exact S1]. rewrite L, F. constructor.
    - pose proof H as H'. destruct H as (ks & kw & n0 & A & _). rewrite A. intros [= <- <-]. exists E. split; [apply ext_refl|]. split; [exact I|].
      split; [apply grown_refl|]. eapply edit_key_ok; eassumption.
    - destruct H as (bw & k & v & c & ts & sig & kd & vd & cd & -> & A & B & Ek & Ev & Ec). rewrite A.
      assert (Bad : forall y, (forall t, ~ contents (part_of (MRec (rdw (s_mem s) bw) k v c ts sig) y) t) ->
                forall t, ~ contents (RRec (MRec (rdw (s_mem s) bw) k v c ts sig)) t).
      { intros y N t Ht. inversion Ht; subst. match goal with X : MRec _ _ _ _ _ _ = _ |- _ => injection X as <- <- <- <- <- <- end.
        destruct y; eapply N; eassumption. }
      destruct (edit n s kd) as [[s1 q1]|] eqn:Q1; [|discriminate].
      destruct (IH s E kd _ s1 q1 I Ek Q1) as (E1 & X1 & I1 & G1 & C1).
      destruct q1 as [k'| |]; cbn [copies] in C1.
      2,3: intros [= <- <-]; exists E1; split; [exact X1|]; split; [exact I1|]; split; [exact G1|]; exact (Bad KeyPart C1).
      destruct (edit n s1 vd) as [[s2' q2]|] eqn:Q2; [|discriminate].
      destruct (IH s1 E1 vd _ s2' q2 I1 (X1 _ _ Ev) Q2) as (E2 & X2 & I2 & G2 & C2).
      assert (X12 : ext E E2) by (eapply ext_trans; eassumption). assert (G12 : grown s s2') by (eapply grown_trans; eassumption).
      destruct q2 as [v'| |]; cbn [copies] in C2.
      2,3: intros [= <- <-]; exists E2; split; [exact X12|]; split; [exact I2|]; split; [exact G12|]; exact (Bad ValuePart C2).
      destruct (edit n s2' cd) as [[s3 q3]|] eqn:Q3; [|discriminate].
      destruct (IH s2' E2 cd _ s3 q3 I2 (X12 _ _ Ec) Q3) as (E3 & X3 & I3 & G3 & C3).
      assert (X13 : ext E E3) by (eapply ext_trans; eassumption). assert (G13 : grown s s3) by (eapply grown_trans; eassumption).
      destruct q3 as [c'| |]; cbn [copies] in C3.
      2,3: intros [= <- <-]; exists E3; split; [exact X13|]; split; [exact I3|]; split; [exact G13|]; exact (Bad SchemePart C3).
      intros [= <- <-]. exists E3. split; [exact X13|]. split; [exact I3|]. split; [exact G13|].
      destruct C1 as (C1 & S1), C2 as (C2 & S2), C3 as (C3 & S3). destruct G3 as (t3 & T3). destruct G2 as (t2 & T2).
      assert (S1' : sound (s_mem s3) k'). { rewrite T3, T2. apply sound_app, sound_app, S1. }
      assert (S2' : sound (s_mem s3) v'). { rewrite T3. apply sound_app, S2. }
      assert (L1 : look (s_mem s3) k' = look (s_mem s1) k'). { rewrite T3, T2, look_app by (apply sound_app; exact S1). apply look_app, S1. }
      assert (L2 : look (s_mem s3) v' = look (s_mem s2') v'). { rewrite T3. apply look_app, S2. }
      cbn [copies]. split.
      + cbn [look]. eapply con_record; [reflexivity| | |].
        * rewrite L1. exact C1.
        * rewrite L2. exact C2.
        * exact C3.
      + unfold sound, slices in *. cbn [byte_slices key_slices]. rewrite !Forall_app in *. tauto.
  Qed.
End Contents.
