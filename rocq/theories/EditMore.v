(** * More about editable copies: termination, the memory they use, and what they leave alone *)
From Coq Require Import List NArith ZArith Bool Lia.
From Coq Require Import Strings.Byte.
From Verif Require Import Base BaseProofs VarintModel KeyModel ValueModel ValueProofs RecordProofs RefillModel RefillProofs.
From Verif Require Import ViewModel ViewSpec ViewProofs ViewInv ViewStep ViewHist EditModel EditSpec EditProofs.
Import ListNotations.
Local Open Scope nat_scope.

(** ** Contents are unique *)
Lemma contents_unique e t : contents e t -> forall t', contents e t' -> t' = t.
Proof.
  revert e t. apply (contents_mind (fun e t _ => forall t', contents e t' -> t' = t)
    (fun m k i n l _ => forall l', contents_from m k i n l' -> l' = l)).
  - intros m B t' H. inversion H; subst; congruence.
  - intros b c t' H. inversion H; subst. reflexivity.
  - intros m cs l B C IH t' H. inversion H; subst; try congruence. assert (cs0 = cs) by congruence. subst. f_equal. auto.
  - intros m cs l B C IH t' H. inversion H; subst; try congruence. assert (cs0 = cs) by congruence. subst. f_equal. auto.
  - intros k ks K N t' H. inversion H; subst. reflexivity.
  - intros r b k v c ts sig k' v' c' -> Ck IHk Cv IHv Cc IHc t' H. inversion H; subst.
    match goal with X : MRec _ _ _ _ _ _ = _ |- _ => injection X as <- <- <- <- <- <- end.
    f_equal; [apply IHk|apply IHv|apply IHc]; assumption.
  - intros m k i l' H. inversion H. reflexivity.
  - intros m k i n e t l He Ct IHt Cl IHl l' H. inversion H; subst. assert (e0 = e) by congruence. subst. f_equal; auto.
Qed.

(** ** Termination *)
Definition proper (e : reading) : Prop := exists k b, reads k b = Some e.

Lemma record_sizes b r n : new_mapped_record b = Ok (r, n) ->
  match r with MRec b' k v c _ _ =>
    length (mv_buf v) < length b' /\ length (mv_buf c) < length b' /\ proper (RKey k) /\ proper (RVal v) /\ proper (RVal c) /\ ikey_keys k = [] end.
Proof.
  destruct b as [|m rest]; [discriminate|]. destruct r as [b' k v c ts sig]. intros H.
  pose proof H as H'. rewrite record_parse_eq in H'. destruct (record_parts _ _ _ _ _ _ _ _ _ H) as (p0 & p1 & p2 & K & V & C & _ & Eb & P1 & P2 & P3).
  destruct (key_part_ok _ m rest _ _ _ eq_refl K) as ((kn & Kk) & P0).
  destruct (value_part_ok _ _ _ _ _ _ V) as (a1 & q1 & n1 & _ & _ & E1 & X1 & _).
  destruct (value_part_ok _ _ _ _ _ _ C) as (a2 & q2 & n2 & _ & _ & E2 & X2 & _).
  assert (L : Z.of_nat (length b') = n). { rewrite Eb, firstn_length. unfold zlen in P3. lia. }
  unfold zlen in X1, X2. splits; [lia|lia| | | |].
  - exists KKey, rest. cbn [reads]. unfold bytes, gslice in *. rewrite Kk. reflexivity.
  - exists KValue, q1. cbn [reads]. unfold bytes, gslice in *. rewrite E1. reflexivity.
  - exists KValue, q2. cbn [reads]. unfold bytes, gslice in *. rewrite E2. reflexivity.
  - unfold new_mapped_key in Kk. cbn [gcontent] in Kk. destruct (N.testbit (b2n m) 6); [|discriminate].
    destruct (decode_keys rest) as [[[|k0 ks] l]| |]; try discriminate.
    + cbn [rbind] in Kk. injection Kk as <- <-. reflexivity.
    + destruct (4096 <? zlen rest)%Z; [discriminate|]. destruct (N.testbit (b2n m) 5); discriminate.
Qed.
Lemma proper_parts r : proper (RRec r) -> exists b n, new_mapped_record b = Ok (r, n).
Proof.
  intros (k & b & H). destruct k; cbn [reads] in H.
  - destruct (new_std_value b) as [[? ?]| |]; discriminate.
  - destruct (new_simple_value b) as [[v ?]| |]; try discriminate. destruct v; discriminate.
  - destruct (new_mapped_key (Some b)) as [[? ?]| |]; discriminate.
  - destruct (new_mapped_record b) as [[r' n]| |] eqn:E; try discriminate. injection H as ->. eauto.
Qed.
Lemma proper_value m : proper (RVal m) -> length (mv_content m) < length (mv_buf m).
Proof.
  intros (k & b & H). destruct k; cbn [reads] in H.
  - destruct (new_std_value b) as [[m' n]| |] eqn:E; try discriminate. injection H as ->.
    destruct (std_decode_inv _ _ _ E) as (l & c & body & suf & -> & L & -> & ->). cbn [mv_buf mv_content]. destruct L. cbn [length].
    rewrite !app_length. lia.
  - destruct (new_simple_value b) as [[v ?]| |]; try discriminate. destruct v; discriminate.
  - destruct (new_mapped_key (Some b)) as [[? ?]| |]; discriminate.
  - destruct (new_mapped_record b) as [[? ?]| |]; discriminate.
Qed.
Lemma nth_in_fits k c i e : k = KValue \/ k = KRecord -> nth_in k c i = Some e -> extent e <= length c.
Proof.
  intros Hk. revert c. induction i as [|i IH]; intros c; cbn [nth_in]; destruct (reads k c) as [x|] eqn:Q; try discriminate.
  - intros [= <-]. eapply extent_fits; eassumption.
  - intros H. specialize (IH _ H). rewrite skipn_length in IH. lia.
Qed.
Lemma element_in m k i e : element m k i = Some e -> nth_in k (mv_content m) i = Some e /\ (k = KValue \/ k = KRecord).
Proof.
  unfold element. destruct (mv_body m) as [|cs|cs], k; try discriminate; destruct (Nat.ltb i (length cs)); try discriminate; auto.
Qed.
Lemma element_small m k i e : proper (RVal m) -> element m k i = Some e -> extent e < length (mv_buf m) /\ proper e.
Proof.
  intros P H. destruct (element_in _ _ _ _ H) as (N & Hk). pose proof (proper_value m P). pose proof (nth_in_fits _ _ _ _ Hk N).
  split; [lia|]. destruct (nth_in_reads _ _ _ _ N) as (b & Hb). exists k, b. exact Hb.
Qed.

Section Total.
  Context (R : win).
  Lemma edit_total n : forall s E a e, Inv R s E -> E a = Some e -> proper e -> extent e < n -> exists y, edit n s a = Some y.
  Proof.
    induction n as [|n IH]; intros s E a e I Ha P L; [lia|]. cbn [edit].
    pose proof (proj2 I a e Ha) as H. destruct e as [m|b c|k|x]; cbn [holds extent] in *.
    - destruct H as (bw & cw & body & A & _). rewrite A.
      assert (F : forall k, k = KValue \/ k = KRecord -> forall todo s E i, Inv R s E -> E a = Some (RVal m) -> exists y,
         edit_from (fun s i => step s (match k with KValue => OValueAt a i | _ => ORecordAt a i end)) (edit n) s i todo = Some y).
      { intros k Hk. induction todo as [|q IHq]; intros s0 E0 i I0 H0; cbn [edit_from]; [eauto|].
        destruct (step s0 (match k with KValue => OValueAt a i | _ => ORecordAt a i end)) as [s1 r] eqn:Q.
        destruct (at_ok R k s0 E0 a m i s1 r Hk I0 H0 Q) as (E1 & X1 & I1 & P1 & _).
        destruct r as [[|c| | | | | |]| |]; eauto. destruct (P1 c eq_refl) as (e & He & Hc).
        destruct (element_small m k i e P He) as (Le & Pe).
        destruct (IH s1 E1 c e I1 Hc Pe ltac:(lia)) as ((s2 & r) & Y). rewrite Y.
        destruct (edit_ok R n s1 E1 c e s2 r I1 Hc Y) as (E2 & X2 & I2 & _).
        destruct r as [x| |]; eauto.
        destruct (IHq s2 E2 (S i) I2 (X2 _ _ (X1 _ _ H0))) as ((s3 & r) & Y3). rewrite Y3. destruct r; eauto. }
      destruct body as [|cs|cs]; [eauto| |].
      + destruct (F KValue (or_introl eq_refl) (length cs) s E 0 I Ha) as ((s1 & r) & Y). rewrite Y. eauto.
      + destruct (F KRecord (or_intror eq_refl) (length cs) s E 0 I Ha) as ((s1 & r) & Y). rewrite Y. eauto.
    - destruct H as (bw & cw & A & _). rewrite A. eauto.
    - destruct H as (ks & kw & n0 & A & _). rewrite A. eauto.
    - destruct H as (bw & k & v & c & ts & sig & kd & vd & cd & Ex & A & _ & Ek & Ev & Ec). rewrite A.
      destruct (proper_parts x P) as (b & n0 & Hb). apply record_sizes in Hb. rewrite Ex in Hb, L. cbn [mr_buf] in L.
      destruct Hb as (Lv & Lc & Pk & Pv & Pc & _).
      destruct (IH s E kd _ I Ek Pk ltac:(cbn [extent]; lia)) as ((s1 & r1) & Y1). rewrite Y1.
      destruct (edit_ok R n s E kd _ s1 r1 I Ek Y1) as (E1 & X1 & I1 & _). destruct r1; eauto.
      destruct (IH s1 E1 vd _ I1 (X1 _ _ Ev) Pv ltac:(cbn [extent]; lia)) as ((s2 & r2) & Y2). rewrite Y2.
      destruct (edit_ok R n s1 E1 vd _ s2 r2 I1 (X1 _ _ Ev) Y2) as (E2 & X2 & I2 & _). destruct r2; eauto.
      destruct (IH s2 E2 cd _ I2 (X2 _ _ (X1 _ _ Ec)) Pc ltac:(cbn [extent]; lia)) as ((s3 & r3) & Y3). rewrite Y3.
      destruct r3; eauto.
  Qed.
End Total.

Lemma edit_more n : forall s a y, edit n s a = Some y -> forall n', n <= n' -> edit n' s a = Some y.
Proof.
  induction n as [|n IH]; intros s a y H n' L; [discriminate|]. destruct n' as [|n']; [lia|].
  assert (LL : n <= n') by lia.
  assert (F : forall f todo s i z, edit_from f (edit n) s i todo = Some z -> edit_from f (edit n') s i todo = Some z).
  { intros f. induction todo as [|q IHq]; intros s0 i z; cbn [edit_from]; [auto|].
    destruct (f s0 i) as [s1 [[|c| | | | | |]| |]]; auto.
    destruct (edit n s1 c) as [[s2 r]|] eqn:Q; [|discriminate]. rewrite (IH _ _ _ Q n' LL). destruct r as [x| |]; auto.
    destruct (edit_from f (edit n) s2 (S i) q) as [w|] eqn:W; [|discriminate]. rewrite (IHq _ _ _ W). auto. }
  cbn [edit] in *. destruct (nth_error (s_objs s) a) as [[bw cw [|cs|cs]|bw cw|ks w|bw k v c ts sig]|]; auto.
  - destruct (edit_from _ (edit n) s 0 (length cs)) as [w|] eqn:W; [|discriminate]. rewrite (F _ _ _ _ _ W). exact H.
  - destruct (edit_from _ (edit n) s 0 (length cs)) as [w|] eqn:W; [|discriminate]. rewrite (F _ _ _ _ _ W). exact H.
  - destruct (edit n s k) as [[s1 r1]|] eqn:Q1; [|discriminate]. rewrite (IH _ _ _ Q1 n' LL). destruct r1; auto.
    destruct (edit n s1 v) as [[s2 r2]|] eqn:Q2; [|discriminate]. rewrite (IH _ _ _ Q2 n' LL). destruct r2; auto.
    destruct (edit n s2 c) as [[s3 r3]|] eqn:Q3; [|discriminate]. rewrite (IH _ _ _ Q3 n' LL). exact H.
Qed.

(** ** A copy is made by calls that write nothing *)
Lemma run_app o1 : forall s o2, run s (o1 ++ o2) = let (s1, r1) := run s o1 in let (s2, r2) := run s1 o2 in (s2, r1 ++ r2).
Proof.
  induction o1 as [|x o1 IH]; intros s o2; cbn [app run].
  { destruct (run s o2). reflexivity. }
  destruct (step s x) as [s1 r]. rewrite IH. destruct (run s1 o1) as [s2 r1]. destruct (run s2 o2). reflexivity.
Qed.
Definition by_calls (s s2 : st) : Prop := exists ops, Forall no_write ops /\ fst (run s ops) = s2.
Lemma by_none s : by_calls s s.
Proof. exists []. split; [constructor|reflexivity]. Qed.
Lemma by_one s o s2 r : no_write o -> step s o = (s2, r) -> by_calls s s2.
Proof. intros N H. exists [o]. split; [repeat constructor; exact N|]. cbn [run]. rewrite H. reflexivity. Qed.
Lemma by_trans s1 s2 s3 : by_calls s1 s2 -> by_calls s2 s3 -> by_calls s1 s3.
Proof.
  intros (a & A & <-) (b & B & <-). exists (a ++ b). split; [apply Forall_app; auto|]. rewrite run_app.
  destruct (run s1 a) as [s2 ra]. cbn [fst]. destruct (run s2 b). reflexivity.
Qed.

Lemma edit_from_calls f at_ : (forall s i s1 r, at_ s i = (s1, r) -> by_calls s s1) ->
  (forall s a s2 r, f s a = Some (s2, r) -> by_calls s s2) ->
  forall n s i s2 r, edit_from at_ f s i n = Some (s2, r) -> by_calls s s2.
Proof.
  intros A F. induction n as [|n IH]; intros s i s2 r; cbn [edit_from].
  { intros [= <- <-]. apply by_none. }
  destruct (at_ s i) as [s1 q] eqn:Q. pose proof (A _ _ _ _ Q) as B1.
  assert (Bad : forall z : res (list made), Some (s1, z) = Some (s2, r) -> by_calls s s2) by (intros z [= <- _]; exact B1).
  destruct q as [[|c| | | | | |]| |]; try apply Bad.
  destruct (f s1 c) as [[s3 q]|] eqn:Fc; [|discriminate]. pose proof (by_trans _ _ _ B1 (F _ _ _ _ Fc)) as B3.
  destruct q as [x| |]; try (intros [= <- <-]; exact B3).
  destruct (edit_from at_ f s3 (S i) n) as [[s4 q4]|] eqn:L; [|discriminate]. pose proof (by_trans _ _ _ B3 (IH _ _ _ _ L)) as B4.
  destruct q4; intros [= <- <-]; exact B4.
Qed.
Lemma edit_calls n : forall s a s2 r, edit n s a = Some (s2, r) -> by_calls s s2.
Proof.
  induction n as [|n IH]; intros s a s2 r; cbn [edit]; [discriminate|].
  assert (EB : forall cw, Some (edit_bytes s cw) = Some (s2, r) -> by_calls s s2).
  { intros cw [= <- _]. eapply (by_one s (OMake (rdw (s_mem s) cw))); [intros b i x; discriminate|reflexivity]. }
  destruct (nth_error (s_objs s) a) as [[bw cw [|cs|cs]|bw cw|ks w|bw k v c ts sig]|]; try apply EB; try (intros [= <- <-]; apply by_none).
  - destruct (edit_from _ (edit n) s 0 (length cs)) as [[s1 q]|] eqn:Q; [|discriminate]. intros [= <- _].
    eapply edit_from_calls; [|exact IH|exact Q]. intros s0 i s3 q0 H. eapply by_one; [|exact H]. intros b j x; discriminate.
  - destruct (edit_from _ (edit n) s 0 (length cs)) as [[s1 q]|] eqn:Q; [|discriminate]. intros [= <- _].
    eapply edit_from_calls; [|exact IH|exact Q]. intros s0 i s3 q0 H. eapply by_one; [|exact H]. intros b j x; discriminate.
  - destruct (edit n s k) as [[s1 r1]|] eqn:Q1; [|discriminate]. pose proof (IH _ _ _ _ Q1) as B1.
    destruct r1; try (intros [= <- <-]; exact B1).
    destruct (edit n s1 v) as [[s2' r2]|] eqn:Q2; [|discriminate]. pose proof (by_trans _ _ _ B1 (IH _ _ _ _ Q2)) as B2.
    destruct r2; try (intros [= <- <-]; exact B2).
    destruct (edit n s2' c) as [[s3 r3]|] eqn:Q3; [|discriminate]. pose proof (by_trans _ _ _ B2 (IH _ _ _ _ Q3)) as B3.
    destruct r3; intros [= <- <-]; exact B3.
Qed.

(** ** The memory of a copy *)
Fixpoint covers (n : nat) (tl : list (list byte)) : list win :=
  match tl with [] => [] | b :: tl' => Win n 0 (length b) :: covers (S n) tl' end.
Lemma covers_app n a b : covers n (a ++ b) = covers n a ++ covers (n + length a) b.
Proof.
  revert n. induction a as [|x a IH]; intros n; cbn [app covers length]; [rewrite Nat.add_0_r; reflexivity|].
  rewrite IH. replace (S n + length a) with (n + S (length a)) by lia. reflexivity.
Qed.
Definition owns (s s2 : st) (ws : list win) : Prop := exists tl, s_mem s2 = s_mem s ++ tl /\ ws = covers (length (s_mem s)) tl.
Lemma owns_none s s2 : s_mem s2 = s_mem s -> owns s s2 [].
Proof. intros H. exists []. rewrite app_nil_r. auto. Qed.
Lemma owns_app s1 s2 s3 a b : owns s1 s2 a -> owns s2 s3 b -> owns s1 s3 (a ++ b).
Proof.
  intros (x & X & ->) (y & Y & ->). exists (x ++ y). rewrite Y, X, app_assoc. split; [reflexivity|]. rewrite covers_app, app_length. reflexivity.
Qed.
Lemma edit_from_owns f k a : (forall s c s2 x, f s c = Some (s2, Ok x) -> owns s s2 (byte_slices x)) ->
  forall n s i s2 l, edit_from (fun s i => step s (match k with KValue => OValueAt a i | _ => ORecordAt a i end)) f s i n = Some (s2, Ok l) ->
  owns s s2 (flat_map byte_slices l).
Proof.
  intros F. induction n as [|n IH]; intros s i s2 l; cbn [edit_from].
  { intros [= <- <-]. apply owns_none. reflexivity. }
  destruct (step s (match k with KValue => OValueAt a i | _ => ORecordAt a i end)) as [s1 q] eqn:Q. pose proof (at_memory k s a i s1 q Q) as M1.
  destruct q as [[|c| | | | | |]| |]; try discriminate.
  destruct (f s1 c) as [[s3 q]|] eqn:Fc; [|discriminate]. destruct q as [x| |]; try discriminate.
  destruct (edit_from _ f s3 (S i) n) as [[s4 q4]|] eqn:L; [|discriminate]. destruct q4 as [l'| |]; try discriminate.
  intros [= <- <-]. cbn [flat_map]. eapply owns_app; [|eapply IH; exact L].
  change (byte_slices x) with ([] ++ byte_slices x). eapply owns_app; [apply owns_none, M1|]. eapply F; exact Fc.
Qed.
Lemma edit_owns n : forall s a s2 x, edit n s a = Some (s2, Ok x) -> owns s s2 (byte_slices x).
Proof.
  induction n as [|n IH]; intros s a s2 x; cbn [edit]; [discriminate|].
  assert (EB : forall cw, Some (edit_bytes s cw) = Some (s2, Ok x) -> owns s s2 (byte_slices x)).
  { intros cw [= <- <-]. exists [rdw (s_mem s) cw]. split; reflexivity. }
  destruct (nth_error (s_objs s) a) as [[bw cw [|cs|cs]|bw cw|ks w|bw k v c ts sig]|]; try apply EB; try discriminate.
  - destruct (edit_from _ (edit n) s 0 (length cs)) as [[s1 [l| |]]|] eqn:Q; try discriminate. intros [= <- <-].
    exact (edit_from_owns (edit n) KValue a IH _ _ _ _ _ Q).
  - destruct (edit_from _ (edit n) s 0 (length cs)) as [[s1 [l| |]]|] eqn:Q; try discriminate. intros [= <- <-].
    exact (edit_from_owns (edit n) KRecord a IH _ _ _ _ _ Q).
  - unfold edit_key. destruct (forallb _ ks); [|discriminate]. intros [= <- <-]. apply owns_none. reflexivity.
  - destruct (edit n s k) as [[s1 [k'| |]]|] eqn:Q1; try discriminate.
    destruct (edit n s1 v) as [[s2' [v'| |]]|] eqn:Q2; try discriminate.
    destruct (edit n s2' c) as [[s3 [c'| |]]|] eqn:Q3; try discriminate. intros [= <- <-]. cbn [byte_slices].
    eapply owns_app; [eapply IH; exact Q1|]. eapply owns_app; [eapply IH; exact Q2|]. eapply IH; exact Q3.
Qed.

(** The same, block by block. *)
Lemma covers_nth tl : forall n i w, nth_error (covers n tl) i = Some w -> w = Win (n + i) 0 (length (nth i tl [])).
Proof.
  induction tl as [|b tl IH]; intros n [|i] w; cbn [covers nth_error nth]; try discriminate.
  - intros [= <-]. rewrite Nat.add_0_r. reflexivity.
  - intros H. rewrite (IH _ _ _ H). f_equal. lia.
Qed.
Lemma covers_length tl : forall n, length (covers n tl) = length tl.
Proof. induction tl as [|b tl IH]; intros n; cbn; auto. Qed.

(** ** What later calls do to a copy *)
Lemma step_form s o s2 r : step s o = (s2, r) ->
  (exists tl, s_mem s2 = s_mem s ++ tl) \/ exists b i x, o = OWrite b i x /\ s_mem s2 = upd (s_mem s) b (upd (nth b (s_mem s) []) i x).
Proof.
  intros H.
  assert (SM : s_mem s2 = s_mem s -> exists tl, s_mem s2 = s_mem s ++ tl) by (intros ->; exists []; rewrite app_nil_r; reflexivity).
  assert (CP : forall k bw, as_ref (copy_into k s bw) = (s2, r) -> exists tl, s_mem s2 = s_mem s ++ tl).
  { intros k bw Hc. destruct (copy_into k s bw) as [s1 q] eqn:C. unfold as_ref in Hc. cbn [fst snd] in Hc. injection Hc as <- _.
    destruct (copy_ok k s bw s1 q C) as (-> & _). eauto. }
  destruct o as [x|b' i' y|k w|a|a|a|a|a|a|a j|a j|a p|a].
  2: { cbn [step] in H. destruct (i' <? length (nth b' (s_mem s) [])); injection H as <- _; cbn [s_mem]; [right; eauto 6|left; apply SM; reflexivity]. }
  all: left.
  12: { cbn [step] in H. destruct (nth_error (s_objs s) a) as [[bw cw body|bw cw|ks w|bw k v c ts sig]|]; try (eapply CP; exact H).
    + destruct (new_key_at s w) as [s1 q] eqn:P. unfold no_err, as_ref in H. cbn [fst snd] in H. injection H as <- _.
      destruct (parse_plain KKey _ _ _ _ P) as (E & _). apply SM, E.
    + injection H as <- _. apply SM. reflexivity. }
  10: { cbn [step] in H. apply SM. destruct (nth_error (s_objs s) a) as [[bw cw [|cs|cs]|bw cw|ks w|bw k v c ts sig]|] eqn:Na;
       try (injection H as <- _; reflexivity). apply (at_memory KRecord s a j s2 r). cbn [step]. rewrite Na. exact H. }
  9: { cbn [step] in H. apply SM. destruct (nth_error (s_objs s) a) as [[bw cw [|cs|cs]|bw cw|ks w|bw k v c ts sig]|] eqn:Na;
       try (injection H as <- _; reflexivity). apply (at_memory KValue s a j s2 r). cbn [step]. rewrite Na. exact H. }
  2: { cbn [step] in H. destruct (in_range (s_mem s) w); [|injection H as <- _; apply SM; reflexivity].
       destruct (parse_as k s w) as [s1 q] eqn:P. unfold as_ref in H. cbn [fst snd] in H. injection H as <- _.
       destruct (parse_plain k _ _ _ _ P) as (E & _). apply SM, E. }
  1: { injection H as <- _. exists [x]. reflexivity. }
  all: injection H as <- _; apply SM; reflexivity.
Qed.
Lemma step_keeps R s o s2 r : valid (s_mem s) R -> spares R o -> step s o = (s2, r) -> keeps R (s_mem s) (s_mem s2).
Proof.
  intros V Sp H. destruct (step_form _ _ _ _ H) as [(tl & ->)|(b & i & x & -> & ->)].
  - apply keeps_app, V.
  - apply keeps_write. exact (Sp b i x eq_refl).
Qed.
Lemma run_rdw R ops : forall s s2 rs, valid (s_mem s) R -> Forall (spares R) ops -> run s ops = (s2, rs) -> rdw (s_mem s2) R = rdw (s_mem s) R.
Proof.
  induction ops as [|o ops IH]; intros s s2 rs V Sp; cbn [run]. { intros [= <- <-]. reflexivity. }
  destruct (step s o) as [s1 r] eqn:Q. destruct (run s1 ops) as [s3 rs'] eqn:Q2. intros [= <- <-]. inversion Sp; subst.
  pose proof (step_keeps R s o s1 r V ltac:(assumption) Q) as K.
  rewrite (IH s1 s3 rs' (keeps_valid _ _ _ K V) ltac:(assumption) Q2). apply (keeps_rdw R _ _ R K (inside_refl R)).
Qed.
Lemma later_same x s ops s2 rs : sound (s_mem s) x -> (forall w, In w (slices x) -> Forall (spares w) ops) -> run s ops = (s2, rs) ->
  look (s_mem s2) x = look (s_mem s) x.
Proof.
  intros So Sp H. apply look_same. intros w Hw. apply (run_rdw w ops s s2 rs); [|exact (Sp w Hw)|exact H].
  unfold sound in So. rewrite Forall_forall in So. exact (So w Hw).
Qed.

(** Sub keys of copies. *)
Lemma says_proper a e ops rs d x : proper e -> says a e ops rs d x -> proper x.
Proof.
  intros P H. induction H as [|? ? j b m i c x Hb IH Ho Hr He|? ? j b m i c x Hb IH Ho Hr He|? ? j b r p c Hb IH Ho Hr|? ? j b k c Hb IH Ho Hr]; [exact P| | | |].
  - apply (element_small m KValue i x IH He).
  - apply (element_small m KRecord i x IH He).
  - destruct (proper_parts r IH) as (b0 & n & B). apply record_sizes in B. destruct r as [b' k v c' ts sig], p; cbn [part_of]; apply B.
  - exact IH.
Qed.
Fixpoint keyless (t : shown) : Prop :=
  match t with
  | SBytes _ => True
  | SArray l | SRecords l => (fix go l := match l with [] => True | x :: l' => keyless x /\ go l' end) l
  | SKey ks => ks = []
  | SRecord k v c _ _ => keyless k /\ keyless v /\ keyless c
  end.
Lemma keyless_list l : (fix go l := match l with [] => True | x :: l' => keyless x /\ go l' end) l <-> Forall keyless l.
Proof. induction l as [|x l IH]; [split; auto|]. rewrite IH. split; [intros (A & B); constructor; assumption|intros H; inversion H; auto]. Qed.
Lemma keyless_slices M x : keyless (look M x) -> key_slices x = [].
Proof.
  induction x as [w|l IH|l IH|ks|k v c ts sig IHk IHv IHc] using made_ind'; cbn [look key_slices keyless]; try reflexivity.
  - rewrite keyless_list. intros H. induction IH as [|y l Hy Hl IHl]; [reflexivity|]. inversion H; subst. cbn [flat_map]. rewrite Hy, IHl by assumption. reflexivity.
  - rewrite keyless_list. intros H. induction IH as [|y l Hy Hl IHl]; [reflexivity|]. inversion H; subst. cbn [flat_map]. rewrite Hy, IHl by assumption. reflexivity.
  - apply map_eq_nil.
  - intros (A & B & C). rewrite IHk, IHv, IHc by assumption. reflexivity.
Qed.
Lemma contents_keyless e t : contents e t -> proper e -> (forall k, e = RKey k -> ikey_keys k = []) -> keyless t.
Proof.
  revert e t. apply (contents_mind (fun e t _ => proper e -> (forall k, e = RKey k -> ikey_keys k = []) -> keyless t)
    (fun m k i n l _ => proper (RVal m) -> Forall keyless l)).
  - intros m B _ _. exact Logic.I.
  - intros b c _ _. exact Logic.I.
  - intros m cs l B C IH P _. cbn [keyless]. apply keyless_list, IH, P.
  - intros m cs l B C IH P _. cbn [keyless]. apply keyless_list, IH, P.
  - intros k ks K N P H. cbn [keyless]. rewrite <- K, (H k eq_refl). reflexivity.
  - intros r b k v c ts sig k' v' c' E Ck IHk Cv IHv Cc IHc P _. destruct (proper_parts r P) as (b0 & n & B). apply record_sizes in B.
    rewrite E in *. destruct B as (_ & _ & Pk & Pv & Pc & Nk). cbn [part_of] in *. cbn [keyless]. split; [|split].
    + apply IHk; [exact Pk|]. intros q [= <-]. exact Nk.
    + apply IHv; [exact Pv|discriminate].
    + apply IHc; [exact Pc|discriminate].
  - constructor.
  - intros m k i n e t l He Ct IHt Cl IHl P. destruct (element_small m k i e P He) as (_ & Pe). constructor; [|apply IHl, P].
    apply IHt; [exact Pe|]. intros q ->. destruct (element_in _ _ _ _ He) as (N & [-> | ->]); destruct (nth_in_reads _ _ _ _ N) as (b & Hb); cbn [reads] in Hb.
    + destruct (new_std_value b) as [[? ?]| |]; discriminate.
    + destruct (new_mapped_record b) as [[? ?]| |]; discriminate.
Qed.
