(** * Shapes and bytes determine each other. *)
From Coq Require Import List NArith ZArith Lia Bool.
From Coq Require Import Strings.Byte.
From Verif Require Import Base BaseProofs EndianModel VarintSpec KeySpec KeyModel ValueModel ValueSpec ValueProofs ShapeSpec.
Import ListNotations.
Local Open Scope Z_scope.

Inductive swire : shape -> bytes -> Prop :=
| swire_prim d l : wire (TPrim d) l -> swire (SPrim d) l
| swire_arr m n ts c sc sf lc lf :
    n <> O -> swires ts c -> count_field (N.of_nat n) sc sf -> count_field (N.of_nat (length c)) lc lf ->
    Byte.to_N m = (64 * sc + lc)%N -> swire (SArr n ts) (m :: sf ++ lf ++ c)
| swire_recs m ts c sc sf lc lf :
    ts <> [] -> srwires ts c -> count_field (N.of_nat (length ts)) sc sf -> count_field (N.of_nat (length c)) lc lf ->
    Byte.to_N m = (16 * sc + lc)%N -> swire (SRecs ts) (m :: sf ++ lf ++ c)
with swires : list shape -> bytes -> Prop :=
| swires_nil : swires [] []
| swires_cons t ts a b : swire t a -> swires ts b -> swires (t :: ts) (a ++ b)
with srwire : rshape -> bytes -> Prop :=
| srwire_rec m k v s t kb vb sb tb :
    key_wire k kb -> sowire v vb -> sowire s sb -> tail_wire t tb -> tail_ok t ->
    Byte.to_N m = (bit k 64 + bit v 32 + bit s 16 + bit t 4 + bit (has_sig t) 2)%N ->
    srwire (SRec k v s t) (m :: kb ++ vb ++ sb ++ tb)
with srwires : list rshape -> bytes -> Prop :=
| srwires_nil : srwires [] []
| srwires_cons t ts a b : srwire t a -> srwires ts b -> srwires (t :: ts) (a ++ b)
with sowire : option shape -> bytes -> Prop :=
| sowire_none : sowire None []
| sowire_some t l : swire t l -> sowire (Some t) l.

Scheme swire_mind := Induction for swire Sort Prop
with swires_mind := Induction for swires Sort Prop
with srwire_mind := Induction for srwire Sort Prop
with srwires_mind := Induction for srwires Sort Prop
with sowire_mind := Induction for sowire Sort Prop.
Combined Scheme swire_combined from swire_mind, swires_mind, srwire_mind, srwires_mind, sowire_mind.
Scheme stands_mind := Induction for stands Sort Prop
with stands_all_mind := Induction for stands_all Sort Prop
with rstands_mind := Induction for rstands Sort Prop
with rstands_all_mind := Induction for rstands_all Sort Prop
with ostands_mind := Induction for ostands Sort Prop.
Combined Scheme stands_combined from stands_mind, stands_all_mind, rstands_mind, rstands_all_mind, ostands_mind.

Lemma stands_not_empty v t : stands v t -> ~ empty_value v -> value_is_nil v = false.
Proof.
  intros [d|e|e|e l ts Hl _|e l ts Hl _] N; simpl.
  - destruct d; [|reflexivity]. destruct N. constructor.
  - destruct N. constructor.
  - destruct N. constructor.
  - destruct l; [contradiction|reflexivity].
  - destruct l; [contradiction|reflexivity].
Qed.
Lemma empty_wire b : Ok [x00] = Ok b <-> swire (SPrim []) b.
Proof.
  assert (wire (TPrim []) [x00]) as W by (apply prim_encode_wire; reflexivity). split.
  - intros H. inv H. now constructor.
  - intros H. inversion H as [d l W' E1 E2| |]; subst. apply prim_encode_wire in W'. exact W'.
Qed.
Lemma tail_says_ok t a b tt : tail_says t a b tt -> tail_ok tt.
Proof. intros T. destruct T; simpl; auto. Qed.

Lemma encode_swire :
  (forall v t, stands v t -> forall b, value_encode v = Ok b <-> swire t b) /\
  (forall l ts, stands_all l ts -> forall b, encode_values l = Ok b <-> swires ts b) /\
  (forall r t, rstands r t -> forall b, record_encode r = Ok b <-> srwire t b) /\
  (forall l ts, rstands_all l ts -> length l = length ts /\ forall b, encode_records l = Ok b <-> srwires ts b) /\
  (forall o t, ostands o t ->
     (forall w w' b, opt_part o w = Ok (w', b) -> w' = bit t w /\ sowire t b) /\
     (forall w b, sowire t b -> opt_part o w = Ok (bit t w, b))).
Proof.
  apply stands_combined.
  - intros d b. cbn [value_encode]. rewrite prim_encode_wire. split; [now constructor|]. intros H. now inversion H.
  - intros e b. exact (empty_wire b).
  - intros e b. exact (empty_wire b).
  - intros e l ts Hl S IH b. rewrite value_encode_arr.
    destruct (N.lt_ge_cases (N.of_nat (length l)) 65536) as [C|C].
    2:{ rewrite (size_header_big 6 _ C). cbn [rbind]. split; [intros Q; discriminate Q|]. intros W.
        inversion W as [|m n ts' c sc sf lc lf Hts Ws F1 F2 Em E1 E2|]; subst. pose proof (count_bound _ _ _ F1). lia. }
    destruct (size_header_spec 6 _ C) as (sc & sf & F & ->). cbn [rbind]. split.
    + intros H. destruct (encode_values l) as [c| |] eqn:E; try discriminate. cbn [rbind] in H.
      destruct (N.lt_ge_cases (N.of_nat (length c)) 65536) as [Cc|Cc]; [|rewrite with_content_big in H by assumption; discriminate].
      destruct (with_content_spec (N.shiftl sc 6) sf c Cc) as (lc & lf & Fl & W). rewrite W in H. inv H.
      apply swire_arr with (sc := sc) (lc := lc); auto.
      * destruct l; [contradiction|discriminate].
      * now apply IH.
      * apply magic_lor6; eapply count_code; eassumption.
    + intros W. inversion W as [|m n ts' c sc' sf' lc lf Hts Ws F1 F2 Em E1 E2|]; subst.
      apply IH in Ws. rewrite Ws. cbn [rbind]. destruct (count_fun _ _ _ _ _ F F1) as [<- <-].
      destruct (with_content_spec (N.shiftl sc 6) sf c (count_bound _ _ _ F2)) as (lc' & lf' & Fl & ->).
      destruct (count_fun _ _ _ _ _ F2 Fl) as [<- <-]. do 2 f_equal. apply b2n_inj. unfold b2n at 2. rewrite Em.
      apply magic_lor6; eapply count_code; eassumption.
  - intros e l ts Hl S (Len & IH) b. rewrite value_encode_recs.
    destruct (N.lt_ge_cases (N.of_nat (length l)) 65536) as [C|C].
    2:{ rewrite (size_header_big 4 _ C). cbn [rbind]. split; [intros Q; discriminate Q|]. intros W.
        inversion W as [| |m ts' c sc sf lc lf Hts Ws F1 F2 Em E1 E2]; subst. pose proof (count_bound _ _ _ F1). rewrite <- Len in *. lia. }
    destruct (size_header_spec 4 _ C) as (sc & sf & F & ->). cbn [rbind]. split.
    + intros H. destruct (encode_records l) as [c| |] eqn:E; try discriminate. cbn [rbind] in H.
      destruct (N.lt_ge_cases (N.of_nat (length c)) 65536) as [Cc|Cc]; [|rewrite with_content_big in H by assumption; discriminate].
      destruct (with_content_spec (N.shiftl sc 4) sf c Cc) as (lc & lf & Fl & W). rewrite W in H. inv H.
      apply swire_recs with (sc := sc) (lc := lc); auto.
      * intros ->. destruct l; [contradiction|discriminate Len].
      * now apply IH.
      * rewrite <- Len. assumption.
      * apply magic_lor4; eapply count_code; eassumption.
    + intros W. inversion W as [| |m ts' c sc' sf' lc lf Hts Ws F1 F2 Em E1 E2]; subst.
      apply IH in Ws. rewrite Ws. cbn [rbind]. rewrite <- Len in F1. destruct (count_fun _ _ _ _ _ F F1) as [<- <-].
      destruct (with_content_spec (N.shiftl sc 4) sf c (count_bound _ _ _ F2)) as (lc' & lf' & Fl & ->).
      destruct (count_fun _ _ _ _ _ F2 Fl) as [<- <-]. do 2 f_equal. apply b2n_inj. unfold b2n at 2. rewrite Em.
      apply magic_lor4; eapply count_code; eassumption.
  - intros b. cbn [encode_values]. split; intros H; inv H; constructor.
  - intros l ts S IH b. cbn [encode_values value_encode prim_encode rbind]. rewrite <- IH.
    destruct (encode_values l); cbn [rbind app]; reflexivity.
  - intros v t l ts S IHv Sl IHl b. cbn [encode_values]. split.
    + intros H. destruct (value_encode v) as [x| |] eqn:E; try discriminate. cbn [rbind] in H.
      destruct (encode_values l) as [y| |] eqn:E'; try discriminate. cbn [rbind] in H. inv H.
      constructor; [now apply IHv|now apply IHl].
    + intros W. inversion W as [|t' ts' x y Wx Wy E1 E2]; subst. apply IHv in Wx. apply IHl in Wy.
      rewrite Wx. cbn [rbind]. rewrite Wy. reflexivity.
  - intros e k v s ts a b tk tv tsch tt K Sv (IHv1 & IHv2) Ss (IHs1 & IHs2) T l. rewrite record_encode_parts.
    destruct (key_part_wire k tk K) as (K1 & K2). destruct (tail_part_wire _ _ _ _ T) as (T1 & T2).
    pose proof (tail_says_ok _ _ _ _ T) as TO.
    destruct (tail_part ts a b) as [tb tbytes] eqn:ET. cbn [fst snd] in T1, T2.
    assert (tb = 0 \/ tb = 4 \/ tb = 6)%N as Htb.
    { rewrite T1. destruct tt as [[ns [p|]]|]; cbn [bit has_sig]; lia. }
    change (N.shiftl 1 5) with 32%N. change (N.shiftl 1 4) with 16%N. split.
    + intros H. destruct (key_part k) as [[kb kbytes]| |] eqn:EK; try discriminate. cbn [rbind] in H.
      destruct (opt_part v _) as [[vb vbytes]| |] eqn:EV; try discriminate. cbn [rbind] in H.
      destruct (opt_part s _) as [[sb sbytes]| |] eqn:ES; try discriminate. cbn [rbind] in H. inv H.
      destruct (K1 _ _ eq_refl) as (-> & KW). destruct (IHv1 _ _ _ EV) as (-> & VW). destruct (IHs1 _ _ _ ES) as (-> & SW).
      constructor; auto; [now apply T2|].
      change Byte.to_N with b2n. rewrite (record_magic _ _ _ _ Htb). lia.
    + intros W. inversion W as [m k' v' s' t' kb vb sb tbs KW VW SW TW TK Em E1 E2]; subst.
      rewrite (K2 _ KW). cbn [rbind]. rewrite (IHv2 _ _ VW). cbn [rbind]. rewrite (IHs2 _ _ SW). cbn [rbind].
      apply T2 in TW. subst tbytes. do 2 f_equal. apply b2n_inj. unfold b2n at 2. rewrite Em.
      rewrite (record_magic _ _ _ _ Htb). lia.
  - split; [reflexivity|]. intros b. cbn [encode_records]. split; intros H; inv H; constructor.
  - intros v t l ts S IHv Sl (Len & IHl). split; [simpl; now rewrite Len|]. intros b. cbn [encode_records]. split.
    + intros H. destruct (record_encode v) as [x| |] eqn:E; try discriminate. cbn [rbind] in H.
      destruct (encode_records l) as [y| |] eqn:E'; try discriminate. cbn [rbind] in H. inv H.
      constructor; [now apply IHv|now apply IHl].
    + intros W. inversion W as [|t' ts' x y Wx Wy E1 E2]; subst. apply IHv in Wx. apply IHl in Wy.
      rewrite Wx. cbn [rbind]. rewrite Wy. reflexivity.
  - split; [intros w w' b H; inv H; split; [reflexivity|constructor]|]. intros w b H. inv H. reflexivity.
  - intros v E. unfold opt_part. rewrite (empty_value_nil _ E).
    split; [intros w w' b H; inv H; split; [reflexivity|constructor]|]. intros w b H. inv H. reflexivity.
  - intros v t S IH Ne. unfold opt_part. rewrite (stands_not_empty _ _ S Ne). split.
    + intros w w' b H. destruct (value_encode v) as [x| |] eqn:E; try discriminate. cbn [rbind] in H. inv H.
      split; [reflexivity|]. constructor. now apply IH.
    + intros w b H. inversion H as [|t' l W]; subst. apply IH in W. rewrite W. reflexivity.
Qed.

Lemma prim_head d l : wire (TPrim d) l -> exists m rest, l = m :: rest /\ (Byte.to_N m < 3)%N.
Proof. intros W. inversion W as [m d' lc lf F Em E1 E2| |]; subst. pose proof (count_code _ _ _ F). exists m, (lf ++ d). split; [reflexivity|]. assumption. Qed.
Lemma swire_nonempty t l : swire t l -> l <> [].
Proof. intros [d l' W| |]; [|discriminate|discriminate]. destruct (prim_head _ _ W) as (m & rest & -> & _). discriminate. Qed.

Lemma swire_prefix_free :
  (forall t l, swire t l -> forall t' l' s s', swire t' l' -> l ++ s = l' ++ s' -> t = t' /\ l = l' /\ s = s') /\
  (forall ts l, swires ts l -> forall ts', swires ts' l -> ts = ts') /\
  (forall t l, srwire t l -> forall t' l' s s', srwire t' l' -> l ++ s = l' ++ s' -> t = t' /\ l = l' /\ s = s') /\
  (forall ts l, srwires ts l -> forall ts', srwires ts' l -> ts = ts') /\
  (forall o l, sowire o l -> forall o' l' s s', sowire o' l' -> bit o 1 = bit o' 1 -> l ++ s = l' ++ s' -> o = o' /\ l = l' /\ s = s').
Proof.
  assert (forall A (l : list A), l <> [] -> N.of_nat (length l) <> 0%N) as Ne
    by (intros A [|a l] H; [contradiction|simpl; lia]).
  apply swire_combined.
  - intros d l W t' l' s s' W' E. destruct (prim_head _ _ W) as (m & rest & El & Hm).
    inversion W' as [d' l0 W0 E1 E2|m' n' ts' c' sc' sf' lc' lf' Hn' Ws' F1' F2' Em' E1 E2|m' ts' c' sc' sf' lc' lf' Hn' Ws' F1' F2' Em' E1 E2]; subst t' l'.
    + destruct (proj1 wire_prefix_free _ _ W (tok_prim _) _ _ s s' (tok_prim _) W0 E) as (Q & -> & ->). inv Q. auto.
    + rewrite El in E. simpl in E. injection E as <- E. exfalso. pose proof (count_nonzero _ _ _ F1'). lia.
    + rewrite El in E. simpl in E. injection E as <- E. exfalso. pose proof (count_nonzero _ _ _ F1' (Ne _ _ Hn')). lia.
  - intros m n ts c sc sf lc lf Hn Ws IH F1 F2 Em t' l' s s' W' E.
    pose proof (count_code _ _ _ F1). pose proof (count_code _ _ _ F2). pose proof (count_nonzero _ _ _ F1).
    inversion W' as [d' l0 W0 E1 E2|m' n' ts' c' sc' sf' lc' lf' Hn' Ws' F1' F2' Em' E1 E2|m' ts' c' sc' sf' lc' lf' Hn' Ws' F1' F2' Em' E1 E2]; subst t' l'.
    + destruct (prim_head _ _ W0) as (m' & rest & -> & Hm). simpl in E. injection E as <- E. exfalso. lia.
    + simpl in E; injection E as <- E. pose proof (count_code _ _ _ F1'). pose proof (count_code _ _ _ F2').
      assert (sc' = sc) as -> by lia. assert (lc' = lc) as -> by lia. rewrite <- !app_assoc in E.
      destruct (count_prefix _ _ _ _ _ _ _ F1 F1' E) as (L1 & -> & E').
      destruct (count_prefix _ _ _ _ _ _ _ F2 F2' E') as (L2 & -> & E''). apply Nat2N.inj in L1. apply Nat2N.inj in L2. subst n'.
      destruct (app_same_length _ _ _ _ E'' L2) as (-> & ->). rewrite (IH _ Ws'). auto.
    + simpl in E; injection E as <- E. exfalso. pose proof (count_code _ _ _ F1'). pose proof (count_code _ _ _ F2'). lia.
  - intros m ts c sc sf lc lf Hn Ws IH F1 F2 Em t' l' s s' W' E.
    pose proof (count_code _ _ _ F1). pose proof (count_code _ _ _ F2). pose proof (count_nonzero _ _ _ F1 (Ne _ _ Hn)).
    inversion W' as [d' l0 W0 E1 E2|m' n' ts' c' sc' sf' lc' lf' Hn' Ws' F1' F2' Em' E1 E2|m' ts' c' sc' sf' lc' lf' Hn' Ws' F1' F2' Em' E1 E2]; subst t' l'.
    + destruct (prim_head _ _ W0) as (m' & rest & -> & Hm). simpl in E. injection E as <- E. exfalso. lia.
    + simpl in E; injection E as <- E. exfalso. pose proof (count_nonzero _ _ _ F1'). pose proof (count_code _ _ _ F1'). pose proof (count_code _ _ _ F2'). lia.
    + simpl in E; injection E as <- E. pose proof (count_code _ _ _ F1'). pose proof (count_code _ _ _ F2').
      assert (sc' = sc) as -> by lia. assert (lc' = lc) as -> by lia. rewrite <- !app_assoc in E.
      destruct (count_prefix _ _ _ _ _ _ _ F1 F1' E) as (L1 & -> & E').
      destruct (count_prefix _ _ _ _ _ _ _ F2 F2' E') as (L2 & -> & E''). apply Nat2N.inj in L2.
      destruct (app_same_length _ _ _ _ E'' L2) as (-> & ->). rewrite (IH _ Ws'). auto.
  - intros ts' W'. inversion W' as [|t' ts0 a' b' Wa Wb E1 E2]; subst; [reflexivity|]. apply app_eq_nil in E2. destruct E2 as (-> & _).
    destruct (swire_nonempty _ _ Wa). reflexivity.
  - intros t ts a b W IH Ws IHs ts' W'. inversion W' as [E1 E2|t' ts0 a' b' Wa Wb E1 E2]; subst.
    + symmetry in E2. apply app_eq_nil in E2. destruct E2 as (-> & _). destruct (swire_nonempty _ _ W). reflexivity.
    + destruct (IH _ _ b b' Wa (eq_sym E2)) as (-> & -> & ->). now rewrite (IHs _ Wb).
  - intros m k v s t kb vb sb tb KW VW IHv SW IHs TW TK Em t' l' s0 s0' W' E.
    inversion W' as [m' k' v' s' t0 kb' vb' sb' tb' KW' VW' SW' TW' TK' Em' E1 E2]; subst.
    simpl in E. injection E as <- E. rewrite Em in Em'. apply record_bits in Em'. destruct Em' as (B1 & B2 & B3 & B4 & B5).
    rewrite <- !app_assoc in E.
    destruct (key_wire_prefix _ _ _ _ _ _ KW KW' B1 E) as (-> & -> & E').
    destruct (IHv _ _ _ _ VW' B2 E') as (-> & -> & E'').
    destruct (IHs _ _ _ _ SW' B3 E'') as (-> & -> & E3).
    destruct (tail_wire_prefix _ _ _ _ _ _ TK TK' TW TW' B4 B5 E3) as (-> & -> & ->). auto.
  - intros ts' W'. inversion W' as [|t' ts0 a' b' Wa Wb E1 E2]; subst; [reflexivity|]. apply app_eq_nil in E2. destruct E2 as (-> & _). inv Wa.
  - intros t ts a b W IH Ws IHs ts' W'. inversion W' as [E1 E2|t' ts0 a' b' Wa Wb E1 E2]; subst.
    + symmetry in E2. apply app_eq_nil in E2. destruct E2 as (-> & _). inv W.
    + destruct (IH _ _ b b' Wa (eq_sym E2)) as (-> & -> & ->). now rewrite (IHs _ Wb).
  - intros o' l' s s' W' B E. inv W'; [auto|discriminate].
  - intros t l W IH o' l' s s' W' B E. inversion W' as [|t' l0 W0]; subst; [discriminate|].
    destruct (IH _ _ _ _ W0 E) as (-> & -> & ->). auto.
Qed.

Scheme fit_mind := Minimality for fit Sort Prop
with rfit_mind := Minimality for rfit Sort Prop.
Combined Scheme fit_combined from fit_mind, rfit_mind.
Lemma fit_stands :
  (forall v, fit v -> v = VPrim None \/ exists t, stands v t) /\ (forall r, rfit r -> exists t, rstands r t).
Proof.
  assert (forall v : option value, (forall x, v = Some x -> x = VPrim None \/ exists t, stands x t) -> exists t, ostands v t) as O.
  { intros [v|] H; [|exists None; constructor]. specialize (H v eq_refl).
    destruct (value_is_nil v) eqn:E.
    - exists None. constructor. destruct H as [->|(t & S)]; [constructor|]. inversion S; subst; cbn [value_is_nil gcontent] in E; try constructor.
      + destruct d; [constructor|discriminate].
      + destruct l; [contradiction|discriminate].
      + destruct l; [contradiction|discriminate].
    - destruct H as [->|(t & S)]; [discriminate|]. exists (Some t). constructor; [exact S|]. intros C. apply empty_value_nil in C. congruence. }
  apply fit_combined.
  - intros [d|]; [right; eexists; constructor|now left].
  - intros e l _ IH. right. destruct l as [|v0 l0] eqn:El; [eexists; constructor|]. rewrite <- El in *.
    assert (exists ts, stands_all l ts) as (ts & S).
    { clear El. induction l as [|v l IHl]; [exists []; constructor|]. destruct IHl as (ts & S); [intros; apply IH; now right|].
      destruct (IH v (or_introl eq_refl)) as [->|(t & T)]; [exists ts; now constructor|exists (t :: ts); now constructor]. }
    exists (SArr (length l) ts). constructor; [rewrite El; discriminate|exact S].
  - intros e l _ IH. right. destruct l as [|v0 l0] eqn:El; [eexists; constructor|]. rewrite <- El in *.
    assert (exists ts, rstands_all l ts) as (ts & S).
    { clear El. induction l as [|v l IHl]; [exists []; constructor|]. destruct IHl as (ts & S); [intros; apply IH; now right|].
      destruct (IH v (or_introl eq_refl)) as (t & T). exists (t :: ts); now constructor. }
    exists (SRecs ts). constructor; [rewrite El; discriminate|exact S].
  - intros e k v s ts a b tk tt K T _ IHv _ IHs. destruct (O v IHv) as (tv & Sv). destruct (O s IHs) as (ts' & Ss).
    exists (SRec tk tv ts' tt). now constructor.
Qed.
