(** * Lemmas about objects that share memory. *)
From Coq Require Import List NArith ZArith Bool Lia.
From Coq Require Import Strings.Byte.
From Verif Require Import Base BaseProofs VarintModel KeyModel ValueModel ValueProofs ObjModel ObjSpec.
Import ListNotations.

(** ** Heaps *)
Lemma upd_length {A} (l : list A) i x : length (upd l i x) = length l.
Proof. revert i. induction l; intros [|i]; simpl; auto. Qed.
Lemma upd_same {A} (l : list A) i x : i < length l -> nth_error (upd l i x) i = Some x.
Proof. revert i. induction l; intros [|i]; simpl; intros; try lia; auto. apply IHl. lia. Qed.
Lemma upd_other {A} (l : list A) i j x : i <> j -> nth_error (upd l i x) j = nth_error l j.
Proof. revert i j. induction l; intros [|i] [|j]; simpl; intros; try lia; auto. Qed.
Lemma get_lt h a o : get h a = Some o -> a < length (objs h).
Proof. intros H. apply nth_error_Some. unfold get in H. congruence. Qed.
Lemma get_put h a o o' : get h a = Some o -> get (put h a o') a = Some o'.
Proof. intros H. apply upd_same. eapply get_lt; eauto. Qed.
Lemma get_put_other h a b o : a <> b -> get (put h a o) b = get h b.
Proof. intros. now apply upd_other. Qed.

Lemma rd_mono h h' s more : mem h' = mem h ++ more -> slice_ok h s = true -> rd h' s = rd h s.
Proof.
  intros E. destruct s as [s|]; [|reflexivity]. simpl. rewrite andb_true_iff, Nat.ltb_lt. intros [L _].
  rewrite E, app_nth1 by assumption. reflexivity.
Qed.
Lemma slice_ok_mono h h' s more : mem h' = mem h ++ more -> slice_ok h s = true -> slice_ok h' s = true.
Proof.
  intros E. destruct s as [s|]; [|reflexivity]. simpl. rewrite !andb_true_iff, !Nat.ltb_lt, E, app_length. intros [L B].
  rewrite app_nth1 by assumption. split; [lia|assumption].
Qed.

Lemma same_refl h : same h h.
Proof. split; [exists []; now rewrite app_nil_r|]. split; eauto. Qed.
Lemma same_trans h1 h2 h3 : same h1 h2 -> same h2 h3 -> same h1 h3.
Proof.
  intros ((m & E) & L & G) ((m' & E') & L' & G'). split; [exists (m ++ m'); now rewrite E', E, app_assoc|].
  split; [congruence|]. intros a o H. destruct (G _ _ H) as (o1 & H1 & B1). destruct (G' _ _ H1) as (o2 & H2 & B2).
  exists o2. split; congruence.
Qed.
Lemma same_none h h' a : same h h' -> get h a = None -> get h' a = None.
Proof. intros (_ & L & _) H. apply nth_error_None. apply nth_error_None in H. lia. Qed.

Lemma bare_slices o o' s : bare o' = bare o -> In s (match o with OPrim _ _ d => [d] | OKeyObj _ ks _ _ => ks | _ => [] end) ->
  In s (slices_of o').
Proof. destruct o, o'; simpl; intros E; try discriminate; try contradiction; inv E; simpl; intuition. Qed.

Lemma opt_all_ext {A B} (f g : A -> option B) l : (forall x, f x = g x) -> opt_all f l = opt_all g l.
Proof. intros E. induction l as [|x l IH]; simpl; [reflexivity|]. now rewrite E, IH. Qed.
Lemma opt_part_ext {A B} (f g : A -> option B) p : (forall x, f x = g x) -> ObjSpec.opt_part f p = ObjSpec.opt_part g p.
Proof. intros E. destruct p; simpl; [now rewrite E|reflexivity]. Qed.

Lemma same_rd h h' a o s : sound h -> same h h' -> get h a = Some o -> In s (slices_of o) -> rd h' s = rd h s.
Proof. intros S ((m & E) & _) G I. eapply rd_mono; eauto. Qed.
Lemma same_kview h h' a : sound h -> same h h' -> kview h' a = kview h a.
Proof.
  intros S E. unfold kview. destruct (get h a) as [o|] eqn:G.
  - destruct E as ((m & M) & L & K). destruct (K _ _ G) as (o' & G' & B). rewrite G'.
    destruct o, o'; simpl in B; try discriminate; inv B; try reflexivity.
    do 2 f_equal. apply map_ext_in. intros s I. eapply rd_mono; eauto. eapply S; [exact G|]. simpl. auto.
  - now rewrite (same_none _ _ _ E G).
Qed.
Lemma same_view n : forall h h' a, sound h -> same h h' -> vview n h' a = vview n h a /\ rview n h' a = rview n h a.
Proof.
  induction n as [|n IH]; intros h h' a S E; [now split|]. cbn [vview rview].
  assert (forall x, vview n h' x = vview n h x) as Ev by (intros; now apply IH).
  assert (forall x, rview n h' x = rview n h x) as Er by (intros; now apply IH).
  assert (forall x, kview h' x = kview h x) as Ek by (intros; now apply same_kview).
  destruct (get h a) as [o|] eqn:G.
  - assert (same h h') as E0 by exact E. destruct E as ((m & M) & L & K). destruct (K _ _ G) as (o' & G' & B). rewrite G'.
    destruct o, o'; simpl in B; try discriminate; inv B; try now split.
    + split; [|reflexivity]. do 2 f_equal. eapply rd_mono; eauto. eapply S; [exact G|]. simpl. auto.
    + split; [|reflexivity]. f_equal. now apply opt_all_ext.
    + split; [|reflexivity]. f_equal. now apply opt_all_ext.
    + split; [reflexivity|]. now rewrite (opt_part_ext _ _ _ Ek), !(opt_part_ext _ _ _ Ev).
  - rewrite (same_none _ _ _ E G). now split.
Qed.
Lemma same_vview n h h' a : sound h -> same h h' -> vview n h' a = vview n h a.
Proof. intros. now apply same_view. Qed.
Lemma same_rview n h h' a : sound h -> same h h' -> rview n h' a = rview n h a.
Proof. intros. now apply same_view. Qed.
Lemma same_is_nil h h' a : sound h -> same h h' -> is_nil_of h' a = is_nil_of h a.
Proof.
  intros S E. unfold is_nil_of. destruct (get h a) as [o|] eqn:G.
  - destruct E as ((m & M) & L & K). destruct (K _ _ G) as (o' & G' & B). rewrite G'.
    destruct o, o'; simpl in B; try discriminate; inv B; try reflexivity.
    f_equal. f_equal. f_equal. eapply rd_mono; eauto. eapply S; [exact G|]. simpl. auto.
  - now rewrite (same_none _ _ _ E G).
Qed.

(** More fuel shows the same. *)
Lemma opt_all_mono {A B} (f g : A -> option B) l r : (forall x y, f x = Some y -> g x = Some y) -> opt_all f l = Some r ->
  opt_all g l = Some r.
Proof.
  intros E. revert r. induction l as [|x l IH]; simpl; intros r H; [assumption|].
  destruct (f x) as [y|] eqn:F; [|discriminate]. destruct (opt_all f l) as [ys|]; [|discriminate].
  rewrite (E _ _ F), (IH _ eq_refl). assumption.
Qed.
Lemma opt_part_mono {A B} (f g : A -> option B) p r : (forall x y, f x = Some y -> g x = Some y) -> ObjSpec.opt_part f p = Some r ->
  ObjSpec.opt_part g p = Some r.
Proof.
  intros E. destruct p as [x|]; simpl; [|auto]. destruct (f x) as [y|] eqn:F; [|discriminate]. now rewrite (E _ _ F).
Qed.
Lemma view_fuel n : forall h a, (forall v, vview n h a = Some v -> vview (S n) h a = Some v) /\
  (forall r, rview n h a = Some r -> rview (S n) h a = Some r).
Proof.
  induction n as [|n IH]; intros h a; [split; discriminate|].
  split; intros v H.
  - cbn [vview] in H. change (vview (S (S n)) h a) with
      (match get h a with
       | Some (OPrim _ _ d) => Some (VPrim (rd h d))
       | Some (OArr _ _ _ l) => option_map (VArr 0) (opt_all (vview (S n) h) l)
       | Some (ORecs _ _ _ l) => option_map (VRecs 0) (opt_all (rview (S n) h) l)
       | Some (OStd m) => Some (VStd m)
       | Some (OSimple b c) => Some (VSimple b c)
       | _ => None
       end).
    destruct (get h a) as [[]|]; try assumption.
    + destruct (opt_all (vview n h) elems) eqn:O; [|discriminate].
      erewrite (opt_all_mono (vview n h)); [exact H| |exact O]. intros x y. apply IH.
    + destruct (opt_all (rview n h) elems) eqn:O; [|discriminate].
      erewrite (opt_all_mono (rview n h)); [exact H| |exact O]. intros x y. apply IH.
  - cbn [rview] in H. change (rview (S (S n)) h a) with
      (match get h a with
       | Some (ORec _ _ _ k v s t sr ss) =>
           match ObjSpec.opt_part (kview h) k, ObjSpec.opt_part (vview (S n) h) v, ObjSpec.opt_part (vview (S n) h) s with
           | Some k', Some v', Some s' => Some (Rec (0, 0, 0)%Z k' v' s' t sr ss)
           | _, _, _ => None
           end
       | Some (OMapped r) => Some (RMapped r)
       | _ => None
       end).
    destruct (get h a) as [[]|]; try assumption.
    destruct (ObjSpec.opt_part (kview h) key); [|discriminate].
    destruct (ObjSpec.opt_part (vview n h) val) eqn:O1; [|discriminate].
    destruct (ObjSpec.opt_part (vview n h) scheme) eqn:O2; [|discriminate].
    erewrite (opt_part_mono (vview n h) _ val); [| |exact O1]; [|intros x y; apply IH].
    erewrite (opt_part_mono (vview n h) _ scheme); [| |exact O2]; [|intros x y; apply IH]. exact H.
Qed.
Lemma vview_mono n m h a v : n <= m -> vview n h a = Some v -> vview m h a = Some v.
Proof. induction 1; auto. intros. apply view_fuel. auto. Qed.
Lemma rview_mono n m h a v : n <= m -> rview n h a = Some v -> rview m h a = Some v.
Proof. induction 1; auto. intros. apply view_fuel. auto. Qed.

(** ** Writing a cache *)
Definition cached (o : obj) (s : slc) : Prop :=
  is_parsed o = false /\ obj_encoded o = true /\ obj_slice o = Some s.
Lemma write_cache h a o b o' : sound h -> get h a = Some o -> bare o' = bare o ->
  cached o' (Sl (length (mem h)) 0 (length b)) ->
  let h' := put (fst (new_block h b)) a o' in
  same h h' /\ sound h' /\ buf_of h' a = Ok (Some b) /\ (forall x, x <> a -> get h' x = get h x) /\ get h' a = Some o'.
Proof.
  intros S G B (P & En & Sl) h'. 
  assert (mem h' = mem h ++ [b]) as M by reflexivity.
  assert (get h' a = Some o') as G' by (eapply get_put; exact G).
  assert (forall x, x <> a -> get h' x = get h x) as Go by (intros x Hx; unfold h'; rewrite get_put_other by auto; reflexivity).
  assert (slice_ok h' (Some (ObjModel.Sl (length (mem h)) 0 (length b))) = true) as K.
  { simpl. rewrite app_length, andb_true_iff, Nat.ltb_lt, Nat.leb_le. simpl. split; [lia|].
    rewrite app_nth2, Nat.sub_diag by lia. simpl. lia. }
  assert (forall s, In s (slices_of o') -> slice_ok h' s = true) as Ko.
  { intros s I. destruct (option_map (fun _ => tt) s) eqn:Es; [|destruct s; [discriminate|reflexivity]].
    assert (s = obj_slice o' \/ In s (match o with OPrim _ _ d => [d] | OKeyObj _ ks _ _ => ks | _ => [] end)) as [-> | I'].
    { clear - I B P. destruct o, o'; simpl in B; try discriminate; inv B; simpl in *; try discriminate; intuition. }
    - rewrite Sl. exact K.
    - eapply slice_ok_mono; [exact M|]. eapply S; [exact G|]. apply (bare_slices o); [reflexivity|assumption]. }
  split; [|split; [|split; [|split]]].
  - split; [eexists; exact M|]. split; [apply upd_length|]. intros x ox Hx.
    destruct (Nat.eq_dec x a) as [-> |N].
    + rewrite G in Hx. inv Hx. eauto.
    + rewrite Go by assumption. eauto.
  - intros x ox s Hx I. destruct (Nat.eq_dec x a) as [-> |N].
    + rewrite G' in Hx. inv Hx. auto.
    + rewrite Go in Hx by assumption. eapply slice_ok_mono; [exact M|]. eapply S; eauto.
  - unfold buf_of. rewrite G'.
    assert (obj_buf h' o' = if obj_encoded o' then Ok (rd h' (obj_slice o')) else Panic) as -> by (destruct o'; try discriminate; reflexivity).
    rewrite En, Sl. simpl. rewrite app_nth2, Nat.sub_diag by lia. simpl. now rewrite firstn_all.
  - assumption.
  - assumption.
Qed.

(** What is current stays so when only other caches change. *)
Lemma current_mono h h' x : sound h -> same h h' -> get h' x = get h x -> current h x -> current h' x.
Proof.
  intros S E G C.
  assert (buf_of h' x = buf_of h x) as Bf.
  { unfold buf_of. rewrite G. destruct (get h x) as [o|] eqn:Gx; [|reflexivity].
    assert (forall s, In s (slices_of o) -> rd h' s = rd h s) as R by (intros; eapply same_rd; eauto).
    destruct o; simpl in *; try reflexivity; rewrite R by auto; reflexivity. }
  destruct C as [(n & v & b & g & V & C & B & Eg)|[(n & v & b & g & V & C & B & Eg)|(ks & b & (e & bf & est & K) & C & B)]].
  - left. exists n, v, b, g. rewrite (same_vview n _ _ _ S E), Bf. auto.
  - right; left. exists n, v, b, g. rewrite (same_rview n _ _ _ S E), Bf. auto.
  - right; right. exists ks, b. rewrite Bf. split; [exists e, bf, est; congruence|]. split; [|assumption].
    rewrite <- C. f_equal. apply map_ext_in. intros s I. eapply same_rd; eauto. simpl. auto.
Qed.

Definition extends (h h' : heap) : Prop := same h h' /\ sound h' /\ forall x, get h' x = get h x \/ current h' x.
Lemma extends_refl h : sound h -> extends h h.
Proof. intros. split; [apply same_refl|]. split; auto. Qed.
Lemma extends_trans h1 h2 h3 : sound h1 -> extends h1 h2 -> extends h2 h3 -> extends h1 h3.
Proof.
  intros S (E & S2 & C) (E' & S3 & C'). split; [eapply same_trans; eauto|]. split; [assumption|].
  intros x. destruct (C' x) as [G|Cx]; [|auto]. destruct (C x) as [G1|Cx]; [left; congruence|].
  right. apply (current_mono h2); assumption.
Qed.

(** ** Encode

    [view1] reads one step deeper than [view2]: a part that is skipped because it is empty takes no fuel. *)
Definition enc_spec {A} (enc : heap -> ref -> option (heap * res unit)) (view1 view2 : heap -> ref -> option A)
    (code : A -> res bytes) : Prop :=
  (forall h x h' r, sound h -> enc h x = Some (h', r) ->
     extends h h' /\
     (r = Ok tt -> exists y b g, view1 h x = Some y /\ code y = Ok b /\ buf_of h' x = Ok g /\ gcontent g = b)) /\
  (forall h x y, sound h -> view2 h x = Some y ->
     exists h' r, enc h x = Some (h', r) /\ r = rmap (fun _ => tt) (code y)) /\
  (forall h x y, view2 h x = Some y -> view1 h x = Some y).
Definition stable {A} (view : heap -> ref -> option A) : Prop :=
  forall h h' x, sound h -> same h h' -> view h' x = view h x.
Fixpoint code_all {A} (code : A -> res bytes) (l : list A) : res bytes :=
  match l with [] => Ok [] | x :: l' => let? b := code x in let? r := code_all code l' in Ok (b ++ r) end.

Lemma enc_all_spec {A} enc (view1 view2 : heap -> ref -> option A) code :
  enc_spec enc view1 view2 code -> stable view1 -> stable view2 ->
  (forall l h h' r, sound h -> enc_all enc h l = Some (h', r) ->
     extends h h' /\ (forall c, r = Ok c -> exists ys, opt_all (view1 h) l = Some ys /\ code_all code ys = Ok c)) /\
  (forall l h ys, sound h -> opt_all (view2 h) l = Some ys ->
     exists h' r, enc_all enc h l = Some (h', r) /\ r = code_all code ys).
Proof.
  intros (SP & TO & MO) ST1 ST2. split.
  - induction l as [|x l IH]; intros h h' r S H; simpl in H.
    + inv H. split; [now apply extends_refl|]. intros c Hc. inv Hc. exists []. auto.
    + destruct (enc h x) as [[h1 [u| |]]|] eqn:En; try discriminate.
      * destruct u. destruct (SP _ _ _ _ S En) as (X1 & K). destruct (K eq_refl) as (y & b & g & Vy & Cy & Bg & Eg).
        rewrite Bg in H. pose proof X1 as (E1 & S1 & C1).
        destruct (enc_all enc h1 l) as [[h2 [c| |]]|] eqn:Rest; try discriminate; inv H; destruct (IH _ _ _ S1 Rest) as (X2 & K2).
        -- split; [exact (extends_trans _ _ _ S X1 X2)|]. intros c0 Hc. inv Hc.
           destruct (K2 _ eq_refl) as (ys & Vs & Cs). exists (y :: ys). simpl. rewrite Vy.
           rewrite (opt_all_ext (view1 h) (view1 h1)) by (intros; symmetry; now apply ST1). rewrite Vs. split; [reflexivity|].
           rewrite Cy. cbn [rbind]. rewrite Cs. reflexivity.
        -- split; [exact (extends_trans _ _ _ S X1 X2)|discriminate].
        -- split; [exact (extends_trans _ _ _ S X1 X2)|discriminate].
      * inv H. destruct (SP _ _ _ _ S En). split; [assumption|discriminate].
      * inv H. destruct (SP _ _ _ _ S En). split; [assumption|discriminate].
  - induction l as [|x l IH]; intros h ys S V; simpl in V.
    + inv V. exists h, (Ok []). auto.
    + destruct (view2 h x) as [y|] eqn:Vx; [|discriminate]. destruct (opt_all (view2 h) l) as [yl|] eqn:Vl; [|discriminate].
      inv V. simpl. destruct (TO _ _ _ S Vx) as (h1 & r & En & Er). rewrite En.
      destruct (SP _ _ _ _ S En) as ((E1 & S1 & C1) & K). pose proof (MO _ _ _ Vx) as Vx1.
      destruct (code y) as [b| |] eqn:Cy; cbn [rmap rbind] in Er; subst r; cbn [rbind].
      * destruct (K eq_refl) as (y' & b' & g & Vy & Cy' & Bg & Eg). rewrite Vx1 in Vy. inv Vy. rewrite Cy in Cy'. inv Cy'.
        rewrite Bg. destruct (IH h1 yl S1) as (h2 & r2 & E2 & Er2).
        { rewrite (opt_all_ext (view2 h1) (view2 h)); [assumption|]. intros. now apply ST2. }
        rewrite E2. subst r2. destruct (code_all code yl) as [c| |]; cbn [rbind]; eauto.
      * eauto.
      * eauto.
Qed.
Definition part_code {A} (skipv : A -> bool) (code : A -> res bytes) (y : option A) : res (bool * bytes) :=
  match y with None => Ok (false, []) | Some v => if skipv v then Ok (false, []) else rmap (pair true) (code v) end.
Lemma enc_part_spec {A} skip enc (view1 view2 : heap -> ref -> option A) code (skipv : A -> bool) :
  enc_spec enc view1 view2 code ->
  (forall h x y, view1 h x = Some y -> skip h x = Ok (skipv y)) ->
  (forall h x, skip h x = Ok true -> exists y, view1 h x = Some y) ->
  (forall p h h' r, sound h -> enc_part skip enc h p = Some (h', r) ->
     extends h h' /\ (forall c, r = Ok c -> exists y, ObjSpec.opt_part (view1 h) p = Some y /\ part_code skipv code y = Ok c)) /\
  (forall p h y, sound h -> ObjSpec.opt_part (view2 h) p = Some y ->
     exists h' r, enc_part skip enc h p = Some (h', r) /\ r = part_code skipv code y).
Proof.
  intros (SP & TO & MO) SK SV. split.
  - intros [x|] h h' r S H; simpl in H.
    + destruct (skip h x) as [[]| |] eqn:Sk.
      * inv H. split; [now apply extends_refl|]. intros c Hc. inv Hc. simpl.
        destruct (SV _ _ Sk) as (y & Vy). rewrite Vy. exists (Some y). split; [reflexivity|].
        rewrite (SK _ _ _ Vy) in Sk. inv Sk. simpl. now rewrite H0.
      * destruct (enc h x) as [[h1 [u| |]]|] eqn:En; try discriminate.
        -- destruct u. destruct (SP _ _ _ _ S En) as (X1 & K). destruct (K eq_refl) as (y & b & g & Vy & Cy & Bg & Eg).
           rewrite Bg in H. inv H. split; [assumption|]. intros c Hc. inv Hc. simpl. rewrite Vy.
           exists (Some y). split; [reflexivity|]. rewrite (SK _ _ _ Vy) in Sk. inv Sk. simpl. rewrite H0, Cy. reflexivity.
        -- inv H. destruct (SP _ _ _ _ S En). split; [assumption|discriminate].
        -- inv H. destruct (SP _ _ _ _ S En). split; [assumption|discriminate].
      * inv H. split; [now apply extends_refl|discriminate].
      * inv H. split; [now apply extends_refl|discriminate].
    + inv H. split; [now apply extends_refl|]. intros c Hc. inv Hc. exists None. auto.
  - intros [x|] h y S V; simpl in V.
    + destruct (view2 h x) as [v|] eqn:Vx; [|discriminate]. inv V. simpl. pose proof (MO _ _ _ Vx) as Vx1.
      rewrite (SK _ _ _ Vx1). destruct (skipv v) eqn:Ks; [eauto|].
      destruct (TO _ _ _ S Vx) as (h1 & r & En & Er). rewrite En.
      destruct (SP _ _ _ _ S En) as (X1 & K).
      destruct (code v) as [b| |] eqn:Cy; cbn [rmap rbind] in Er; subst r; cbn [rmap rbind]; eauto.
      destruct (K eq_refl) as (y' & b' & g & Vy & Cy' & Bg & Eg). rewrite Vx1 in Vy. inv Vy. rewrite Cy in Cy'. inv Cy'.
      rewrite Bg. eauto.
    + inv V. simpl. eauto.
Qed.

(** Keys. *)
Definition key_code (k : ikey) : res bytes := let? k' := key_encode k in let? b := ikey_buf k' in Ok (gcontent b).
Lemma key_enc_spec : enc_spec (fun h x => Some (key_enc h x)) kview kview key_code.
Proof.
  split; [|split; [|auto]].
  - intros h x h' r S H. injection H as H. unfold key_enc in H. unfold kview. destruct (get h x) as [o|] eqn:G.
    + destruct o; try (inv H; split; [now apply extends_refl|discriminate]).
      * destruct (encode_keys (map (rd h) keys)) as [b| |] eqn:En.
        -- simpl in H. inv H.
           destruct (write_cache h x _ b (OKeyObj true keys (Some (Sl (length (mem h)) 0 (length b))) (zlen b)) S G eq_refl)
             as (E & S' & Bf & Go & G'); [now repeat split|]. simpl in E, S', Bf, Go, G'.
           assert (extends h (put {| mem := mem h ++ [b]; objs := objs h |} x
              (OKeyObj true keys (Some {| sl_blk := length (mem h); sl_off := 0; sl_len := length b |}) (zlen b)))) as X.
           { split; [assumption|]. split; [assumption|]. intros y. destruct (Nat.eq_dec y x) as [-> |N]; [|auto].
             right. right. right. exists keys, b. split; [do 3 eexists; exact G'|]. split; [|assumption].
             rewrite <- En. f_equal. apply map_ext_in. intros s I. eapply same_rd; eauto. simpl. auto. }
           split; [assumption|]. intros _. exists (KKey false (map (rd h) keys) None 0), b, (Some b).
           split; [reflexivity|]. split; [|split; [assumption|reflexivity]].
           unfold key_code. simpl. rewrite En. reflexivity.
        -- inv H. split; [now apply extends_refl|discriminate].
        -- inv H. split; [now apply extends_refl|discriminate].
      * inv H. split; [now apply extends_refl|]. intros _. unfold buf_of. rewrite G. exists KEmpty, [x00], (Some [x00]).
        repeat split.
      * inv H. split; [now apply extends_refl|]. intros _. unfold buf_of. rewrite G.
        unfold key_code. simpl. destruct buf as [|b0 buf]; [|destruct keys]; do 3 eexists; repeat split; reflexivity.
    + inv H. split; [now apply extends_refl|discriminate].
  - intros h x y S V. unfold kview in V. exists (fst (key_enc h x)), (snd (key_enc h x)).
    split; [now destruct (key_enc h x)|]. unfold key_enc.
    destruct (get h x) as [[]|] eqn:G; try discriminate; inv V.
    + unfold key_code. simpl. destruct (encode_keys (map (rd h) keys)) as [b| |]; reflexivity.
    + reflexivity.
    + unfold key_code. simpl. destruct buf as [|b0 buf]; [|destruct keys]; reflexivity.
Qed.

Lemma kview_empty h x y : kview h x = Some y -> is_empty_of h x = Ok (ikey_is_empty y).
Proof.
  unfold kview, is_empty_of. destruct (get h x) as [[]|]; intros H; inv H; try reflexivity. now destruct keys.
Qed.
Lemma empty_kview h x : is_empty_of h x = Ok true -> exists y, kview h x = Some y.
Proof. unfold kview, is_empty_of. destruct (get h x) as [[]|]; intros H; inv H; eauto. Qed.
Lemma opt_all_nil {A B} (f : A -> option B) l r : opt_all f l = Some r ->
  match l with [] => true | _ => false end = match r with [] => true | _ => false end.
Proof.
  destruct l as [|x l]; simpl; intros H; [now inv H|]. destruct (f x), (opt_all f l); try discriminate. now inv H.
Qed.
Lemma opt_all_length {A B} (f : A -> option B) l r : opt_all f l = Some r -> length r = length l.
Proof.
  revert r. induction l as [|x l IH]; simpl; intros r H; [now inv H|].
  destruct (f x), (opt_all f l) eqn:E; try discriminate. inv H. simpl. auto.
Qed.
Lemma vview_nil n h x y : vview n h x = Some y -> is_nil_of h x = Ok (value_is_nil y).
Proof.
  destruct n; [discriminate|]. cbn [vview]. unfold is_nil_of. destruct (get h x) as [[]|]; intros H; inv H; try reflexivity.
  - destruct (opt_all (vview n h) elems) eqn:O; [|discriminate]. inv H1. simpl. now rewrite (opt_all_nil _ _ _ O).
  - destruct (opt_all (rview n h) elems) eqn:O; [|discriminate]. inv H1. simpl. now rewrite (opt_all_nil _ _ _ O).
Qed.
Lemma nil_vview n h x : is_nil_of h x = Ok true -> exists y, vview (S n) h x = Some y.
Proof.
  cbn [vview]. unfold is_nil_of. destruct (get h x) as [[]|]; intros H; inv H; eauto; destruct elems; try discriminate; simpl; eauto.
Qed.

Lemma code_all_values l : code_all value_encode l = encode_values l.
Proof. induction l as [|x l IH]; simpl; [reflexivity|]. now rewrite IH. Qed.
Lemma code_all_records l : code_all record_encode l = encode_records l.
Proof. induction l as [|x l IH]; simpl; [reflexivity|]. now rewrite IH. Qed.

(** The whole of Encode. *)
Lemma extends_cache h1 h2 a o b o' : sound h1 -> extends h1 h2 -> get h1 a = Some o -> bare o' = bare o ->
  cached o' (Sl (length (mem h2)) 0 (length b)) ->
  let h' := put (fst (new_block h2 b)) a o' in
  (same h1 h' -> sound h' -> buf_of h' a = Ok (Some b) -> current h' a) ->
  extends h1 h' /\ buf_of h' a = Ok (Some b).
Proof.
  intros S X G B C h' Cur. pose proof X as (E & S2 & C2).
  destruct E as (M & L & K). destruct (K _ _ G) as (o2 & G2 & B2).
  destruct (write_cache h2 a o2 b o' S2 G2) as (E' & S' & Bf & Go & G'); [congruence|assumption|].
  fold h' in E', S', Bf, Go, G'. split; [|assumption].
  assert (same h1 h') as E1 by (eapply same_trans; [|exact E']; now repeat split).
  split; [assumption|]. split; [assumption|]. intros x. destruct (Nat.eq_dec x a) as [-> |N].
  - right. auto.
  - destruct (C2 x) as [Gx|Cx]; [left; rewrite Go by assumption; assumption|].
    right. apply (current_mono h2); auto.
Qed.
Lemma stable_vview n : stable (vview n).
Proof. intros h h' x. apply same_vview. Qed.
Lemma stable_rview n : stable (rview n).
Proof. intros h h' x. apply same_rview. Qed.
Lemma part_code_key k : key_part k = rmap (fun p : bool * bytes => (part_bit (fst p) 6, snd p)) (part_code ikey_is_empty key_code k).
Proof.
  destruct k as [k|]; [|reflexivity]. simpl. destruct (ikey_is_empty k); [reflexivity|].
  unfold key_code. destruct (key_encode k) as [k'| |]; cbn [rbind rmap]; try reflexivity.
  destruct (ikey_buf k') as [b| |]; reflexivity.
Qed.
Lemma part_code_val v w : ValueProofs.opt_part v (N.shiftl 1 w) =
  rmap (fun p : bool * bytes => (part_bit (fst p) w, snd p)) (part_code value_is_nil value_encode v).
Proof.
  destruct v as [v|]; [|reflexivity]. simpl. destruct (value_is_nil v); [reflexivity|].
  destruct (value_encode v) as [b| |]; reflexivity.
Qed.

Lemma enc_correct n : enc_spec (venc n) (vview (S n)) (vview n) value_encode /\ enc_spec (renc n) (rview (S n)) (rview n) record_encode.
Proof.
  induction n as [|n [IHv IHr]].
  { split; (split; [|split]); intros; try discriminate. }
  destruct (enc_all_spec _ _ _ _ IHv (stable_vview _) (stable_vview _)) as (AV & TV).
  destruct (enc_all_spec _ _ _ _ IHr (stable_rview _) (stable_rview _)) as (AR & TR).
  destruct (enc_part_spec is_empty_of _ _ _ _ ikey_is_empty key_enc_spec kview_empty empty_kview) as (PK & TK).
  destruct (enc_part_spec is_nil_of _ _ _ _ value_is_nil IHv (vview_nil (S n)) (nil_vview n)) as (PV & TVp).
  assert (forall h a h' r, sound h -> venc (S n) h a = Some (h', r) -> extends h h' /\
     (r = Ok tt -> exists y b g, vview (S (S n)) h a = Some y /\ value_encode y = Ok b /\ buf_of h' a = Ok g /\ gcontent g = b)) as V1.
  { intros h a h' r S H. cbn [venc] in H.
    destruct (get h a) as [o|] eqn:G; [|inv H; split; [now apply extends_refl|discriminate]].
    destruct o; try (inv H; split; [now apply extends_refl|discriminate]).
    - destruct data as [d|].
      + destruct (prim_encode (rd h (Some d))) as [b| |] eqn:P; try (inv H; split; [now apply extends_refl|discriminate]).
        simpl new_block in H. cbn iota in H. injection H as <- <-.
        destruct (extends_cache h h a _ b (OPrim true (Some (Sl (length (mem h)) 0 (length b))) (Some d)) S (extends_refl _ S) G eq_refl)
          as (X & Bf); [now repeat split| |].
        * intros E S' Bf. left. exists 1, (VPrim (rd h (Some d))), b, (Some b).
          split; [|now repeat split]. rewrite (same_vview 1 _ _ _ S E). cbn [vview]. now rewrite G.
        * split; [exact X|]. intros _. exists (VPrim (rd h (Some d))), b, (Some b). cbn [vview]. rewrite G. now repeat split.
      + simpl in H. injection H as <- <-.
        assert (same h (put h a (OPrim true None None))) as E.
        { split; [exists []; now rewrite app_nil_r|]. split; [apply upd_length|]. intros x ox Hx.
          destruct (Nat.eq_dec x a) as [-> |N].
          - rewrite (get_put _ _ _ _ G). rewrite G in Hx. inv Hx. eauto.
          - rewrite get_put_other by auto. eauto. }
        assert (buf_of (put h a (OPrim true None None)) a = Ok None) as Bf by (unfold buf_of; now rewrite (get_put _ _ _ _ G)).
        split.
        * split; [exact E|]. split.
          -- intros x ox s Hx I. apply (slice_ok_mono h _ s []); [now rewrite app_nil_r|].
             destruct (Nat.eq_dec x a) as [-> |N].
             ++ rewrite (get_put _ _ _ _ G) in Hx. inv Hx. simpl in I. destruct I as [<- |[<- |[]]]; reflexivity.
             ++ rewrite get_put_other in Hx by auto. eapply S; eauto.
          -- intros x. destruct (Nat.eq_dec x a) as [-> |N]; [|left; now apply get_put_other; auto].
             right. left. exists 1, (VPrim None), [], None. cbn [vview]. rewrite (get_put _ _ _ _ G). now repeat split.
        * intros _. exists (VPrim None), [], None. cbn [vview]. rewrite G. now repeat split.
    - destruct (size_header 6 (length elems)) as [[magic sizes]| |] eqn:Hd; try (inv H; split; [now apply extends_refl|discriminate]).
      destruct (enc_all (venc n) h elems) as [[h1 [c| |]]|] eqn:All; try discriminate; destruct (AV _ _ _ _ S All) as (X & K);
        try (inv H; split; [assumption|discriminate]).
      destruct (K _ eq_refl) as (ys & Vs & Cs). rewrite code_all_values in Cs.
      destruct (with_content magic sizes c) as [b| |] eqn:W; try (inv H; split; [assumption|discriminate]).
      simpl new_block in H. cbn iota in H. injection H as <- <-.
      assert (vview (Datatypes.S (Datatypes.S n)) h a = Some (VArr 0 ys)) as V.
      { change (vview (Datatypes.S (Datatypes.S n)) h a) with (match get h a with
          | Some (OPrim _ _ d) => Some (VPrim (rd h d))
          | Some (OArr _ _ _ l) => option_map (VArr 0) (opt_all (vview (Datatypes.S n) h) l)
          | Some (ORecs _ _ _ l) => option_map (VRecs 0) (opt_all (rview (Datatypes.S n) h) l)
          | Some (OStd m) => Some (VStd m)
          | Some (OSimple b c) => Some (VSimple b c)
          | _ => None
          end). rewrite G, Vs. reflexivity. }
      assert (value_encode (VArr 0 ys) = Ok b) as Cb.
      { rewrite value_encode_arr, (opt_all_length _ _ _ Vs), Hd. cbn [rbind]. rewrite Cs. exact W. }
      destruct (extends_cache h h1 a _ b (OArr true (Some (Sl (length (mem h1)) 0 (length b))) (zlen b) elems) S X G eq_refl)
        as (X' & Bf); [now repeat split| |].
      + intros E S' Bf. left. exists (Datatypes.S (Datatypes.S n)), (VArr 0 ys), b, (Some b).
        rewrite (same_vview _ _ _ _ S E). now repeat split.
      + split; [exact X'|]. intros _. exists (VArr 0 ys), b, (Some b). now repeat split.
    - destruct (size_header 4 (length elems)) as [[magic sizes]| |] eqn:Hd; try (inv H; split; [now apply extends_refl|discriminate]).
      destruct (enc_all (renc n) h elems) as [[h1 [c| |]]|] eqn:All; try discriminate; destruct (AR _ _ _ _ S All) as (X & K);
        try (inv H; split; [assumption|discriminate]).
      destruct (K _ eq_refl) as (ys & Vs & Cs). rewrite code_all_records in Cs.
      destruct (with_content magic sizes c) as [b| |] eqn:W; try (inv H; split; [assumption|discriminate]).
      simpl new_block in H. cbn iota in H. injection H as <- <-.
      assert (vview (Datatypes.S (Datatypes.S n)) h a = Some (VRecs 0 ys)) as V.
      { change (vview (Datatypes.S (Datatypes.S n)) h a) with (match get h a with
          | Some (OPrim _ _ d) => Some (VPrim (rd h d))
          | Some (OArr _ _ _ l) => option_map (VArr 0) (opt_all (vview (Datatypes.S n) h) l)
          | Some (ORecs _ _ _ l) => option_map (VRecs 0) (opt_all (rview (Datatypes.S n) h) l)
          | Some (OStd m) => Some (VStd m)
          | Some (OSimple b c) => Some (VSimple b c)
          | _ => None
          end). rewrite G, Vs. reflexivity. }
      assert (value_encode (VRecs 0 ys) = Ok b) as Cb.
      { rewrite value_encode_recs, (opt_all_length _ _ _ Vs), Hd. cbn [rbind]. rewrite Cs. exact W. }
      destruct (extends_cache h h1 a _ b (ORecs true (Some (Sl (length (mem h1)) 0 (length b))) est elems) S X G eq_refl)
        as (X' & Bf); [now repeat split| |].
      + intros E S' Bf. left. exists (Datatypes.S (Datatypes.S n)), (VRecs 0 ys), b, (Some b).
        rewrite (same_vview _ _ _ _ S E). now repeat split.
      + split; [exact X'|]. intros _. exists (VRecs 0 ys), b, (Some b). now repeat split. }
  assert (forall h a h' r, sound h -> renc (S n) h a = Some (h', r) -> extends h h' /\
     (r = Ok tt -> exists y b g, rview (S (S n)) h a = Some y /\ record_encode y = Ok b /\ buf_of h' a = Ok g /\ gcontent g = b)) as R1.
  { intros h a h' r S H. cbn [renc] in H.
    destruct (get h a) as [o|] eqn:G; [|inv H; split; [now apply extends_refl|discriminate]].
    destruct o; try (inv H; split; [now apply extends_refl|discriminate]).
    destruct (enc_part is_empty_of (fun h x => Some (key_enc h x)) h key) as [[h1 [[kb kbytes]| |]]|] eqn:K1; try discriminate;
      destruct (PK _ _ _ _ S K1) as (X1 & Y1); try (inv H; split; [assumption|discriminate]).
    pose proof X1 as (E1 & S1 & _).
    destruct (enc_part is_nil_of (venc n) h1 val) as [[h2 [[vb vbytes]| |]]|] eqn:K2; try discriminate;
      destruct (PV _ _ _ _ S1 K2) as (X2 & Y2); pose proof (extends_trans _ _ _ S X1 X2) as X12;
      try (inv H; split; [assumption|discriminate]).
    pose proof X12 as (E12 & S2 & _).
    destruct (enc_part is_nil_of (venc n) h2 scheme) as [[h3 [[sb sbytes]| |]]|] eqn:K3; try discriminate;
      destruct (PV _ _ _ _ S2 K3) as (X3 & Y3); pose proof (extends_trans _ _ _ S X12 X3) as X123;
      try (inv H; split; [assumption|discriminate]).
    destruct (Y1 _ eq_refl) as (k' & Vk & Ck). destruct (Y2 _ eq_refl) as (v' & Vv & Cv). destruct (Y3 _ eq_refl) as (s' & Vs & Cs).
    rewrite (opt_part_ext _ (vview (Datatypes.S n) h)) in Vv by (intros; now apply same_vview).
    rewrite (opt_part_ext _ (vview (Datatypes.S n) h)) in Vs by (intros; now apply same_vview).
    destruct (tail_part ts sig_r sig_s) as [tb tbytes] eqn:Tl.
    simpl new_block in H. cbn iota zeta in H. injection H as <- <-.
    set (b := n2b _ :: _) in *.
    assert (rview (Datatypes.S (Datatypes.S n)) h a = Some (Rec (0, 0, 0)%Z k' v' s' ts sig_r sig_s)) as V.
    { change (rview (Datatypes.S (Datatypes.S n)) h a) with (match get h a with
       | Some (ORec _ _ _ k v s t sr ss) =>
           match ObjSpec.opt_part (kview h) k, ObjSpec.opt_part (vview (Datatypes.S n) h) v, ObjSpec.opt_part (vview (Datatypes.S n) h) s with
           | Some k', Some v', Some s' => Some (Rec (0, 0, 0)%Z k' v' s' t sr ss)
           | _, _, _ => None
           end
       | Some (OMapped r) => Some (RMapped r)
       | _ => None
       end). rewrite G, Vk, Vv, Vs. reflexivity. }
    assert (record_encode (Rec (0, 0, 0)%Z k' v' s' ts sig_r sig_s) = Ok b) as Cb.
    { rewrite record_encode_parts, part_code_key, Ck. cbn [rmap rbind fst snd].
      rewrite part_code_val, Cv. cbn [rmap rbind fst snd]. rewrite part_code_val, Cs. cbn [rmap rbind fst snd].
      rewrite Tl. reflexivity. }
    destruct (extends_cache h h3 a _ b (ORec true (Some (Sl (length (mem h3)) 0 (length b))) est key val scheme ts sig_r sig_s) S X123 G eq_refl)
      as (X' & Bf); [now repeat split| |].
    - intros E S' Bf. right. left. exists (Datatypes.S (Datatypes.S n)), (Rec (0, 0, 0)%Z k' v' s' ts sig_r sig_s), b, (Some b).
      rewrite (same_rview _ _ _ _ S E). now repeat split.
    - split; [exact X'|]. intros _. exists (Rec (0, 0, 0)%Z k' v' s' ts sig_r sig_s), b, (Some b). now repeat split. }
  split.
  - split; [exact V1|]. split; [|intros; now apply view_fuel].
    intros h a y S V. cbn [vview] in V. cbn [venc].
    destruct (get h a) as [[]|] eqn:G; try discriminate.
    + inv V. cbn [value_encode]. destruct data as [d|]; [|simpl; eauto].
      destruct (prim_encode (rd h (Some d))); simpl; eauto.
    + destruct (opt_all (vview n h) elems) as [ys|] eqn:O; [|discriminate]. inv V.
      destruct (TV _ _ _ S O) as (h1 & r & En & Er). rewrite code_all_values in Er. rewrite En. subst r.
      rewrite value_encode_arr, (opt_all_length _ _ _ O).
      destruct (size_header 6 (length elems)) as [[magic sizes]| |] eqn:Hd; cbn [rbind rmap]; eauto.
      * destruct (encode_values ys) as [c| |]; cbn [rbind rmap]; eauto.
        destruct (with_content magic sizes c); simpl; eauto.
      * exfalso. clear - Hd. unfold size_header in Hd.
        repeat match type of Hd with context [if ?c then _ else _] => destruct c end; discriminate.
    + destruct (opt_all (rview n h) elems) as [ys|] eqn:O; [|discriminate]. inv V.
      destruct (TR _ _ _ S O) as (h1 & r & En & Er). rewrite code_all_records in Er. rewrite En. subst r.
      rewrite value_encode_recs, (opt_all_length _ _ _ O).
      destruct (size_header 4 (length elems)) as [[magic sizes]| |] eqn:Hd; cbn [rbind rmap]; eauto.
      * destruct (encode_records ys) as [c| |]; cbn [rbind rmap]; eauto.
        destruct (with_content magic sizes c); simpl; eauto.
      * exfalso. clear - Hd. unfold size_header in Hd.
        repeat match type of Hd with context [if ?c then _ else _] => destruct c end; discriminate.
    + inv V. simpl. eauto.
    + inv V. simpl. eauto.
  - split; [exact R1|]. split; [|intros; now apply view_fuel].
    intros h a y S V. cbn [rview] in V. cbn [renc].
    destruct (get h a) as [[]|] eqn:G; try discriminate.
    + destruct (ObjSpec.opt_part (kview h) key) as [k'|] eqn:Vk; [|discriminate].
      destruct (ObjSpec.opt_part (vview n h) val) as [v'|] eqn:Vv; [|discriminate].
      destruct (ObjSpec.opt_part (vview n h) scheme) as [s'|] eqn:Vs; [|discriminate]. inv V.
      rewrite record_encode_parts, part_code_key, !part_code_val.
      destruct (TK _ _ _ S Vk) as (h1 & r1 & K1 & Er1). rewrite K1.
      destruct (PK _ _ _ _ S K1) as (X1 & _). pose proof X1 as (E1 & S1 & _). subst r1.
      destruct (part_code ikey_is_empty key_code k') as [[kb kbytes]| |]; cbn [rbind rmap fst snd]; eauto.
      destruct (TVp val h1 v' S1) as (h2 & r2 & K2 & Er2).
      { rewrite (opt_part_ext _ (vview n h)) by (intros; now apply same_vview). assumption. }
      rewrite K2. destruct (PV _ _ _ _ S1 K2) as (X2 & _). pose proof (extends_trans _ _ _ S X1 X2) as (E2 & S2 & _). subst r2.
      destruct (part_code value_is_nil value_encode v') as [[vb vbytes]| |]; cbn [rbind rmap fst snd]; eauto.
      destruct (TVp scheme h2 s' S2) as (h3 & r3 & K3 & Er3).
      { rewrite (opt_part_ext _ (vview n h)) by (intros; now apply same_vview). assumption. }
      rewrite K3. subst r3.
      destruct (part_code value_is_nil value_encode s') as [[sb sbytes]| |]; cbn [rbind rmap fst snd]; eauto.
      destruct (tail_part ts sig_r sig_s) as [tb tbytes]. do 2 eexists. split; reflexivity.
    + inv V. simpl. eauto.
Qed.
