(** * Final theorems about single calls on objects that share memory (C89). *)
From Coq Require Import List NArith ZArith Bool Lia.
From Coq Require Import Strings.Byte.
From Verif Require Import Base BaseProofs VarintModel KeyModel ValueModel ValueProofs ValueCopy ObjModel ObjSpec ObjProofs
  ObjHistory ObjFrame ObjCopy.
Import ListNotations.

(** A slice reads the bytes of its block from its offset on. *)
Lemma rd_exact h s : slice_ok h (Some s) = true -> exists l, rd h (Some s) = Some l /\ length l = sl_len s /\
  forall i, (i < sl_len s)%nat -> nth_error l i = byte_at h (sl_blk s) (sl_off s + i).
Proof.
  cbn [slice_ok rd]. intros H. apply andb_true_iff in H. destruct H as (H1 & H2). apply Nat.ltb_lt in H1. apply Nat.leb_le in H2.
  eexists. split; [reflexivity|]. split; [rewrite firstn_length, skipn_length; lia|]. intros i Hi. unfold byte_at.
  destruct (nth_error (mem h) (sl_blk s)) as [b|] eqn:E; [|apply nth_error_None in E; unfold bytes in *; lia].
  rewrite (nth_error_nth _ _ _ E). clear - Hi. revert Hi. generalize (sl_len s) (sl_off s). intros n o. revert b i n.
  induction o as [|o IH]; intros b i n Hi; cbn [skipn Nat.add].
  - revert i n Hi. induction b as [|y b IHb]; intros i n Hi; destruct n; try lia; destruct i; cbn; auto. apply IHb. lia.
  - destruct b as [|y b]; [|apply IH; assumption]. rewrite firstn_nil. destruct i; reflexivity.
Qed.

Lemma delete_at_split {A} (l : list A) i x : nth_error l (N.to_nat i) = Some x ->
  exists l1 l2, N.of_nat (length l1) = i /\ l = l1 ++ x :: l2 /\ delete_at l i = l1 ++ l2.
Proof.
  intros H. destruct (nth_error_split _ _ H) as (l1 & l2 & -> & L). exists l1, l2. split; [lia|]. split; [reflexivity|].
  unfold delete_at. rewrite <- L. rewrite firstn_app, firstn_all, Nat.sub_diag. cbn [firstn]. rewrite app_nil_r. f_equal.
  rewrite skipn_app, skipn_all2 by lia. replace (S (length l1) - length l1)%nat with 1%nat by lia. reflexivity.
Qed.

Lemma becomes_step h o h' a : step h o = Some h' -> target o = Some a ->
  exists x x', get h a = Some x /\ h' = put h a x' /\ becomes o (bare x) (bare x').
Proof.
  intros H T. destruct o; cbn [target] in T; inv T; cbn [step] in H.
  - destruct (get h a) as [[]|] eqn:G; try discriminate. destruct (est_of h x); try discriminate. destruct (is_val h x); [|discriminate].
    inv H. do 2 eexists. split; [reflexivity|]. split; [reflexivity|]. cbn [becomes bare]. eauto.
  - destruct (get h a) as [[]|] eqn:G; try discriminate. destruct (N.leb _ _); [discriminate|].
    destruct (nth_error elems (N.to_nat i)) as [x|] eqn:E; [|discriminate]. destruct (est_of h x); try discriminate. inv H.
    destruct (delete_at_split _ _ _ E) as (l1 & l2 & L & -> & ->). do 2 eexists. split; [reflexivity|]. split; [reflexivity|]. cbn [becomes bare]. eauto 10.
  - destruct (get h a) as [[]|] eqn:G; try discriminate. destruct (est_of h x); try discriminate. destruct (is_rec h x); [|discriminate].
    inv H. do 2 eexists. split; [reflexivity|]. split; [reflexivity|]. cbn [becomes bare]. eauto.
  - destruct (get h a) as [[]|] eqn:G; try discriminate. destruct (N.leb _ _); [discriminate|].
    destruct (nth_error elems (N.to_nat i)) as [x|] eqn:E; [|discriminate]. destruct (est_of h x); try discriminate. inv H.
    destruct (delete_at_split _ _ _ E) as (l1 & l2 & L & -> & ->). do 2 eexists. split; [reflexivity|]. split; [reflexivity|]. cbn [becomes bare]. eauto 10.
  - destruct (get h a) as [[]|] eqn:G; try discriminate. destruct (slice_ok h s) eqn:Sl; [|discriminate].
    destruct (add_slices h encoded keys buf est [s]) as [o'| |] eqn:A; try discriminate. inv H.
    destruct (add_slices_keys _ _ _ _ _ _ _ A) as (est' & ->). do 2 eexists. split; [reflexivity|]. split; [reflexivity|]. cbn [becomes bare]. eauto.
  - destruct (get h a) as [[]|] eqn:G; try discriminate. destruct est as [[ek ev] es]. destruct (est_of h k); try discriminate.
    destruct (is_key h k); [|discriminate]. inv H. do 2 eexists. split; [reflexivity|]. split; [reflexivity|]. cbn [becomes bare].
    do 6 eexists. split; reflexivity.
  - destruct (get h a) as [[]|] eqn:G; try discriminate. destruct est as [[ek ev] es]. destruct (est_of h v); try discriminate.
    destruct (is_val h v); [|discriminate]. inv H. do 2 eexists. split; [reflexivity|]. split; [reflexivity|]. cbn [becomes bare].
    do 6 eexists. split; reflexivity.
  - destruct (get h a) as [[]|] eqn:G; try discriminate. destruct est as [[ek ev] es]. destruct (est_of h v); try discriminate.
    destruct (is_val h v); [|discriminate]. inv H. do 2 eexists. split; [reflexivity|]. split; [reflexivity|]. cbn [becomes bare].
    do 6 eexists. split; reflexivity.
  - destruct (get h a) as [[]|] eqn:G; try discriminate. inv H. do 2 eexists. split; [reflexivity|]. split; [reflexivity|]. cbn [becomes bare].
    do 6 eexists. split; reflexivity.
  - destruct (get h a) as [[]|] eqn:G; try discriminate. inv H. do 2 eexists. split; [reflexivity|]. split; [reflexivity|]. cbn [becomes bare].
    do 6 eexists. split; reflexivity.
Qed.

Lemma val_get h a : is_val h a = true -> exists x, get h a = Some x.
Proof. unfold is_val. destruct (get h a) as [x|]; [eauto|discriminate]. Qed.
Lemma rec_get h a : is_rec h a = true -> exists x, get h a = Some x.
Proof. unfold is_rec. destruct (get h a) as [x|]; [eauto|discriminate]. Qed.
Lemma key_get h a : is_key h a = true -> exists x, get h a = Some x.
Proof. unfold is_key. destruct (get h a) as [x|]; [eauto|discriminate]. Qed.

(** Elements of arrays and record lists exist. *)
Definition refs_of (o : obj) : list ref := match o with OArr _ _ _ l | ORecs _ _ _ l => l | _ => [] end.
Lemma bare_refs o o' : bare o' = bare o -> refs_of o' = refs_of o.
Proof. destruct o, o'; cbn; intros H; inv H; reflexivity. Qed.
Lemma target_elems h o h' a x' y : step h o = Some h' -> target o = Some a -> get h' a = Some x' -> In y (refs_of x') ->
  (exists x, get h a = Some x /\ In y (refs_of x)) \/ (exists z, get h y = Some z).
Proof.
  intros H T G I. pose proof H as H0. destruct (becomes_step _ _ _ _ H T) as (x & x1 & Gx & -> & B). rewrite (get_put _ _ _ _ Gx) in G. inv G.
  assert (E : refs_of x' = refs_of (bare x')) by (destruct x'; reflexivity). rewrite E in I.
  assert (E1 : refs_of x = refs_of (bare x)) by (destruct x; reflexivity).
  destruct o; cbn [target] in T; inv T; cbn [becomes] in B.
  - destruct B as (l & B1 & B2). rewrite B2 in I. cbn [refs_of] in I. apply in_app_or in I. destruct I as [I|[<-|[]]].
    + left. exists x. split; [exact Gx|]. now rewrite E1, B1.
    + right. cbn [step] in H0. rewrite Gx in H0. unfold est_of in H0. destruct x; try discriminate. destruct (get h x0) as [z|]; [eauto|discriminate].
  - destruct B as (l1 & v & l2 & _ & B1 & B2). rewrite B2 in I. cbn [refs_of] in I. left. exists x. split; [exact Gx|]. rewrite E1, B1. cbn [refs_of].
    apply in_app_or in I. apply in_or_app. destruct I; [now left|right; now right].
  - destruct B as (l & B1 & B2). rewrite B2 in I. cbn [refs_of] in I. apply in_app_or in I. destruct I as [I|[<-|[]]].
    + left. exists x. split; [exact Gx|]. now rewrite E1, B1.
    + right. cbn [step] in H0. rewrite Gx in H0. unfold est_of in H0. destruct x; try discriminate. destruct (get h x0) as [z|]; [eauto|discriminate].
  - destruct B as (l1 & v & l2 & _ & B1 & B2). rewrite B2 in I. cbn [refs_of] in I. left. exists x. split; [exact Gx|]. rewrite E1, B1. cbn [refs_of].
    apply in_app_or in I. apply in_or_app. destruct I; [now left|right; now right].
  - destruct B as (ks & _ & B2). rewrite B2 in I. destruct I.
  - destruct B as (? & ? & ? & ? & ? & ? & _ & B2). rewrite B2 in I. destruct I.
  - destruct B as (? & ? & ? & ? & ? & ? & _ & B2). rewrite B2 in I. destruct I.
  - destruct B as (? & ? & ? & ? & ? & ? & _ & B2). rewrite B2 in I. destruct I.
  - destruct B as (? & ? & ? & ? & ? & ? & _ & B2). rewrite B2 in I. destruct I.
  - destruct B as (? & ? & ? & ? & ? & ? & _ & B2). rewrite B2 in I. destruct I.
Qed.

Definition there (h : heap) (y : ref) : Prop := exists z, get h y = Some z.
Definition linked (h : heap) : Prop := forall a x y, get h a = Some x -> In y (refs_of x) -> there h y.
Lemma there_grows h h' y : grows h h' -> there h y -> there h' y.
Proof. intros G (z & H). exists z. eapply grows_get; eauto. Qed.
Lemma linked_new h o : linked h -> (forall y, In y (refs_of o) -> there h y) -> linked (fst (new_obj h o)).
Proof.
  intros L H a x y G I. unfold get, new_obj in G. cbn [fst objs] in G.
  assert (T : there h y).
  { destruct (Nat.lt_ge_cases a (length (objs h))) as [Ha|Ha].
    - rewrite nth_error_app1 in G by exact Ha. eapply L; [exact G|exact I].
    - rewrite nth_error_app2 in G by exact Ha. destruct (a - length (objs h))%nat as [|[|]]; inv G. auto. }
  destruct T as (z & Gz). exists z. unfold get in *. cbn [fst objs new_obj]. rewrite nth_error_app1; [exact Gz|]. apply nth_error_Some. congruence.
Qed.
Lemma linked_block h b : linked h -> linked (fst (new_block h b)).
Proof. intros L. exact L. Qed.

Definition cp_linked (cp : heap -> ref -> option (heap * res ref)) : Prop :=
  forall h a h' r, sound h -> linked h -> cp h a = Some (h', r) -> linked h' /\ forall y, r = Ok y -> there h' y.
Lemma new_there h o : there (fst (new_obj h o)) (length (objs h)).
Proof. exists o. apply new_obj_get. Qed.
Lemma copy_all_linked cp : cp_grows cp -> cp_linked cp -> forall l h h' r, sound h -> linked h -> copy_all cp h l = Some (h', r) ->
  linked h' /\ forall ys, r = Ok ys -> Forall (there h') ys.
Proof.
  intros CG CL. induction l as [|x l IH]; intros h h' r S L H; cbn [copy_all] in H.
  - inv H. split; [exact L|]. intros ys [= <-]. constructor.
  - destruct (cp h x) as [[h1 [y| |]]|] eqn:E; try discriminate.
    + destruct (CL _ _ _ _ S L E) as (L1 & T1). pose proof (CG _ _ _ _ S E) as G1. pose proof G1 as (_ & _ & S1).
      destruct (copy_all cp h1 l) as [[h2 [ys| |]]|] eqn:E2; try discriminate; inv H; destruct (IH _ _ _ S1 L1 E2) as (L2 & T2);
        (split; [exact L2|]); try discriminate. intros ys' [= <-]. constructor; [|auto].
      eapply there_grows; [eapply copy_all_grows; eauto|]. auto.
    + inv H. destruct (CL _ _ _ _ S L E) as (L1 & _). split; [exact L1|discriminate].
    + inv H. destruct (CL _ _ _ _ S L E) as (L1 & _). split; [exact L1|discriminate].
Qed.
Lemma copy_part_linked cp : cp_linked cp -> forall p h h' r, sound h -> linked h -> copy_part cp h p = Some (h', r) -> linked h'.
Proof.
  intros CL [x|] h h' r S L H; cbn [copy_part] in H; [|now inv H].
  destruct (cp h x) as [[h1 [y| |]]|] eqn:E; try discriminate; inv H; eapply CL; eauto.
Qed.
Lemma linked_ext h h' o : linked h -> objs h' = objs h ++ [o] -> (forall y, In y (refs_of o) -> there h y) ->
  linked h' /\ forall y, Ok (length (objs h)) = Ok y -> there h' y.
Proof.
  intros L E H. pose proof (linked_new h o L H) as L'. pose proof (new_there h o) as T. unfold linked, there, get, new_obj in *. cbn [fst objs] in *.
  rewrite E. split; [exact L'|]. intros y [= <-]. exact T.
Qed.
Lemma key_copy_linked : cp_linked (fun h x => Some (key_copy h x)).
Proof.
  intros h a h' r S L H. injection H as H. unfold key_copy in H.
  destruct (get h a) as [[]|]; try (inv H; split; [exact L|discriminate]).
  - destruct (add_slices h false [] None 1 keys) as [o| |] eqn:A; try (inv H; split; [exact L|discriminate]).
    destruct (add_slices_keys _ _ _ _ _ _ _ A) as (est' & ->). simpl in H. inv H.
    eapply linked_ext; [exact L|reflexivity|intros y []].
  - simpl in H. inv H. eapply linked_ext; [exact L|reflexivity|intros y []].
  - destruct (new_mapped_key (Some buf)) as [[[] ?]| |]; try (inv H; split; [exact L|discriminate]).
    simpl in H. inv H. eapply linked_ext; [exact L|reflexivity|intros y []].
Qed.
Lemma copy_linked n : cp_linked (vcopy n) /\ cp_linked (rcopy n).
Proof.
  induction n as [|n (IHv & IHr)]; [split; intros h a h' r S L H; discriminate|].
  destruct (copy_grows n) as (Gv & Gr). split; intros h a h' r S L H; cbn [vcopy rcopy] in H.
  - destruct (get h a) as [[]|]; try (inv H; split; [exact L|discriminate]).
    + destruct data as [d|].
      * simpl in H. inv H. eapply (linked_ext h); [exact L|reflexivity|intros y []].
      * simpl in H. inv H. eapply (linked_ext h); [exact L|reflexivity|intros y []].
    + destruct (copy_all (vcopy n) h elems) as [[h1 [l'| |]]|] eqn:E; try discriminate;
        destruct (copy_all_linked _ Gv IHv _ _ _ _ S L E) as (L1 & T1); simpl in H; inv H; try (split; [exact L1|discriminate]).
      eapply linked_ext; [exact L1|reflexivity|]. intros y I. cbn [refs_of] in I. specialize (T1 _ eq_refl). rewrite Forall_forall in T1. auto.
    + destruct (copy_all (rcopy n) h elems) as [[h1 [l'| |]]|] eqn:E; try discriminate;
        destruct (copy_all_linked _ Gr IHr _ _ _ _ S L E) as (L1 & T1); simpl in H; inv H; try (split; [exact L1|discriminate]).
      eapply linked_ext; [exact L1|reflexivity|]. intros y I. cbn [refs_of] in I. specialize (T1 _ eq_refl). rewrite Forall_forall in T1. auto.
    + destruct (new_std_value (mv_buf m)) as [[m' c]| |]; simpl in H; inv H; try (split; [exact L|discriminate]).
      eapply linked_ext; [exact L|reflexivity|intros y []].
    + destruct (new_simple_value buf) as [[[] c]| |]; simpl in H; inv H; try (split; [exact L|discriminate]).
      eapply linked_ext; [exact L|reflexivity|intros y []].
  - destruct (get h a) as [[]|]; try (inv H; split; [exact L|discriminate]).
    + destruct (copy_part (fun h x => Some (key_copy h x)) h key) as [[h1 [k'| |]]|] eqn:E1; try discriminate;
        pose proof (copy_part_linked _ key_copy_linked _ _ _ _ S L E1) as L1; try (inv H; split; [exact L1|discriminate]).
      pose proof (copy_part_grows _ key_copy_grows _ _ _ _ S E1) as (_ & _ & S1).
      destruct (copy_part (vcopy n) h1 val) as [[h2 [v'| |]]|] eqn:E2; try discriminate;
        pose proof (copy_part_linked _ IHv _ _ _ _ S1 L1 E2) as L2; try (inv H; split; [exact L2|discriminate]).
      pose proof (copy_part_grows _ Gv _ _ _ _ S1 E2) as (_ & _ & S2).
      destruct (copy_part (vcopy n) h2 scheme) as [[h3 [s'| |]]|] eqn:E3; try discriminate;
        pose proof (copy_part_linked _ IHv _ _ _ _ S2 L2 E3) as L3; simpl in H; inv H; try (split; [exact L3|discriminate]).
      eapply linked_ext; [exact L3|reflexivity|intros y []].
    + destruct (new_mapped_record (mr_buf r0)) as [[m' c]| |]; simpl in H; inv H; try (split; [exact L|discriminate]).
      eapply linked_ext; [exact L|reflexivity|intros y []].
Qed.

Lemma step_linked h o h' : sound h -> linked h -> step h o = Some h' -> linked h'.
Proof.
  intros S L H. pose proof (step_kind _ _ _ S H) as K. destruct (target o) as [a|] eqn:T.
  - intros b x y G I.
    assert (M : forall z, there h z -> there h' z).
    { intros z (w & Gw). destruct (becomes_step _ _ _ _ H T) as (x1 & x2 & G1 & -> & _). destruct (Nat.eq_dec z a) as [-> |N].
      - exists x2. eapply get_put; eauto.
      - exists w. rewrite get_put_other by auto. exact Gw. }
    apply M. destruct (Nat.eq_dec b a) as [-> |N].
    + destruct (target_elems _ _ _ _ _ _ H T G I) as [(x0 & G0 & I0)|Z]; [exact (L _ _ _ G0 I0)|exact Z].
    + destruct (becomes_step _ _ _ _ H T) as (x1 & x2 & G1 & -> & _). rewrite get_put_other in G by auto. exact (L _ _ _ G I).
  - destruct (writes o) as [k|] eqn:W.
    + destruct K as (E & _). intros b x y G I. unfold get in G. rewrite E in G. destruct (L _ _ _ G I) as (z & Gz). exists z. unfold get. rewrite E. exact Gz.
    + destruct (is_encode o) eqn:En.
      * destruct K as (K & _). intros b x y G I. destruct (get h b) as [x0|] eqn:G0.
        -- destruct K as (K1 & K2 & K). destruct (K _ _ G0) as (x1 & G1 & B). rewrite G in G1. inv G1. rewrite (bare_refs _ _ B) in I.
           destruct (L _ _ _ G0 I) as (z & Gz). destruct (K _ _ Gz) as (z1 & Gz1 & _). exists z1. exact Gz1.
        -- rewrite (same_none _ _ _ K G0) in G. discriminate.
      * destruct o; try discriminate; cbn [step] in H.
        -- inv H. exact L.
        -- destruct (slice_ok h d); [|discriminate]. inv H. apply linked_new; [exact L|intros y []].
        -- inv H. apply linked_new; [exact L|intros y []].
        -- inv H. apply linked_new; [exact L|intros y []].
        -- inv H. apply linked_new; [exact L|intros y []].
        -- inv H. apply linked_new; [exact L|intros y []].
        -- destruct (slice_ok h d); [|discriminate]. injection H as <-. apply linked_new; [exact L|intros y []].
        -- destruct (is_parsed o) eqn:P; [|discriminate]. inv H. apply linked_new; [exact L|]. intros y I. destruct o; try discriminate; destruct I.
        -- destruct (vcopy fuel h a) as [[h1 r]|] eqn:E; [|discriminate]. destruct (proj1 (copy_linked fuel) _ _ _ _ S L E) as (L1 & _). destruct r; inv H; exact L1.
        -- destruct (rcopy fuel h a) as [[h1 r]|] eqn:E; [|discriminate]. destruct (proj2 (copy_linked fuel) _ _ _ _ S L E) as (L1 & _). destruct r; inv H; exact L1.
        -- destruct (key_copy h a) as [h1 r] eqn:E. destruct (key_copy_linked h a h1 r S L) as (L1 & _); [now rewrite E|]. destruct r; inv H; exact L1.
Qed.
Lemma run_linked ops : forall h h', sound h -> linked h -> run h ops = Some h' -> linked h'.
Proof.
  induction ops as [|o ops IH]; intros h h' S L H; cbn [run] in H; [now inv H|].
  destruct (step h o) as [h1|] eqn:E; [|discriminate]. eapply IH; [| |exact H]; [eapply step_sound; eauto|eapply step_linked; eauto].
Qed.
Lemma run_elems ops h : run empty_heap ops = Some h -> linked h.
Proof. apply run_linked; [exact empty_sound|]. intros a x y G. unfold get in G. cbn in G. destruct a; discriminate. Qed.

(** ** C89: a call changes exactly what it names *)
(** In every reachable heap: the object called on becomes what the call says, every other object keeps its contents, a
    constructor adds one object, and memory that exists is written by nothing but a write. *)
Theorem C89_call_exact : forall (ops : list op) (h h' : heap) (o : op), run empty_heap ops = Some h -> step h o = Some h' ->
  match target o with
  | Some a => exists x x', get h a = Some x /\ get h' a = Some x' /\ becomes o (bare x) (bare x')
  | None => True
  end /\
  (makes o = true -> exists x, get h' (length (objs h)) = Some x /\ made o x) /\
  (forall b x, target o <> Some b -> get h b = Some x -> exists x', get h' b = Some x' /\ bare x' = bare x) /\
  (forall k, (k < length (mem h))%nat -> block_size h' k = block_size h k) /\
  (forall k i, (k < length (mem h))%nat ->
     byte_at h' k i = match o with Write k0 i0 x => if ((k =? k0) && (i =? i0))%nat then Some x else byte_at h k i | _ => byte_at h k i end).
Proof.
  intros ops h h' o R H. pose proof (run_sound _ _ _ empty_sound R) as S. pose proof (step_kind _ _ _ S H) as K.
  split; [|split; [|split]].
  - destruct (target o) as [a|] eqn:T; [|exact I]. destruct (becomes_step _ _ _ _ H T) as (x & x' & G & -> & B).
    exists x, x'. split; [exact G|]. split; [eapply get_put; eauto|exact B].
  - intros M. destruct o; try discriminate; cbn [step] in H.
    + destruct (slice_ok h d); [|discriminate]. inv H. eexists. split; [apply new_obj_get|reflexivity].
    + inv H. eexists. split; [apply new_obj_get|split; reflexivity].
    + inv H. eexists. split; [apply new_obj_get|split; reflexivity].
    + inv H. eexists. split; [apply new_obj_get|reflexivity].
    + inv H. eexists. split; [apply new_obj_get|split; reflexivity].
    + destruct (slice_ok h d); [|discriminate]. injection H as <-. eexists. split; [apply new_obj_get|split; reflexivity].
    + destruct (is_parsed o); [|discriminate]. inv H. eexists. split; [apply new_obj_get|reflexivity].
  - intros b x Tb G. destruct (target o) as [a|] eqn:T.
    + destruct (becomes_step _ _ _ _ H T) as (y & y' & Gy & -> & _). exists x. rewrite get_put_other by congruence. auto.
    + destruct (writes o) as [k|]; [destruct K as (Eo & _); exists x; unfold get in *; rewrite Eo; auto|].
      destruct (is_encode o); [destruct K as ((_ & _ & K) & _); auto|]. exists x. split; [eapply grows_get; eauto|reflexivity].
  - assert (GROW : (exists m, mem h' = mem h ++ m) -> (forall k, (k < length (mem h))%nat -> block_size h' k = block_size h k) /\
        (forall k i, (k < length (mem h))%nat -> byte_at h' k i = byte_at h k i)).
    { intros (m & E). unfold block_size, byte_at. rewrite E. split; intros; now rewrite nth_error_app1 by assumption. }
    destruct (writes o) as [k0|] eqn:W.
    + destruct o as [|k1 i0 x0| | | | | | | | | | | | | | | | | | | | | | |]; try discriminate. cbn [step] in H. inv W.
      destruct (nth_error (mem h) k0) as [b|] eqn:E; [|discriminate]. destruct (Nat.ltb_spec i0 (length b)) as [L|]; [|discriminate]. inv H.
      assert (LK : (k0 < length (mem h))%nat) by (apply nth_error_Some; unfold bytes in *; congruence). split.
      * intros k Hk. unfold block_size. cbn [mem]. destruct (Nat.eq_dec k k0) as [-> |N].
        -- rewrite upd_same by exact LK. rewrite E. cbn [option_map]. now rewrite upd_length.
        -- now rewrite upd_other by auto.
      * intros k i Hk. unfold byte_at. cbn [mem]. destruct (Nat.eqb_spec k k0) as [-> |N]; cbn [andb].
        -- rewrite upd_same by exact LK. rewrite E. destruct (Nat.eqb_spec i i0) as [-> |Ni]; [now apply upd_same|now apply upd_other; auto].
        -- now rewrite upd_other by auto.
    + assert (X : match o with Write k0 i0 x => False | _ => True end) by (destruct o; try exact I; discriminate).
      replace (forall k i, (k < length (mem h))%nat ->
        byte_at h' k i = match o with Write k0 i0 x => if ((k =? k0) && (i =? i0))%nat then Some x else byte_at h k i | _ => byte_at h k i end)
        with (forall k i, (k < length (mem h))%nat -> byte_at h' k i = byte_at h k i) by (destruct o; try reflexivity; contradiction).
      apply GROW. destruct (target o) as [a|] eqn:T.
      * destruct (becomes_step _ _ _ _ H T) as (x & x' & _ & -> & _). exists []. now rewrite app_nil_r.
      * destruct (is_encode o); [destruct K as ((M & _) & _); exact M|destruct K as (M & _); exact M].
Qed.
Print Assumptions C89_call_exact.

(** A slice of the client or of an object reads the bytes of its block from its offset on. *)
Theorem C89_slice_reads : forall (ops : list op) (h : heap) (a : ref) (x : obj) (s : slc),
  run empty_heap ops = Some h -> get h a = Some x -> In (Some s) (slices_of x) ->
  exists l, rd h (Some s) = Some l /\ length l = sl_len s /\
    forall i, (i < sl_len s)%nat -> nth_error l i = byte_at h (sl_blk s) (sl_off s + i).
Proof. intros ops h a x s R G I. apply rd_exact. eapply (run_sound _ _ _ empty_sound R); eauto. Qed.
Print Assumptions C89_slice_reads.

(** Append, Add and the setters return on every object of their type. DeleteAt compares with the number of elements modulo
    2^16. *)
Theorem C89_returns_exact : forall (ops : list op) (h : heap) (o : op) (a : ref), run empty_heap ops = Some h -> target o = Some a ->
  (exists h', step h o = Some h') <-> callable h o.
Proof.
  intros ops h o a R T. destruct o; cbn [target] in T; inv T; cbn [step callable].
  - unfold array_of. split.
    + intros (h' & H). destruct (get h a) as [[]|] eqn:G; try discriminate. destruct (est_of h x); try discriminate.
      destruct (is_val h x); [|discriminate]. split; [eauto 10|reflexivity].
    + intros ((l & e & b & est & ->) & V). rewrite V. destruct (val_get _ _ V) as (y & Gy). unfold est_of. rewrite Gy. eauto.
  - unfold array_of. split.
    + intros (h' & H). destruct (get h a) as [[]|] eqn:G; try discriminate.
      destruct (N.leb_spec (uint16 (N.of_nat (length elems))) i) as [L|L]; [discriminate|]. eauto 10.
    + intros (l & (e & b & est & G) & L). rewrite G. change (uint16 (N.of_nat (length l))) with (N.of_nat (length l) mod 2 ^ 16)%N.
      rewrite (proj2 (N.leb_gt _ _) L).
      destruct (nth_error l (N.to_nat i)) as [y|] eqn:E.
      * destruct (run_elems ops h R a _ y G) as (z & Gz); [cbn [refs_of]; eapply nth_error_In; eauto|]. unfold est_of. rewrite Gz. eauto.
      * exfalso. apply nth_error_None in E. pose proof (N.mod_le (N.of_nat (length l)) (2 ^ 16)). lia.
  - unfold records_of. split.
    + intros (h' & H). destruct (get h a) as [[]|] eqn:G; try discriminate. destruct (est_of h x); try discriminate.
      destruct (is_rec h x); [|discriminate]. split; [eauto 10|reflexivity].
    + intros ((l & e & b & est & ->) & V). rewrite V. destruct (rec_get _ _ V) as (y & Gy). unfold est_of. rewrite Gy. eauto.
  - unfold records_of. split.
    + intros (h' & H). destruct (get h a) as [[]|] eqn:G; try discriminate.
      destruct (N.leb_spec (uint16 (N.of_nat (length elems))) i) as [L|L]; [discriminate|]. eauto 10.
    + intros (l & (e & b & est & G) & L). rewrite G. change (uint16 (N.of_nat (length l))) with (N.of_nat (length l) mod 2 ^ 16)%N.
      rewrite (proj2 (N.leb_gt _ _) L).
      destruct (nth_error l (N.to_nat i)) as [y|] eqn:E.
      * destruct (run_elems ops h R a _ y G) as (z & Gz); [cbn [refs_of]; eapply nth_error_In; eauto|]. unfold est_of. rewrite Gz. eauto.
      * exfalso. apply nth_error_None in E. pose proof (N.mod_le (N.of_nat (length l)) (2 ^ 16)). lia.
  - unfold sub_ok. split.
    + intros (h' & H). destruct (get h a) as [[]|] eqn:G; try discriminate. destruct (slice_ok h s) eqn:Sl; [|discriminate].
      split; [eauto 10|]. split; [reflexivity|]. cbn [add_slices] in H. destruct (rd h s) as [[|x l]|]; cbn [gcontent] in H; try discriminate. eauto.
    + intros ((e & ks & b & est & ->) & Sl & x & l & E). rewrite Sl. cbn [add_slices]. rewrite E. cbn [gcontent]. eauto.
  - unfold record_at. split.
    + intros (h' & H). destruct (get h a) as [[]|] eqn:G; try discriminate. destruct est as [[ek ev] es]. destruct (est_of h k); try discriminate.
      destruct (is_key h k); [|discriminate]. split; [do 9 eexists; reflexivity|reflexivity].
    + intros ((e & b & [[ek ev] es] & k0 & v & s & t & r & q & ->) & V). rewrite V. destruct (key_get _ _ V) as (y & Gy). unfold est_of. rewrite Gy. eauto.
  - unfold record_at. split.
    + intros (h' & H). destruct (get h a) as [[]|] eqn:G; try discriminate. destruct est as [[ek ev] es]. destruct (est_of h v); try discriminate.
      destruct (is_val h v); [|discriminate]. split; [do 9 eexists; reflexivity|reflexivity].
    + intros ((e & b & [[ek ev] es] & k0 & w & s & t & r & q & ->) & V). rewrite V. destruct (val_get _ _ V) as (y & Gy). unfold est_of. rewrite Gy. eauto.
  - unfold record_at. split.
    + intros (h' & H). destruct (get h a) as [[]|] eqn:G; try discriminate. destruct est as [[ek ev] es]. destruct (est_of h v); try discriminate.
      destruct (is_val h v); [|discriminate]. split; [do 9 eexists; reflexivity|reflexivity].
    + intros ((e & b & [[ek ev] es] & k0 & w & s & t & r & q & ->) & V). rewrite V. destruct (val_get _ _ V) as (y & Gy). unfold est_of. rewrite Gy. eauto.
  - unfold record_at. split.
    + intros (h' & H). destruct (get h a) as [[]|] eqn:G; try discriminate. do 9 eexists; reflexivity.
    + intros (e & b & est & k0 & w & s & t' & r & q & ->). eauto.
  - unfold record_at. split.
    + intros (h' & H). destruct (get h a) as [[]|] eqn:G; try discriminate. do 9 eexists; reflexivity.
    + intros (e & b & est & k0 & w & s' & t' & r' & q & ->). eauto.
Qed.
Print Assumptions C89_returns_exact.

(** With fewer than 2^16 elements DeleteAt returns for exactly the indices of elements. *)
Theorem C89_delete_partial : forall (ops : list op) (h : heap) (a : ref) (l : list ref) (i : N),
  run empty_heap ops = Some h -> (N.of_nat (length l) < 2 ^ 16)%N ->
  (array_of h a l -> (exists h', step h (DeleteVal a i) = Some h') <-> (i < N.of_nat (length l))%N) /\
  (records_of h a l -> (exists h', step h (DeleteRec a i) = Some h') <-> (i < N.of_nat (length l))%N).
Proof.
  intros ops h a l i R L. split; intros A.
  - rewrite (C89_returns_exact ops h (DeleteVal a i) a R eq_refl). cbn [callable]. split.
    + intros (l' & (e & b & est & G) & H). destruct A as (e' & b' & est' & G'). rewrite G in G'. inv G'. rewrite N.mod_small in H by exact L. exact H.
    + intros H. exists l. split; [exact A|]. rewrite N.mod_small by exact L. exact H.
  - rewrite (C89_returns_exact ops h (DeleteRec a i) a R eq_refl). cbn [callable]. split.
    + intros (l' & (e & b & est & G) & H). destruct A as (e' & b' & est' & G'). rewrite G in G'. inv G'. rewrite N.mod_small in H by exact L. exact H.
    + intros H. exists l. split; [exact A|]. rewrite N.mod_small by exact L. exact H.
Qed.
Print Assumptions C89_delete_partial.

(** With 2^16 elements it returns for none. *)
Lemma grown n : exists h est, run empty_heap (NewArr :: NewPrim None :: repeat (AppendVal 0 1) n) = Some h /\
  get h 0%nat = Some (OArr false None est (repeat 1%nat n)) /\ get h 1%nat = Some (OPrim false None None).
Proof.
  assert (X : forall n h est l, get h 0%nat = Some (OArr false None est l) -> get h 1%nat = Some (OPrim false None None) ->
    exists h' est', run h (repeat (AppendVal 0 1) n) = Some h' /\ get h' 0%nat = Some (OArr false None est' (l ++ repeat 1%nat n)) /\
      get h' 1%nat = Some (OPrim false None None)).
  { clear. induction n as [|n IH]; intros h est l G0 G1.
    - exists h, est. cbn [repeat run]. rewrite app_nil_r. auto.
    - cbn [repeat run step]. unfold est_of, is_val. rewrite G0, G1.
      match goal with |- exists h' est', run ?h1 _ = _ /\ _ => destruct (IH h1 _ (l ++ [1%nat]) (get_put _ _ _ _ G0)) as (h' & est' & R & A & B) end.
      + rewrite get_put_other by discriminate. exact G1.
      + exists h', est'. rewrite <- app_assoc in A. auto. }
  destruct (run empty_heap [NewArr; NewPrim None]) as [h|] eqn:E; [|discriminate].
  change (NewArr :: NewPrim None :: repeat (AppendVal 0 1) n) with ([NewArr; NewPrim None] ++ repeat (AppendVal 0 1) n).
  destruct (X n h 1%Z []) as (h' & est & R & A & B); [now inv E|now inv E|]. exists h', est. inv E. auto.
Qed.
Theorem C89_delete_refuted : exists (ops : list op) (h : heap) (l : list ref),
  run empty_heap ops = Some h /\ array_of h 0%nat l /\ N.of_nat (length l) = (2 ^ 16)%N /\ forall i h', step h (DeleteVal 0%nat i) <> Some h'.
Proof.
  assert (X : exists n, N.of_nat n = (2 ^ 16)%N) by (exists (N.to_nat (2 ^ 16)); apply N2Nat.id). destruct X as (n & X).
  destruct (grown n) as (h & est & R & G & _). eexists. exists h, (repeat 1%nat n).
  split; [exact R|]. split; [do 3 eexists; exact G|]. split; [now rewrite repeat_length|].
  intros i h' H. destruct (proj1 (C89_returns_exact _ h (DeleteVal 0%nat i) 0%nat R eq_refl) (ex_intro _ h' H)) as (l & (e & b & est' & G') & L).
  rewrite G in G'. inv G'. rewrite repeat_length, X, N.mod_same in L by discriminate. now apply N.nlt_0_r in L.
Qed.
Print Assumptions C89_delete_refuted.

(** An array of two values and a record with a signature and a time, from the public calls. *)
Definition c89_calls : list op :=
  [NewBytes [x61; x62; x63]; NewPrim (Some (Sl 0 1 2)); NewPrim None; NewArr; AppendVal 2 0; AppendVal 2 1; AppendVal 2 0;
   NewRec; SetTimeOf 3 (Some 7%Z); EncodeVal 5 2].
Example C89_applies : exists h h1 h2 h3, run empty_heap c89_calls = Some h /\
  array_of h 2%nat [0; 1; 0]%nat /\
  step h (DeleteVal 2%nat 1%N) = Some h1 /\ array_of h1 2%nat [0; 0]%nat /\ step h (DeleteVal 2%nat 3%N) = None /\
  step h (SetSigOf 3%nat (Some 4%Z) (Some 5%Z)) = Some h2 /\
  option_map bare (get h2 3%nat) = Some (ORec false None (0, 0, 0)%Z None None None (Some 7%Z) (Some 4%Z) (Some 5%Z)) /\
  step h (Write 0 2 x7a) = Some h3 /\ rd h3 (Some (Sl 0 1 2)) = Some [x62; x7a] /\ byte_at h3 0 2 = Some x7a.
Proof.
  eexists. eexists. eexists. eexists. split; [vm_compute; reflexivity|]. split; [do 3 eexists; vm_compute; reflexivity|].
  split; [vm_compute; reflexivity|]. split; [do 3 eexists; vm_compute; reflexivity|]. split; [vm_compute; reflexivity|].
  split; [vm_compute; reflexivity|]. split; [vm_compute; reflexivity|]. split; [vm_compute; reflexivity|]. split; vm_compute; reflexivity.
Qed.
