(** * Value arrays as lists, and size estimates. *)
From Coq Require Import List NArith ZArith Bool Lia.
From Coq Require Import Strings.Byte.
From Verif Require Import Base BaseProofs EndianModel VarintModel VarintSpec VarintProofs KeyModel KeySpec KeyProofs
  ValueModel ValueSpec ValueProofs.
Import ListNotations.
Local Open Scope Z_scope.

Lemma uint16_le n : (uint16 n <= n)%N.
Proof. apply N.mod_le. discriminate. Qed.

Lemma va_run_exact ops : forall e l, exists e',
  va_run (VArr e l) ops = (fst (list_run uint16 l ops), VArr e' (snd (list_run uint16 l ops))).
Proof.
  induction ops as [|o ops IH]; intros e l; [exists e; reflexivity|]. cbn [va_run list_run].
  destruct o as [v|i|i| |]; cbn [va_append va_delete_at va_value_at va_size va_elems va_encode].
  - destruct (IH (e + value_est v) (l ++ [v])) as (e' & ->). exists e'. destruct (list_run _ _ _). reflexivity.
  - unfold va_size, va_elems. rewrite N.leb_antisym.
    destruct (N.ltb_spec i (uint16 (N.of_nat (length l)))) as [C|C]; cbn [negb].
    + pose proof (uint16_le (N.of_nat (length l))).
      destruct (nth_error l (N.to_nat i)) as [x|] eqn:E; [|apply nth_error_None in E; lia].
      destruct (IH (e - value_est x) (firstn (N.to_nat i) l ++ skipn (S (N.to_nat i)) l)) as (e' & ->). exists e'.
      destruct (list_run _ _ _). reflexivity.
    + destruct (IH e l) as (e' & ->). exists e'. destruct (list_run _ _ _). reflexivity.
  - destruct (IH e l) as (e' & ->). exists e'. unfold va_value_at, va_size, va_elems. rewrite N.leb_antisym.
    destruct (N.ltb_spec i (uint16 (N.of_nat (length l)))) as [C|C]; cbn [negb].
    + destruct (nth_error l (N.to_nat i)); destruct (list_run _ _ _); reflexivity.
    + destruct (list_run _ _ _). reflexivity.
  - destruct (IH e l) as (e' & ->). exists e'. destruct (list_run _ _ _). reflexivity.
  - change (value_encode (VArr 0 l)) with (value_encode (VArr e l)).
    destruct (value_encode (VArr e l)) as [b| |].
    + destruct (IH (zlen b) l) as (e' & ->). exists e'. destruct (list_run _ _ _). reflexivity.
    + destruct (IH e l) as (e' & ->). exists e'. destruct (list_run _ _ _). reflexivity.
    + destruct (IH e l) as (e' & ->). exists e'. destruct (list_run _ _ _). reflexivity.
Qed.

Lemma list_run_small ops : forall l, (N.of_nat (length l + appends ops) < 65536)%N ->
  list_run uint16 l ops = list_run (fun n => n) l ops.
Proof.
  induction ops as [|o ops IH]; intros l H; [reflexivity|]. cbn [list_run].
  assert (uint16 (N.of_nat (length l)) = N.of_nat (length l)) as -> by (apply N.mod_small; destruct o; cbn [appends] in H; lia).
  destruct o as [v|i|i| |]; cbn [appends] in H.
  - rewrite IH by (rewrite app_length; simpl; lia). reflexivity.
  - destruct (N.ltb_spec i (N.of_nat (length l))) as [C|C]; rewrite IH; try reflexivity; [|assumption].
    rewrite app_length, firstn_length, skipn_length. revert H C. generalize (length l), (appends ops). lia.
  - rewrite IH by assumption. reflexivity.
  - rewrite IH by assumption. reflexivity.
  - rewrite IH by assumption. reflexivity.
Qed.

Lemma list_run_app view ops1 : forall ops2 l, list_run view l (ops1 ++ ops2) =
  (fst (list_run view l ops1) ++ fst (list_run view (snd (list_run view l ops1)) ops2),
   snd (list_run view (snd (list_run view l ops1)) ops2)).
Proof.
  induction ops1 as [|o ops1 IH]; intros ops2 l; cbn [list_run app fst snd].
  - now destruct (list_run view l ops2).
  - destruct (match o with AAppend v => _ | _ => _ end) as [out l']. rewrite IH.
    destruct (list_run view l' ops1). reflexivity.
Qed.
Lemma list_run_appends view v n : forall l, list_run view l (repeat (AAppend v) n) = (repeat ODone n, l ++ repeat v n).
Proof.
  induction n as [|n IH]; intros l; cbn [list_run repeat]; [now rewrite app_nil_r|].
  rewrite IH, <- app_assoc. reflexivity.
Qed.

(** ** Estimates *)
Lemma prim_est d b : prim_encode (Some d) = Ok b ->
  zlen b = value_est (VPrim (Some d)) +
    (if (1 <=? zlen d) && (zlen d <? 128) || (256 <=? zlen d) && (zlen d <? 32768) then 1 else 0) \/
  32768 <= zlen d /\ zlen b = value_est (VPrim (Some d)).
Proof.
  unfold prim_encode, value_est. cbn [gcontent]. pose proof (zlen_nonneg d) as P.
  destruct (Z.eqb_spec (zlen d) 0) as [E0|E0].
  { intros Q. inv Q. left. rewrite E0. reflexivity. }
  destruct (Z.ltb_spec (zlen d) 256) as [C1|C1].
  { intros Q. inv Q. left. rewrite !zlen_cons. 
    destruct (Z.ltb_spec (zlen d) 128), (Z.ltb_spec (zlen d) 32768), (Z.leb_spec 1 (zlen d)), (Z.leb_spec 256 (zlen d));
      cbn [andb orb]; lia. }
  destruct (Z.ltb_spec (zlen d) 65536) as [C2|C2]; [|discriminate].
  intros Q. inv Q. rewrite !zlen_cons.
  destruct (Z.ltb_spec (zlen d) 128), (Z.ltb_spec (zlen d) 32768), (Z.ltb_spec (zlen d) 8388608), (Z.leb_spec 1 (zlen d)), (Z.leb_spec 256 (zlen d));
    cbn [andb orb]; lia.
Qed.

Definition slacks := fix go (l : list value) : Z := match l with [] => 0 | x :: l' => slack x + go l' end.
Lemma slack_arr e l : slack (VArr e l) = 4 + slacks l.
Proof. reflexivity. Qed.
Definition ests (l : list value) : Z := fold_right (fun v s => value_est v + s) 0 l.

Lemma size_header_len sh n m s : size_header sh n = Ok (m, s) -> 0 <= zlen s <= 2.
Proof.
  unfold size_header. destruct (_ =? 0); [intros Q; inv Q; unfold zlen; simpl; lia|].
  destruct (_ <? 256); [intros Q; inv Q; unfold zlen; simpl; lia|].
  destruct (_ <? 65536); [intros Q; inv Q; unfold zlen; simpl; lia|discriminate].
Qed.
Lemma with_content_len m s c b : with_content m s c = Ok b -> zlen b <= 3 + zlen s + zlen c.
Proof.
  unfold with_content. destruct (_ =? 0) eqn:E; [intros Q; inv Q; rewrite zlen_cons; pose proof (zlen_nonneg c); lia|].
  destruct (_ <? 256); [intros Q; inv Q; rewrite zlen_cons, zlen_app, zlen_cons; lia|].
  destruct (_ <? 65536); [intros Q; inv Q; rewrite zlen_cons, zlen_app, !zlen_cons; lia|discriminate].
Qed.
Lemma est_pos v : appended v -> 1 <= value_est v.
Proof.
  intros [d|l H]; cbn [value_est].
  - pose proof (zlen_nonneg (gcontent d)). destruct (_ <? 128); [lia|]. destruct (_ <? 32768); [lia|]. destruct (_ <? 8388608); lia.
  - match goal with |- context [?x <=? 0] => destruct (Z.leb_spec x 0); lia end.
Qed.

Lemma est_bound v : appended v -> forall b, value_encode v = Ok b -> zlen b <= value_est v + slack v.
Proof.
  induction 1 as [d|l H IH]; intros b E.
  - destruct d as [d|].
    + cbn [value_encode] in E. cbn [slack]. destruct (prim_est d b E) as [->|(_ & ->)]; [|lia].
      destruct (_ || _); lia.
    + inv E. cbn. lia.
  - rewrite value_encode_arr in E. destruct (size_header 6 (length l)) as [[m s]| |] eqn:Sh; cbn [rbind] in E; try discriminate.
    destruct (encode_values l) as [c| |] eqn:Ec; cbn [rbind] in E; try discriminate.
    rewrite slack_arr. assert (zlen c <= ests l + slacks l /\ 0 <= ests l) as (B & P).
    { clear E Sh. revert c Ec. induction l as [|v l IHl]; intros c Ec; cbn [encode_values] in Ec.
      - inv Ec. cbn. lia.
      - destruct (value_encode v) as [b1| |] eqn:E1; cbn [rbind] in Ec; try discriminate.
        destruct (encode_values l) as [c1| |] eqn:E2; cbn [rbind] in Ec; try discriminate. inv Ec.
        pose proof (IH v (or_introl eq_refl) b1 E1). pose proof (est_pos v (H v (or_introl eq_refl))).
        destruct (IHl (fun x Hx => H x (or_intror Hx)) (fun x Hx => IH x (or_intror Hx)) c1 eq_refl).
        rewrite zlen_app. cbn [ests fold_right slacks]. fold (ests l). lia. }
    pose proof (size_header_len _ _ _ _ Sh). pose proof (with_content_len _ _ _ _ E).
    cbn [value_est]. fold (ests l). destruct (Z.leb_spec (1 + ests l) 0); lia.
Qed.

(** Keys. *)
Definition sum_len (ks : list gslice) : Z := fold_right (fun k s => 1 + zlen (gcontent k) + s) 0 ks.
Lemma add_all_est l : forall e ks buf est k, add_all (KKey e ks buf est) l = Ok k ->
  k = KKey e (ks ++ l) buf (est + sum_len l).
Proof.
  induction l as [|s l IH]; intros e ks buf est k E; cbn [add_all key_add] in E.
  - inv E. cbn. now rewrite app_nil_r, Z.add_0_r.
  - destruct (gcontent s) as [|x y] eqn:G; [discriminate|]. cbn [rbind] in E. apply IH in E. rewrite E.
    cbn [sum_len fold_right]. fold (sum_len l). rewrite G, <- app_assoc. f_equal. lia.
Qed.

Lemma minimal_len l v : uvarint_minimal l v -> (1 <= length l)%nat /\ (length l = 1%nat <-> (v < 128)%N).
Proof.
  intros (L & M). split; [destruct L; simpl; lia|]. split.
  - intros H. destruct L as [b Hb|b l v Hb Hl]; [assumption|]. destruct Hl; discriminate.
  - intros H. destruct (Byte.of_N v) as [b|] eqn:E.
    + pose proof (Byte.to_of_N _ E) as Q. pose proof (M [b]) as M'. rewrite <- Q in M'. specialize (M' (leb_last b ltac:(lia))).
      simpl in M'. destruct L; simpl in *; lia.
    + apply Byte.of_N_None_iff in E. lia.
Qed.
Lemma key_est_exact ks l : key_bytes (map gcontent ks) l ->
  1 + sum_len ks <= zlen l /\
  (zlen l <= 1 + sum_len ks <-> (length ks < 128)%nat /\ forall s, In s ks -> (length (gcontent s) < 128)%nat).
Proof.
  intros (n & ls & U & F & ->). rewrite zlen_app.
  assert (sum_len ks <= zlen (concat ls) /\
    (zlen (concat ls) <= sum_len ks <-> forall s, In s ks -> (length (gcontent s) < 128)%nat)) as (A & B).
  { clear U n. revert ls F. induction ks as [|k ks IH]; intros ls F; cbn [map] in F.
    - inv F. cbn. split; [lia|]. split; [intros _ s []|lia].
    - inversion F as [|d v ds vs V F']; subst. destruct (IH vs F') as (A & B). destruct V as (h & M & ->).
      destruct (minimal_len _ _ M) as (M1 & M2). cbn [concat sum_len fold_right]. fold (sum_len ks).
      rewrite !zlen_app. unfold zlen at 1 4. unfold zlen in A, B |- *. split; [lia|]. split.
      + intros H. assert (length h = 1%nat) as E by lia. intros s [<-|Hs]; [apply M2 in E; lia|]. apply B; [lia|assumption].
      + intros H. assert (length h = 1%nat) as E by (apply M2; specialize (H k (or_introl eq_refl)); lia).
        assert (Z.of_nat (length (concat vs)) <= sum_len ks) by (apply B; intros s Hs; apply H; right; assumption). lia. }
  rewrite map_length in U. destruct (minimal_len _ _ U) as (M1 & M2). unfold zlen in *. split; [lia|]. split.
  - intros H. split; [assert (length n = 1%nat) as E by lia; apply M2 in E; lia|]. apply B. lia.
  - intros (H1 & H2). assert (length n = 1%nat) as E by (apply M2; lia). apply B in H2. lia.
Qed.
