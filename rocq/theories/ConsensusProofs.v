(** * Lemmas about consensus times and identifiers. *)
From Coq Require Import List NArith ZArith Bool Lia.
From Coq Require Import Strings.Byte.
From Verif Require Import Base BaseProofs EndianModel EndianProofs ConsensusModel ConsensusSpec.
Import ListNotations.
Local Open Scope N_scope.

(** ** Times *)
Lemma ledger_buf_eq e : ctime_buf (Ledger e) = x01 :: be_put 4 e.
Proof. reflexivity. Qed.
Lemma raft_buf_eq t m c : ctime_buf (Raft t m c) = be_put 4 t ++ be_put 4 m ++ be_put 4 c ++ [x00].
Proof. reflexivity. Qed.

Lemma be_read_app (l suf : bytes) k : length l = k -> be_read k (l ++ suf) = Ok (be_get l).
Proof.
  intros H. unfold be_read. rewrite app_length. destruct (Nat.ltb_spec (length l + length suf) k); [lia|].
  rewrite firstn_app_exact by auto. reflexivity.
Qed.

Lemma parse_ledger l suf : length l = 4%nat -> new_consensus_time (x01 :: l ++ suf) = Ok (Ledger (be_get l)).
Proof.
  intros H. unfold new_consensus_time. change (b2n x01 =? 1) with true. cbv iota.
  assert ((length (x01 :: l ++ suf) <? 5)%nat = false) as ->.
  { apply Nat.ltb_ge. cbn [length]. rewrite app_length. lia. }
  rewrite (go_from_app [x01] (l ++ suf) : go_from (x01 :: l ++ suf) 1 = _). cbn [rbind].
  rewrite be_read_app by assumption. reflexivity.
Qed.

Lemma parse_raft a b c suf : length a = 4%nat -> length b = 4%nat -> length c = 4%nat ->
  new_consensus_time (x02 :: a ++ b ++ c ++ suf) = Ok (Raft (be_get a) (be_get b) (be_get c)).
Proof.
  intros Ha Hb Hc. unfold new_consensus_time. change (b2n x02 =? 1) with false. change (b2n x02 =? 2) with true. cbv iota.
  assert ((length (x02 :: a ++ b ++ c ++ suf) <? 13)%nat = false) as ->.
  { apply Nat.ltb_ge. cbn [length]. rewrite !app_length. lia. }
  rewrite (go_from_app [x02] (a ++ b ++ c ++ suf) : go_from (x02 :: a ++ b ++ c ++ suf) 1 = _). cbn [rbind].
  rewrite be_read_app by assumption. cbn [rbind].
  assert (go_from (x02 :: a ++ b ++ c ++ suf) 5 = Ok (b ++ c ++ suf)) as ->.
  { replace (x02 :: a ++ b ++ c ++ suf) with ((x02 :: a) ++ b ++ c ++ suf) by reflexivity.
    replace 5%Z with (zlen (x02 :: a)) by (unfold zlen; cbn [length]; lia). apply go_from_app. }
  cbn [rbind]. rewrite be_read_app by assumption. cbn [rbind].
  assert (go_from (x02 :: a ++ b ++ c ++ suf) 9 = Ok (c ++ suf)) as ->.
  { replace (x02 :: a ++ b ++ c ++ suf) with ((x02 :: a ++ b) ++ c ++ suf) by (cbn [app]; now rewrite <- app_assoc).
    replace 9%Z with (zlen (x02 :: a ++ b)) by (unfold zlen; cbn [length]; rewrite app_length; lia). apply go_from_app. }
  cbn [rbind]. rewrite be_read_app by assumption. reflexivity.
Qed.

Lemma firstn_skipn_split {A} n (l : list A) : (n <= length l)%nat -> exists a b, l = a ++ b /\ length a = n.
Proof. intros H. exists (firstn n l), (skipn n l). rewrite firstn_skipn, firstn_length. split; [reflexivity|lia]. Qed.

(** The parser never panics, and what it accepts. *)
Lemma consensus_time_cases buf :
  (exists e suf, buf = x01 :: be_put 4 e ++ suf /\ e < 2 ^ 32 /\ new_consensus_time buf = Ok (Ledger e)) \/
  (exists t m c suf, buf = x02 :: be_put 4 t ++ be_put 4 m ++ be_put 4 c ++ suf /\
     t < 2 ^ 32 /\ m < 2 ^ 32 /\ c < 2 ^ 32 /\ new_consensus_time buf = Ok (Raft t m c)) \/
  new_consensus_time buf = Err.
Proof.
  destruct buf as [|b l]; [right; right; reflexivity|].
  assert (forall a : bytes, length a = 4%nat -> be_get a < 2 ^ 32) as Bd.
  { intros a Ha. pose proof (be_get_bound a) as H. rewrite Ha in H. exact H. }
  assert (forall a : bytes, length a = 4%nat -> be_put 4 (be_get a) = a) as Pg.
  { intros a Ha. rewrite <- Ha. apply be_put_get. }
  destruct (N.eqb_spec (b2n b) 1) as [E1|E1].
  - assert (b = x01) by (apply b2n_inj; exact E1). subst b.
    destruct (le_lt_dec 4 (length l)) as [L|L].
    + left. destruct (firstn_skipn_split 4 l L) as (a & s & -> & Ha).
      exists (be_get a), s. rewrite Pg by assumption. split; [reflexivity|]. split; [now apply Bd|]. now apply parse_ledger.
    + right; right. unfold new_consensus_time. change (b2n x01 =? 1) with true. cbv iota.
      destruct (Nat.ltb_spec (length (x01 :: l)) 5) as [C|C]; [reflexivity|cbn [length] in C; lia].
  - destruct (N.eqb_spec (b2n b) 2) as [E2|E2].
    + assert (b = x02) by (apply b2n_inj; exact E2). subst b.
      destruct (le_lt_dec 12 (length l)) as [L|L].
      * right; left. destruct (firstn_skipn_split 4 l ltac:(lia)) as (a & l1 & -> & Ha). rewrite app_length in L.
        destruct (firstn_skipn_split 4 l1 ltac:(lia)) as (a2 & l2 & -> & Ha2). rewrite app_length in L.
        destruct (firstn_skipn_split 4 l2 ltac:(lia)) as (a3 & l3 & -> & Ha3).
        exists (be_get a), (be_get a2), (be_get a3), l3. rewrite !Pg by assumption.
        split; [reflexivity|]. repeat (split; [now apply Bd|]). now apply parse_raft.
      * right; right. unfold new_consensus_time. change (b2n x02 =? 1) with false. change (b2n x02 =? 2) with true. cbv iota.
        destruct (Nat.ltb_spec (length (x02 :: l)) 13) as [C|C]; [reflexivity|cbn [length] in C; lia].
    + right; right. unfold new_consensus_time.
      destruct (N.eqb_spec (b2n b) 1); [contradiction|]. destruct (N.eqb_spec (b2n b) 2); [contradiction|reflexivity].
Qed.

Lemma list4 (l : bytes) : length l = 4%nat -> exists a b c d, l = [a; b; c; d].
Proof. destruct l as [|a [|b [|c [|d [|e l]]]]]; simpl; try lia. intros _. eauto. Qed.

Lemma raft_never_back t m c : new_consensus_time (ctime_buf (Raft t m c)) <> Ok (Raft (t mod 2 ^ 32) (m mod 2 ^ 32) (c mod 2 ^ 32)).
Proof.
  rewrite raft_buf_eq. intros E.
  pose proof (be_put_length 4 t) as Lt. pose proof (be_put_length 4 m) as Lm. pose proof (be_put_length 4 c) as Lc.
  assert (be_get (be_put 4 t) = t mod 2 ^ 32) as Et by apply be_get_put.
  assert (be_get (be_put 4 m) = m mod 2 ^ 32) as Em by apply be_get_put.
  assert (be_get (be_put 4 c) = c mod 2 ^ 32) as Ec by apply be_get_put.
  rewrite <- Et, <- Em, <- Ec in E. clear Et Em Ec.
  destruct (list4 _ Lt) as (t0 & t1 & t2 & t3 & Et). destruct (list4 _ Lm) as (m0 & m1 & m2 & m3 & Em).
  destruct (list4 _ Lc) as (c0 & c1 & c2 & c3 & Ec). rewrite Et, Em, Ec in E. clear Et Em Ec Lt Lm Lc. cbn [app] in E.
  destruct (consensus_time_cases [t0; t1; t2; t3; m0; m1; m2; m3; c0; c1; c2; c3; x00]) as [(e & s & _ & _ & Q)|[(tt & mm & cc & s & Eb & B1 & B2 & B3 & Q)|Q]];
    rewrite Q in E; try discriminate.
  assert (tt = be_get [t0; t1; t2; t3] /\ mm = be_get [m0; m1; m2; m3] /\ cc = be_get [c0; c1; c2; c3]) as (Q1 & Q2 & Q3)
    by (split; [|split]; congruence).
  rewrite Q1, Q2, Q3 in Eb.
  change 4%nat with (length [t0; t1; t2; t3]) in Eb at 1. rewrite be_put_get in Eb.
  change 4%nat with (length [m0; m1; m2; m3]) in Eb at 1. rewrite be_put_get in Eb.
  change 4%nat with (length [c0; c1; c2; c3]) in Eb at 1. rewrite be_put_get in Eb.
  cbn [app] in Eb. injection Eb as -> -> -> -> -> -> -> -> -> -> -> -> _. subst. discriminate.
Qed.

(** ** Raft order *)
Lemma raft_before_total t m c t' m' c' :
  raft_before t m c t' m' c' \/ (t = t' /\ m = m' /\ c = c') \/ raft_before t' m' c' t m c.
Proof. unfold raft_before. lia. Qed.

(** ** Identifiers *)
Lemma bit_testbit m k : bit m k = N.testbit (b2n m) k.
Proof.
  unfold bit. rewrite <- (N.add_0_l k) at 2. rewrite <- N.shiftr_spec by lia.
  replace (N.land (N.shiftr (b2n m) k) 1) with (N.b2n (N.testbit (N.shiftr (b2n m) k) 0)).
  - destruct (N.testbit _ 0); reflexivity.
  - change 1 with (N.ones 1). rewrite N.land_ones. change (2 ^ 1) with 2. now rewrite <- N.bit0_mod.
Qed.

Lemma id_field_spec pre rest present : id_field (pre ++ rest) present (zlen pre) =
  if present
  then if (zlen rest <? 32)%Z then Err else Ok (Some (firstn 32 rest), (zlen pre + 32)%Z)
  else Ok (None, zlen pre).
Proof.
  unfold id_field. destruct present; [|reflexivity]. rewrite zlen_app.
  destruct (Z.ltb_spec (zlen pre + zlen rest) (zlen pre + 32)) as [H|H], (Z.ltb_spec (zlen rest) 32) as [H'|H']; try lia; [reflexivity|].
  unfold zlen in H'. destruct (firstn_skipn_split 32 rest ltac:(lia)) as (f & r & -> & Hf).
  rewrite firstn_app_exact by auto.
  pose proof (go_slice_app pre f r) as Q. assert (zlen f = 32%Z) as Z by (unfold zlen; lia). rewrite Z in Q.
  rewrite Q. reflexivity.
Qed.

(** The parser as one loop over the announced fields. *)
Fixpoint take_fields (ps : list bool) (buf : bytes) (pos : Z) : res (list gslice * Z) :=
  match ps with
  | [] => Ok ([], pos)
  | p :: ps' =>
      let? (f, pos') := id_field buf p pos in
      let? (fs, pos'') := take_fields ps' buf pos' in
      Ok (f :: fs, pos'')
  end.

Lemma take_fields_ok ps l fs r : fields_at ps l fs r -> forall pre,
  take_fields ps (pre ++ l) (zlen pre) = Ok (fs, (zlen pre + (zlen l - zlen r))%Z).
Proof.
  induction 1 as [r|ps l fs r F IH|ps f l fs r Hf F IH]; intros pre; cbn [take_fields].
  - do 2 f_equal. lia.
  - cbn [id_field]. unfold id_field. cbn [rbind]. rewrite IH. reflexivity.
  - rewrite id_field_spec, zlen_app. pose proof (zlen_nonneg l). assert (zlen f = 32%Z) as Z by (unfold zlen; lia).
    destruct (Z.ltb_spec (zlen f + zlen l) 32) as [C|C]; [lia|]. cbn [rbind].
    rewrite app_assoc. replace (zlen pre + 32)%Z with (zlen (pre ++ f)) by (rewrite zlen_app; lia).
    rewrite IH. cbn [rbind]. rewrite firstn_app_exact by auto. rewrite zlen_app. do 2 f_equal. lia.
Qed.

Lemma fields_at_exists ps : forall l, (32 * length (filter (fun b => b) ps) <= length l)%nat -> exists fs r, fields_at ps l fs r.
Proof.
  induction ps as [|p ps IH]; intros l H; [exists [], l; constructor|].
  destruct p; cbn [filter length] in H.
  - destruct (firstn_skipn_split 32 l ltac:(lia)) as (f & l' & -> & Hf). rewrite app_length in H.
    destruct (IH l' ltac:(lia)) as (fs & r & F). exists (Some f :: fs), r. now constructor.
  - destruct (IH l H) as (fs & r & F). exists (None :: fs), r. now constructor.
Qed.

Lemma fields_at_length ps l fs r : fields_at ps l fs r ->
  (length l = 32 * length (filter (fun b => b) ps) + length r)%nat.
Proof. induction 1; cbn [filter length]; try rewrite app_length; lia. Qed.

Lemma fields_at_suffix ps l fs r : fields_at ps l fs r -> exists p, l = p ++ r /\ fields_at ps p fs [] /\ forall s, fields_at ps (p ++ s) fs s.
Proof.
  induction 1 as [r|ps l fs r F (p & -> & F' & G)|ps f l fs r Hf F (p & -> & F' & G)].
  - exists []. split; [reflexivity|]. split; [constructor|]. intros s. constructor.
  - exists p. split; [reflexivity|]. split; [now constructor|]. intros s. now constructor.
  - exists (f ++ p). split; [now rewrite app_assoc|]. split; [now constructor|]. intros s. rewrite <- app_assoc. now constructor.
Qed.

Lemma fields_at_fun ps l fs r : fields_at ps l fs r -> forall fs' r', fields_at ps l fs' r' -> fs' = fs /\ r' = r.
Proof.
  induction 1 as [r|ps l fs r F IH|ps f l fs r Hf F IH]; intros fs' r' H; inversion H as [|? ? ? ? F'|? f' l' ? ? Hf' F' E0 E1]; subst.
  - auto.
  - destruct (IH _ _ F') as [-> ->]. auto.
  - assert (f' = f /\ l' = l) as [-> ->].
    { apply (f_equal (firstn 32)) in E1 as Q1. rewrite !firstn_app_exact in Q1 by auto. subst f'.
      split; [reflexivity|]. now apply app_inv_head in E1. }
    destruct (IH _ _ F') as [-> ->]. auto.
Qed.

Lemma take_fields_short ps : forall pre l, (length l < 32 * length (filter (fun b => b) ps))%nat ->
  take_fields ps (pre ++ l) (zlen pre) = Err.
Proof.
  induction ps as [|p ps IH]; intros pre l H; [cbn [filter length] in H; lia|]. cbn [take_fields]. rewrite id_field_spec.
  destruct p; cbn [filter length] in H.
  - destruct (Z.ltb_spec (zlen l) 32) as [C|C]; [reflexivity|]. cbn [rbind]. unfold zlen in C.
    destruct (firstn_skipn_split 32 l ltac:(lia)) as (f & l' & -> & Hf). rewrite app_length in H.
    rewrite app_assoc. replace (zlen pre + 32)%Z with (zlen (pre ++ f)) by (rewrite zlen_app; unfold zlen; lia).
    rewrite IH by lia. reflexivity.
  - cbn [rbind]. rewrite IH by lia. reflexivity.
Qed.

(** The two shard fields tested together are the same as tested one by one. *)
Lemma shard_eq (buf : bytes) (present : bool) pos : (0 <= pos <= zlen buf)%Z ->
  (if present
   then if (zlen buf <? pos + 64)%Z then Err
        else let? a := go_slice buf pos (pos + 32) in
             let? b := go_slice buf (pos + 32) (pos + 64) in
             Ok (Some a, Some b, (pos + 64)%Z)
   else Ok (None, None, pos)) =
  (let? (f, p1) := id_field buf present pos in let? (g, p2) := id_field buf present p1 in Ok (f, g, p2)).
Proof.
  intros H. destruct present; [|reflexivity]. unfold id_field.
  destruct (Z.ltb_spec (zlen buf) (pos + 32)) as [C|C]; cbn [rbind].
  - destruct (Z.ltb_spec (zlen buf) (pos + 64)); [reflexivity|lia].
  - assert (exists f, go_slice buf pos (pos + 32) = Ok f) as (f & Ef).
    { unfold go_slice. destruct (_ && _) eqn:E; [eauto|lia]. }
    rewrite Ef. cbn [rbind]. replace (pos + 32 + 32)%Z with (pos + 64)%Z by lia.
    destruct (Z.ltb_spec (zlen buf) (pos + 64)); [reflexivity|]. cbn [rbind].
    destruct (go_slice buf (pos + 32) (pos + 64)); reflexivity.
Qed.

Lemma id_field_pos buf p pos f pos' : (0 <= pos <= zlen buf)%Z -> id_field buf p pos = Ok (f, pos') -> (0 <= pos' <= zlen buf)%Z.
Proof.
  unfold id_field. intros H E. destruct p; [|inv E; lia].
  destruct (Z.ltb_spec (zlen buf) (pos + 32)) as [C|C]; [discriminate|].
  destruct (go_slice buf pos (pos + 32)); cbn [rbind] in E; try discriminate.
  assert (pos' = (pos + 32)%Z) by congruence. lia.
Qed.

Lemma new_consensus_id_eq m l : new_consensus_id (m :: l) =
  if b2n m =? 0 then Err
  else if negb (N.land (b2n m) 7 =? 0) then Err
  else let? (fs, pos) := take_fields (announced m) (m :: l) 1 in
       let? b := go_upto (m :: l) pos in
       match fs with
       | [u; c; f; s; ss; se] => Ok (mkCID m u c f s ss se b)
       | _ => Panic
       end.
Proof.
  unfold new_consensus_id, announced. fold (b2n m). rewrite !bit_testbit.
  destruct (b2n m =? 0); [reflexivity|]. destruct (negb _); [reflexivity|].
  cbn [take_fields].
  set (buf := m :: l). assert (0 <= 1 <= zlen buf)%Z as H0 by (unfold buf; rewrite zlen_cons; pose proof (zlen_nonneg l); lia).
  destruct (id_field buf _ 1) as [[u p1]| |] eqn:E1; cbn [rbind]; [|reflexivity..].
  pose proof (id_field_pos _ _ _ _ _ H0 E1) as H1.
  destruct (id_field buf _ p1) as [[c p2]| |] eqn:E2; cbn [rbind]; [|reflexivity..].
  pose proof (id_field_pos _ _ _ _ _ H1 E2) as H2.
  destruct (id_field buf _ p2) as [[f p3]| |] eqn:E3; cbn [rbind]; [|reflexivity..].
  pose proof (id_field_pos _ _ _ _ _ H2 E3) as H3.
  destruct (id_field buf _ p3) as [[s p4]| |] eqn:E4; cbn [rbind]; [|reflexivity..].
  pose proof (id_field_pos _ _ _ _ _ H3 E4) as H4.
  rewrite (shard_eq buf (N.testbit (b2n m) 3) p4 H4).
  destruct (id_field buf _ p4) as [[ss p5]| |] eqn:E5; cbn [rbind]; [|reflexivity..].
  destruct (id_field buf _ p5) as [[se p6]| |] eqn:E6; cbn [rbind]; [|reflexivity..].
  destruct (go_upto buf p6); reflexivity.
Qed.

Lemma legal_magic_tests m : legal_magic m <-> (b2n m =? 0) = false /\ negb (N.land (b2n m) 7 =? 0) = false.
Proof.
  unfold legal_magic. fold (b2n m). change 7 with (N.ones 3). rewrite N.land_ones. change (2 ^ 3) with 8.
  rewrite N.eqb_neq, negb_false_iff, N.eqb_eq. reflexivity.
Qed.

Lemma illegal_magic_err m l : ~ legal_magic m -> new_consensus_id (m :: l) = Err.
Proof.
  intros H. rewrite new_consensus_id_eq. destruct (b2n m =? 0) eqn:E; [reflexivity|].
  destruct (negb (N.land (b2n m) 7 =? 0)) eqn:E2; [reflexivity|]. exfalso. apply H, legal_magic_tests. auto.
Qed.

Lemma consensus_id_short m l : legal_magic m -> (length l < announced_bytes m)%nat -> new_consensus_id (m :: l) = Err.
Proof.
  intros H L. apply legal_magic_tests in H. destruct H as [H1 H2]. rewrite new_consensus_id_eq, H1, H2.
  pose proof (take_fields_short (announced m) [m] l L) as Q. cbn [app] in Q. change (zlen [m]) with 1%Z in Q. rewrite Q. reflexivity.
Qed.

Lemma consensus_id_ok m p r u c f s ss se : legal_magic m -> fields_at (announced m) p [u; c; f; s; ss; se] [] ->
  new_consensus_id (m :: p ++ r) = Ok (mkCID m u c f s ss se (m :: p)).
Proof.
  intros H F. apply legal_magic_tests in H. destruct H as [H1 H2]. rewrite new_consensus_id_eq, H1, H2.
  destruct (fields_at_suffix _ _ _ _ F) as (p' & E & _ & G). rewrite app_nil_r in E. subst p'. specialize (G r).
  pose proof (take_fields_ok _ _ _ _ G [m]) as Q. cbn [app] in Q. change (zlen [m]) with 1%Z in Q. rewrite Q. cbn [rbind].
  rewrite zlen_app. replace (1 + (zlen p + zlen r - zlen r))%Z with (zlen (m :: p)) by (rewrite zlen_cons; lia).
  unfold go_upto. change (m :: p ++ r) with ((m :: p) ++ r). rewrite zlen_app.
  pose proof (zlen_nonneg (m :: p)). pose proof (zlen_nonneg r).
  destruct (_ && _) eqn:E; [|lia]. cbn [rbind]. rewrite firstn_app_exact by (unfold zlen; lia). reflexivity.
Qed.

Lemma fields6 m l fs r : fields_at (announced m) l fs r -> exists u c f s ss se, fs = [u; c; f; s; ss; se].
Proof.
  intros F. assert (forall ps l fs r, fields_at ps l fs r -> length fs = length ps) as L
    by (induction 1; simpl; congruence).
  apply L in F. destruct fs as [|a [|b [|c [|d [|e [|g [|h fs]]]]]]]; try discriminate. exists a, b, c, d, e, g. reflexivity.
Qed.
