(** * Theorems about consensus times and identifiers: C49 - C52. *)
From Coq Require Import List NArith ZArith Bool Lia.
From Coq Require Import Strings.Byte.
From Verif Require Import Base BaseProofs EndianModel EndianProofs ConsensusModel ConsensusSpec ConsensusProofs.
Import ListNotations.
Local Open Scope N_scope.

(** ** C49: ledger time *)
Theorem C49_ledger_roundtrip : forall e suf, e < 2 ^ 32 ->
  length (ctime_buf (Ledger e)) = 5%nat /\ new_consensus_time (ctime_buf (Ledger e) ++ suf) = Ok (Ledger e).
Proof.
  intros e suf H. rewrite ledger_buf_eq. split; [reflexivity|]. cbn [app].
  rewrite parse_ledger by apply be_put_length. rewrite be_get_put. now rewrite N.mod_small.
Qed.
Print Assumptions C49_ledger_roundtrip.
Example C49_ledger_roundtrip_applies : 3735928559 < 2 ^ 32 /\ ctime_buf (Ledger 3735928559) = [x01; xde; xad; xbe; xef].
Proof. split; reflexivity. Qed.

(** The six comparisons are the relations of one total order, the order of the epochs. *)
Theorem C49_ledger_order : forall a b,
  (ct_gt (Ledger a) (TArg (Ledger b)) = Ok true <-> b < a) /\
  (ct_ge (Ledger a) (TArg (Ledger b)) = Ok true <-> b <= a) /\
  (ct_eq (Ledger a) (TArg (Ledger b)) = Ok true <-> a = b) /\
  (ct_ne (Ledger a) (TArg (Ledger b)) = Ok true <-> a <> b) /\
  (ct_lt (Ledger a) (TArg (Ledger b)) = Ok true <-> a < b) /\
  (ct_le (Ledger a) (TArg (Ledger b)) = Ok true <-> a <= b) /\
  Forall (fun r => exists v, r = Ok v)
    (map (fun f => f (Ledger a) (TArg (Ledger b))) [ct_gt; ct_ge; ct_eq; ct_ne; ct_lt; ct_le]).
Proof.
  intros a b. unfold ct_gt, ct_ge, ct_eq, ct_ne, ct_lt, ct_le, ledger_rel, neqb.
  assert (forall x : bool, @Ok bool x = Ok true <-> x = true) as Q by (intros x; split; [congruence|now intros ->]).
  rewrite !Q, N.ltb_lt, N.leb_le, N.eqb_eq, negb_true_iff, N.eqb_neq, N.ltb_lt, N.leb_le.
  repeat (split; [reflexivity|]). repeat constructor; eauto.
Qed.
Print Assumptions C49_ledger_order.
Example C49_ledger_order_applies :
  map (fun f => f (Ledger 3) (TArg (Ledger 7))) [ct_gt; ct_ge; ct_eq; ct_ne; ct_lt; ct_le] =
  [Ok false; Ok false; Ok false; Ok true; Ok true; Ok true].
Proof. reflexivity. Qed.

(** Times of different kinds, and the nil interface, are refused by all six comparisons. *)
Theorem C49_mixed_times_error : forall e t m c f, In f [ct_gt; ct_ge; ct_eq; ct_ne; ct_lt; ct_le] ->
  f (Ledger e) (TArg (Raft t m c)) = Err /\ f (Raft t m c) (TArg (Ledger e)) = Err /\
  f (Ledger e) TNil = Err /\ f (Raft t m c) TNil = Err.
Proof. intros e t m c f H. repeat (destruct H as [<- | H]; [repeat split; reflexivity|]). destruct H. Qed.
Print Assumptions C49_mixed_times_error.

(** The bytes of ledger times compare like the times (so they can be used as ordered keys). *)
Theorem C49_ledger_bytes_injective : forall a b, a < 2 ^ 32 -> b < 2 ^ 32 ->
  ctime_buf (Ledger a) = ctime_buf (Ledger b) -> a = b.
Proof.
  intros a b Ha Hb E. rewrite !ledger_buf_eq in E. apply (f_equal (skipn 1)) in E. cbn [skipn] in E.
  apply (be_put_inj 4) in E; assumption.
Qed.
Print Assumptions C49_ledger_bytes_injective.
Example C49_ledger_bytes_injective_applies : 1 < 2 ^ 32 /\ 256 < 2 ^ 32 /\ ctime_buf (Ledger 1) <> ctime_buf (Ledger 256).
Proof. split; [reflexivity|]. split; [reflexivity|discriminate]. Qed.

(** ** C50: raft time *)
(** Full statement of C50 fails for every raft time: the bytes written never parse back. *)
Theorem C50_raft_roundtrip_refuted : forall t m c, t < 2 ^ 32 -> m < 2 ^ 32 -> c < 2 ^ 32 ->
  new_consensus_time (ctime_buf (Raft t m c)) <> Ok (Raft t m c).
Proof.
  intros t m c Ht Hm Hc. pose proof (raft_never_back t m c) as H. now rewrite !N.mod_small in H.
Qed.
Print Assumptions C50_raft_roundtrip_refuted.
Example C50_raft_roundtrip_refuted_applies :
  new_consensus_time (ctime_buf (Raft 7 8 9)) = Err /\
  new_consensus_time (ctime_buf (Raft 16777221 8 9)) = Ok (Ledger 1280) /\
  new_consensus_time (ctime_buf (Raft 33554437 8 9)) = Ok (Raft 1280 2048 2304).
Proof. repeat split. Qed.

(** What the bytes are: the three fields from offset 0, and a final zero byte; no magic. *)
Theorem C50_raft_bytes_exact : forall t m c,
  ctime_buf (Raft t m c) = be_put 4 t ++ be_put 4 m ++ be_put 4 c ++ [x00].
Proof. exact raft_buf_eq. Qed.
Print Assumptions C50_raft_bytes_exact.

(** What holds: the intended layout (magic, then the three fields) is read back by the parser, so only the writer is wrong.
    Missing from the full statement: the writer's own output. *)
Theorem C50_raft_parse_partial : forall t m c suf, t < 2 ^ 32 -> m < 2 ^ 32 -> c < 2 ^ 32 ->
  new_consensus_time (x02 :: be_put 4 t ++ be_put 4 m ++ be_put 4 c ++ suf) = Ok (Raft t m c).
Proof.
  intros t m c suf Ht Hm Hc. rewrite parse_raft by apply be_put_length. rewrite !be_get_put. now rewrite !N.mod_small.
Qed.
Print Assumptions C50_raft_parse_partial.
Example C50_raft_parse_applies : new_consensus_time [x02; x00; x00; x00; x01; x00; x00; x00; x02; x00; x00; x00; x03] = Ok (Raft 1 2 3).
Proof. reflexivity. Qed.

(** No information is lost in the bytes, they are merely unreadable: two raft times never share their bytes. *)
Theorem C50_raft_bytes_injective : forall t m c t' m' c', t < 2 ^ 32 -> m < 2 ^ 32 -> c < 2 ^ 32 ->
  t' < 2 ^ 32 -> m' < 2 ^ 32 -> c' < 2 ^ 32 ->
  ctime_buf (Raft t m c) = ctime_buf (Raft t' m' c') -> t = t' /\ m = m' /\ c = c'.
Proof.
  intros t m c t' m' c' H1 H2 H3 H4 H5 H6 E. rewrite !raft_buf_eq in E.
  assert (forall (a a' b b' : bytes), length a = length a' -> a ++ b = a' ++ b' -> a = a' /\ b = b') as Q.
  { clear. induction a as [|x a IH]; intros [|y a'] b b' L H; simpl in L; try lia; [auto|].
    cbn [app] in H. assert (x = y) by congruence. destruct (IH a' b b' ltac:(lia)) as [-> ->]; [congruence|]. subst. auto. }
  apply Q in E; [|now rewrite !be_put_length]. destruct E as [E1 E].
  apply Q in E; [|now rewrite !be_put_length]. destruct E as [E2 E].
  apply Q in E; [|now rewrite !be_put_length]. destruct E as [E3 E].
  apply (be_put_inj 4) in E1, E2, E3; auto.
Qed.
Print Assumptions C50_raft_bytes_injective.
Example C50_raft_bytes_injective_applies : ctime_buf (Raft 1 0 0) <> ctime_buf (Raft 0 1 0).
Proof. discriminate. Qed.

(** Parsing arbitrary bytes is safe and exact: it succeeds on the two layouts only, ignores what follows them, and never panics. *)
Theorem C50_parse_time_exact : forall buf,
  (exists e suf, buf = x01 :: be_put 4 e ++ suf /\ e < 2 ^ 32 /\ new_consensus_time buf = Ok (Ledger e)) \/
  (exists t m c suf, buf = x02 :: be_put 4 t ++ be_put 4 m ++ be_put 4 c ++ suf /\
     t < 2 ^ 32 /\ m < 2 ^ 32 /\ c < 2 ^ 32 /\ new_consensus_time buf = Ok (Raft t m c)) \/
  new_consensus_time buf = Err.
Proof. exact consensus_time_cases. Qed.
Print Assumptions C50_parse_time_exact.
Example C50_parse_time_applies : new_consensus_time [x02; x00] = Err /\ new_consensus_time [] = Err /\ new_consensus_time [x03] = Err.
Proof. repeat split. Qed.

(** ** C51: raft order *)
(** Exact behaviour of LT and LE: LT is true when any of the three fields is smaller, LE is always true. *)
Theorem C51_raft_lt_le_exact : forall t m c t' m' c',
  (ct_lt (Raft t m c) (TArg (Raft t' m' c')) = Ok true <-> t < t' \/ m < m' \/ c < c') /\
  ct_le (Raft t m c) (TArg (Raft t' m' c')) = Ok true.
Proof.
  intros. unfold ct_lt, ct_le, raft_rel, raft_lt_chain.
  destruct (N.ltb_spec t t'); [split; [split; auto|reflexivity]|].
  destruct (N.ltb_spec m m'); [split; [split; auto|reflexivity]|].
  destruct (N.ltb_spec c c'); [split; [split; auto|reflexivity]|].
  split; [split; [discriminate|lia]|reflexivity].
Qed.
Print Assumptions C51_raft_lt_le_exact.

(** The full statement fails: (2,0,0) is not before (1,5,0), but LT says so; and GT and LT hold together. *)
Theorem C51_raft_order_refuted :
  ~ (forall t m c t' m' c',
       (ct_lt (Raft t m c) (TArg (Raft t' m' c')) = Ok true <-> raft_before t m c t' m' c') /\
       (ct_le (Raft t m c) (TArg (Raft t' m' c')) = Ok true <-> ~ raft_before t' m' c' t m c)).
Proof.
  intros H. destruct (H 2 0 0 1 5 0) as [[H1 _] _]. specialize (H1 eq_refl).
  unfold raft_before in H1. lia.
Qed.
Print Assumptions C51_raft_order_refuted.

Theorem C51_raft_gt_and_lt_together : exists t m c t' m' c',
  ct_lt (Raft t m c) (TArg (Raft t' m' c')) = Ok true /\ ct_gt (Raft t m c) (TArg (Raft t' m' c')) = Ok true.
Proof. exists 2, 0, 0, 1, 5, 0. split; reflexivity. Qed.
Print Assumptions C51_raft_gt_and_lt_together.

(** What holds: GT, GE, EQ and NE are the relations of the lexicographic order, LT and LE have no false negatives, and LT is right
    when all fields but the decisive one agree.
    Missing from the full statement: LT and LE being false when they should be. *)
Theorem C51_raft_order_partial : forall t m c t' m' c',
  (ct_gt (Raft t m c) (TArg (Raft t' m' c')) = Ok true <-> raft_before t' m' c' t m c) /\
  (ct_ge (Raft t m c) (TArg (Raft t' m' c')) = Ok true <-> ~ raft_before t m c t' m' c') /\
  (ct_eq (Raft t m c) (TArg (Raft t' m' c')) = Ok true <-> (t, m, c) = (t', m', c')) /\
  (ct_ne (Raft t m c) (TArg (Raft t' m' c')) = Ok true <-> (t, m, c) <> (t', m', c')) /\
  (raft_before t m c t' m' c' -> ct_lt (Raft t m c) (TArg (Raft t' m' c')) = Ok true) /\
  (~ raft_before t' m' c' t m c -> ct_le (Raft t m c) (TArg (Raft t' m' c')) = Ok true) /\
  (t = t' -> m = m' -> (ct_lt (Raft t m c) (TArg (Raft t' m' c')) = Ok true <-> raft_before t m c t' m' c')) /\
  Forall (fun r => exists v, r = Ok v)
    (map (fun f => f (Raft t m c) (TArg (Raft t' m' c'))) [ct_gt; ct_ge; ct_eq; ct_ne; ct_lt; ct_le]).
Proof.
  intros. destruct (C51_raft_lt_le_exact t m c t' m' c') as [L1 L2].
  assert (forall x : bool, @Ok bool x = Ok true <-> x = true) as Q by (intros x; split; [congruence|now intros ->]).
  split; [|split; [|split; [|split; [|split; [|split; [|split]]]]]].
  - unfold ct_gt, raft_rel, raft_gt_chain, raft_before. rewrite Q.
    repeat match goal with |- context [N.ltb ?x ?y] => destruct (N.ltb_spec x y) end; (split; [intros Hb; try discriminate; lia|intros Hb; try reflexivity; lia]).
  - unfold ct_ge, raft_rel, raft_gt_chain, raft_before. rewrite Q.
    repeat match goal with |- context [N.ltb ?x ?y] => destruct (N.ltb_spec x y) end; (split; [intros Hb; try discriminate; lia|intros Hb; try reflexivity; lia]).
  - unfold ct_eq, raft_rel. rewrite Q, !andb_true_iff, !N.eqb_eq. split; [intros [[-> ->] ->]; reflexivity|].
    intros E. inv E. auto.
  - unfold ct_ne, raft_rel, neqb. rewrite Q, !orb_true_iff, !negb_true_iff, !N.eqb_neq. split.
    + intros H E. inv E. tauto.
    + intros H. destruct (N.eq_dec t t') as [->|]; [|auto]. destruct (N.eq_dec m m') as [->|]; [|auto].
      right. intros ->. now apply H.
  - rewrite L1. unfold raft_before. lia.
  - intros _. exact L2.
  - intros -> ->. rewrite L1. unfold raft_before. lia.
  - cbn [map]. repeat constructor; eexists; reflexivity.
Qed.
Print Assumptions C51_raft_order_partial.
Example C51_raft_order_applies : raft_before 1 5 0 2 0 0 /\ ~ raft_before 2 0 0 1 5 0 /\
  ct_gt (Raft 2 0 0) (TArg (Raft 1 5 0)) = Ok true /\ ct_ge (Raft 1 5 0) (TArg (Raft 2 0 0)) = Ok false.
Proof. unfold raft_before. repeat split; lia. Qed.

(** The order the methods should follow is a strict total order. *)
Theorem C51_raft_before_total_order :
  (forall t m c, ~ raft_before t m c t m c) /\
  (forall t1 m1 c1 t2 m2 c2 t3 m3 c3, raft_before t1 m1 c1 t2 m2 c2 -> raft_before t2 m2 c2 t3 m3 c3 -> raft_before t1 m1 c1 t3 m3 c3) /\
  (forall t m c t' m' c', raft_before t m c t' m' c' \/ (t = t' /\ m = m' /\ c = c') \/ raft_before t' m' c' t m c).
Proof.
  split; [unfold raft_before; lia|]. split; [unfold raft_before; intros; lia|]. exact raft_before_total.
Qed.
Print Assumptions C51_raft_before_total_order.

(** ** C52: consensus identifiers *)
(** Exact behaviour on a non-empty buffer: an illegal magic or a short buffer is an error; otherwise the fields are the consecutive
    32-byte blocks the magic announces, and the stored bytes are exactly the magic and these blocks, whatever follows. *)
Theorem C52_consensus_id_exact : forall m l,
  (~ legal_magic m -> new_consensus_id (m :: l) = Err) /\
  (legal_magic m -> (length l < announced_bytes m)%nat -> new_consensus_id (m :: l) = Err) /\
  (legal_magic m -> (announced_bytes m <= length l)%nat ->
   exists p r u c f s ss se,
     l = p ++ r /\ length p = announced_bytes m /\ fields_at (announced m) p [u; c; f; s; ss; se] [] /\
     new_consensus_id (m :: l) = Ok (mkCID m u c f s ss se (m :: p))).
Proof.
  intros m l. split; [|split].
  - apply illegal_magic_err.
  - apply consensus_id_short.
  - intros H L. destruct (fields_at_exists (announced m) l L) as (fs & r & F).
    destruct (fields6 _ _ _ _ F) as (u & c & f & s & ss & se & ->).
    destruct (fields_at_suffix _ _ _ _ F) as (p & -> & F' & _).
    exists p, r, u, c, f, s, ss, se. split; [reflexivity|]. split.
    { pose proof (fields_at_length _ _ _ _ F') as Q. cbn [length] in Q. unfold announced_bytes. lia. }
    split; [assumption|]. now apply consensus_id_ok.
Qed.
Print Assumptions C52_consensus_id_exact.
Example C52_consensus_id_applies : legal_magic x48 /\ announced_bytes x48 = 96%nat /\
  exists i, new_consensus_id (x48 :: repeat x0a 32 ++ repeat x0b 32 ++ repeat x0c 32 ++ [x01; x02]) = Ok i /\
            cid_universe i = None /\ cid_cluster i = Some (repeat x0a 32) /\ cid_federation i = None /\ cid_service i = None /\
            cid_shard_start i = Some (repeat x0b 32) /\ cid_shard_end i = Some (repeat x0c 32) /\
            length (cid_buf i) = 97%nat.
Proof.
  split; [split; [discriminate|reflexivity]|]. split; [reflexivity|].
  eexists. split; [reflexivity|]. repeat split; reflexivity.
Qed.

(** Full statement ("never panics") fails, exactly on the empty buffer. *)
Theorem C52_never_panics_refuted : ~ (forall buf, new_consensus_id buf <> Panic).
Proof. intros H. exact (H [] eq_refl). Qed.
Print Assumptions C52_never_panics_refuted.

Theorem C52_panics_exactly_on_empty : forall buf, new_consensus_id buf = Panic <-> buf = [].
Proof.
  intros buf. split; [|now intros ->]. destruct buf as [|m l]; [reflexivity|]. intros E. exfalso.
  destruct (C52_consensus_id_exact m l) as (H1 & H2 & H3).
  assert (legal_magic m \/ ~ legal_magic m) as [L|L].
  { unfold legal_magic. lia. }
  - destruct (le_lt_dec (announced_bytes m) (length l)) as [C|C].
    + destruct (H3 L C) as (p & r & u & c & f & s & ss & se & _ & _ & _ & Q). congruence.
    + specialize (H2 L C). congruence.
  - specialize (H1 L). congruence.
Qed.
Print Assumptions C52_panics_exactly_on_empty.

(** What holds: for every parsed identifier, the stored bytes are a prefix of the input that depends on the magic only, re-parsing
    gives the same identifier, and so does Copy. Missing from the full statement: the empty buffer. *)
Theorem C52_parse_copy_partial : forall buf i, new_consensus_id buf = Ok i ->
  (exists r, buf = cid_buf i ++ r) /\
  consensus_magic i = Ok (cid_magic i) /\ length (cid_buf i) = S (announced_bytes (cid_magic i)) /\
  new_consensus_id (cid_buf i) = Ok i /\ copy_consensus_id i = Ok i /\
  forall s, new_consensus_id (cid_buf i ++ s) = Ok i.
Proof.
  intros buf i E. destruct buf as [|m l]; [discriminate|].
  destruct (C52_consensus_id_exact m l) as (H1 & H2 & H3).
  assert (legal_magic m \/ ~ legal_magic m) as [L|L].
  { unfold legal_magic. lia. }
  2:{ specialize (H1 L). congruence. }
  destruct (le_lt_dec (announced_bytes m) (length l)) as [C|C]; [|specialize (H2 L C); congruence].
  destruct (H3 L C) as (p & r & u & c & f & s & ss & se & -> & Lp & F & Q). rewrite Q in E. inv E. simpl.
  assert (forall s0, new_consensus_id (m :: p ++ s0) = Ok (mkCID m u c f s ss se (m :: p))) as G.
  { intros s0. now apply consensus_id_ok. }
  pose proof (G []) as G0. rewrite app_nil_r in G0.
  split; [exists r; reflexivity|]. split; [reflexivity|]. split; [now rewrite Lp|]. split; [exact G0|].
  split; [|exact G]. unfold copy_consensus_id. cbn [cid_buf]. now rewrite G0.
Qed.
Print Assumptions C52_parse_copy_partial.
Example C52_parse_copy_applies : exists i, new_consensus_id (x80 :: repeat x07 40) = Ok i /\ length (cid_buf i) = 33%nat.
Proof. eexists. split; reflexivity. Qed.
