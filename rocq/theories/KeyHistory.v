(** * Histories of calls on a mutable key (Key.Add, Key.Encode; key_util.go:403-430, 545-554). *)
From Coq Require Import List NArith ZArith Bool Lia.
From Coq Require Import Strings.Byte.
From Verif Require Import Base BaseProofs VarintModel VarintSpec VarintProofs KeyModel KeySpec KeyProofs.
Import ListNotations.

Inductive key_op := OpAdd (s : gslice) | OpEncode.

(** One call. An Encode that returns an error leaves the key as it was; a panicking Add ends the history. *)
Definition key_step (k : ikey) (o : key_op) : res ikey :=
  match o with
  | OpAdd s => key_add k s
  | OpEncode => match key_encode k with Err => Ok k | r => r end
  end.

Fixpoint key_run (k : ikey) (ops : list key_op) : res ikey :=
  match ops with [] => Ok k | o :: ops' => let? k' := key_step k o in key_run k' ops' end.

(** The sub keys added by a list of calls. *)
Fixpoint added (ops : list key_op) : list gslice :=
  match ops with [] => [] | OpAdd s :: ops' => s :: added ops' | OpEncode :: ops' => added ops' end.

Lemma key_run_app k ops1 ops2 : key_run k (ops1 ++ ops2) = rbind (key_run k ops1) (fun k1 => key_run k1 ops2).
Proof.
  revert k. induction ops1 as [|o ops1 IH]; intros k; [reflexivity|]. simpl.
  destruct (key_step k o); simpl; auto.
Qed.

Lemma added_app a b : added (a ++ b) = added a ++ added b.
Proof. induction a as [|[s|] a IH]; simpl; congruence. Qed.

Definition is_kkey (k : ikey) : Prop := exists e ks buf est, k = KKey e ks buf est.

Lemma key_step_keys k o k' : is_kkey k -> key_step k o = Ok k' -> is_kkey k' /\ ikey_keys k' = ikey_keys k ++ added [o].
Proof.
  intros (e & ks & buf & est & ->) H. destruct o as [s|]; simpl in H.
  - destruct (gcontent s); [discriminate|]. inv H. split; [repeat eexists|reflexivity].
  - simpl. rewrite app_nil_r. destruct (encode_keys ks); simpl in H; inv H; (split; [repeat eexists|reflexivity]).
Qed.

Lemma key_run_keys ops : forall k k', is_kkey k -> key_run k ops = Ok k' ->
  is_kkey k' /\ ikey_keys k' = ikey_keys k ++ added ops.
Proof.
  induction ops as [|o ops IH]; intros k k' Hk H; simpl in H.
  - inv H. rewrite app_nil_r. auto.
  - destruct (key_step k o) as [k1| |] eqn:S; try discriminate. cbn [rbind] in H.
    destruct (key_step_keys _ _ _ Hk S) as [Hk1 E1]. destruct (IH _ _ Hk1 H) as [Hk' E'].
    split; [assumption|]. rewrite E', E1, <- app_assoc. f_equal. destruct o; reflexivity.
Qed.

(** Exactly what an encoded key holds: the bytes of the last Encode that succeeded. *)
Lemma key_history k0 ops : is_kkey k0 -> ikey_is_encoded k0 = false -> forall k, key_run k0 ops = Ok k ->
  if ikey_is_encoded k
  then exists ops1 ops2 k1 l,
    ops = ops1 ++ OpEncode :: ops2 /\ key_run k0 ops1 = Ok k1 /\
    encode_keys (ikey_keys k1) = Ok l /\ ikey_buf k = Ok (Some l) /\
    ikey_keys k = ikey_keys k1 ++ added ops2 /\
    (forall a b k2, ops2 = a ++ OpEncode :: b -> key_run k0 (ops1 ++ OpEncode :: a) = Ok k2 ->
       forall l2, encode_keys (ikey_keys k2) <> Ok l2)
  else forall a b k2, ops = a ++ OpEncode :: b -> key_run k0 a = Ok k2 -> forall l2, encode_keys (ikey_keys k2) <> Ok l2.
Proof.
  intros Hk He. induction ops as [|o ops IH] using rev_ind; intros k H.
  - simpl in H. inv H. rewrite He. intros a b k2 E. destruct a; discriminate.
  - rewrite key_run_app in H. destruct (key_run k0 ops) as [k'| |] eqn:R; try discriminate. cbn [rbind] in H.
    simpl in H. destruct (key_step k' o) as [k''| |] eqn:S; try discriminate. cbn [rbind] in H. inv H.
    specialize (IH _ eq_refl). destruct (key_run_keys _ _ _ Hk R) as [(e & ks & buf & est & ->) Eks].
    cbn [ikey_is_encoded] in IH.
    assert (forall a b, ops ++ [OpEncode] = a ++ OpEncode :: b -> (b = [] /\ a = ops) \/ exists b', b = b' ++ [OpEncode] /\ ops = a ++ OpEncode :: b') as Last.
    { intros a b E. destruct b as [|y b _] using rev_ind.
      - left. apply app_inj_tail in E. destruct E. auto.
      - right. rewrite app_comm_cons, app_assoc in E. apply app_inj_tail in E. destruct E as [-> <-]. eauto. }
    assert (forall s a b, ops ++ [OpAdd s] = a ++ OpEncode :: b -> exists b', b = b' ++ [OpAdd s] /\ ops = a ++ OpEncode :: b') as LastA.
    { intros s a b E. destruct b as [|y b _] using rev_ind.
      - apply app_inj_tail in E. destruct E. discriminate.
      - rewrite app_comm_cons, app_assoc in E. apply app_inj_tail in E. destruct E as [-> <-]. eauto. }
    destruct o as [s|]; simpl in S.
    + (* Add *)
      destruct (gcontent s) as [|c cs] eqn:G; [discriminate|]. inv S. cbn [ikey_is_encoded].
      destruct e.
      * destruct IH as (ops1 & ops2 & k1 & l & -> & R1 & E1 & B & K & NL).
        exists ops1, (ops2 ++ [OpAdd s]), k1, l.
        split; [now rewrite <- app_assoc|]. split; [assumption|]. split; [assumption|]. split; [exact B|].
        split.
        -- cbn [ikey_keys] in *. rewrite K, added_app, <- app_assoc. reflexivity.
        -- intros a b k2 E Ra. destruct b as [|y b _] using rev_ind.
           ++ apply app_inj_tail in E. destruct E. discriminate.
           ++ rewrite app_comm_cons, app_assoc in E. apply app_inj_tail in E. destruct E as [-> <-]. eapply NL; eauto.
      * intros a b k2 E Ra. destruct (LastA _ _ _ E) as (b' & -> & E'). eapply IH; eauto.
    + (* Encode *)
      destruct (encode_keys ks) as [l| |] eqn:En; cbn [rbind] in S; inv S.
      * cbn [ikey_is_encoded]. exists ops, [], (KKey e ks buf est), l.
        split; [reflexivity|]. split; [assumption|]. split; [assumption|]. split; [reflexivity|].
        split; [cbn [ikey_keys added]; now rewrite app_nil_r|]. intros a b k2 E. destruct a; discriminate.
      * cbn [ikey_is_encoded]. destruct e.
        -- destruct IH as (ops1 & ops2 & k1 & l & -> & R1 & E1 & B & K & NL).
           exists ops1, (ops2 ++ [OpEncode]), k1, l.
           split; [now rewrite <- app_assoc|]. split; [assumption|]. split; [assumption|]. split; [exact B|].
           split; [rewrite added_app; simpl; now rewrite app_nil_r|].
           intros a b k2 E Ra. destruct b as [|y b _] using rev_ind.
           ++ apply app_inj_tail in E. destruct E as [-> _]. rewrite Ra in R. inv R. cbn [ikey_keys]. congruence.
           ++ rewrite app_comm_cons, app_assoc in E. apply app_inj_tail in E. destruct E as [-> <-]. eapply NL; eauto.
        -- intros a b k2 E Ra. destruct (Last _ _ E) as [(-> & ->)|(b' & -> & E')].
           ++ rewrite Ra in R. inv R. cbn [ikey_keys]. congruence.
           ++ eapply IH; eauto.
Qed.
