(** * Final theorem about the estimates of keys (C34). *)
From Coq Require Import List NArith ZArith Bool Lia.
From Coq Require Import Strings.Byte.
From Verif Require Import Base BaseProofs VarintModel KeyModel KeySpec KeyProofs KeyHistory.
Import ListNotations.

(** EstBufSize: at first one byte, and for a simple key one more and its length; then for each sub key added one more and its length,
    counted from the length of the bytes after an Encode that succeeded. *)
Fixpoint weight (l : list gslice) : Z := match l with [] => 0 | s :: l => 1 + zlen (gcontent s) + weight l end.
Definition no_encode (k0 : ikey) (ops : list key_op) : Prop :=
  forall a b k1, ops = a ++ OpEncode :: b -> key_run k0 a = Ok k1 -> forall l, encode_keys (ikey_keys k1) <> Ok l.
Lemma run_est ops : forall k k', is_kkey k -> key_run k ops = Ok k' -> no_encode k ops -> ikey_est k' = (ikey_est k + weight (added ops))%Z.
Proof.
  induction ops as [|o ops IH]; intros k k' K R N; [cbn in R; inv R; cbn [added weight]; lia|].
  cbn [key_run] in R. destruct (key_step k o) as [k1| |] eqn:E; try discriminate. cbn [rbind] in R.
  assert (is_kkey k1 /\ no_encode k1 ops) as (K1 & N1).
  { split.
    - apply (key_run_keys [o] k k1 K). cbn [key_run]. now rewrite E.
    - intros a b k2 -> R2. apply (N (o :: a) b k2); [reflexivity|]. cbn [key_run]. now rewrite E. }
  rewrite (IH k1 k' K1 R N1). destruct K as (e & ks & buf & est & ->). destruct o as [s|].
  - cbn [key_step key_add] in E. cbn [added weight]. destruct (gcontent s) eqn:G; [discriminate|]. inv E. cbn [ikey_est]. lia.
  - cbn [key_step key_encode] in E. cbn [added]. specialize (N [] ops _ eq_refl eq_refl). cbn [ikey_keys] in N.
    destruct (encode_keys ks) as [l| |]; [now elim (N l)| |]; cbn [rbind] in E; try discriminate. now inv E.
Qed.
Theorem C34_est_exact :
  (forall ops k, key_run new_key ops = Ok k -> no_encode new_key ops -> ikey_est k = (1 + weight (added ops))%Z) /\
  (forall s ops k, key_run (new_simple_key s) ops = Ok k -> no_encode (new_simple_key s) ops -> ikey_est k = (1 + weight (s :: added ops))%Z) /\
  (forall k0 ops1 k1 l k2 ops2 k, k0 = new_key \/ (exists s, k0 = new_simple_key s) ->
     key_run k0 ops1 = Ok k1 -> encode_keys (ikey_keys k1) = Ok l -> key_run k0 (ops1 ++ [OpEncode]) = Ok k2 ->
     key_run k2 ops2 = Ok k -> no_encode k2 ops2 -> ikey_est k = (zlen l + weight (added ops2))%Z).
Proof.
  split; [|split].
  - intros ops k R N. rewrite (run_est ops new_key k); [reflexivity|repeat eexists|exact R|exact N].
  - intros s ops k R N. rewrite (run_est ops (new_simple_key s) k); [cbn [weight new_simple_key ikey_est]; lia|repeat eexists|exact R|exact N].
  - intros k0 ops1 k1 l k2 ops2 k Hk R1 L R2 R N. assert (is_kkey k0) as K by (destruct Hk as [->|[s ->]]; repeat eexists).
    destruct (key_run_keys _ _ _ K R1) as [(e & ks & buf & est & ->) _]. cbn [ikey_keys] in L.
    rewrite key_run_app, R1 in R2. cbn [rbind key_run key_step key_encode] in R2. rewrite L in R2. cbn [rbind] in R2. inv R2.
    rewrite (run_est ops2 (KKey true ks (Some l) (zlen l)) k); [reflexivity|repeat eexists|exact R|exact N].
Qed.
Print Assumptions C34_est_exact.
Example C34_est_applies : exists k k',
  key_run (new_simple_key (Some [x61])) [OpAdd (Some [x62; x63])] = Ok k /\ ikey_est k = 6%Z /\ encode_keys (ikey_keys k) = Ok [x02; x01; x61; x02; x62; x63] /\
  key_run (new_simple_key (Some [x61])) [OpEncode; OpAdd (Some [x62; x63])] = Ok k' /\ ikey_est k' = 6%Z.
Proof. do 2 eexists. repeat split; vm_compute; reflexivity. Qed.

