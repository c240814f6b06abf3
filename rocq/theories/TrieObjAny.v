(** * Calls on trie nodes and tries under any sub keys. *)
From Coq Require Import List NArith ZArith Bool Lia Arith.
From Coq Require Import Strings.Byte.
From Verif Require Import Base BaseProofs EndianModel VarintModel VarintSpec VarintProofs CmpModel CmpSpec CmpProofs KeyModel ValueModel
  AVLModel MapSpec AVLSpec AVLProofs AVLHistory AVLProps TrieModel TrieObjModel TrieObjSpec TrieObjProofs TrieObjKids TrieObjTrie.
Import ListNotations.

(** The key of a call is a proper prefix of the key of a child. *)
Definition clash (ns : list anode) (c : tcall) : Prop :=
  match c with
  | NGet a k | NPut a k _ | NRemove a k => exists x, is_node ns a x /\ clashes k (a_kids x)
  | _ => False
  end.

Lemma encode_step P h a : inv P h -> legal P (views h) (NEncode a) ->
  does (views h) (NEncode a) (views (fst (tstep h (NEncode a)))) (snd (tstep h (NEncode a))) /\ inv P (fst (tstep h (NEncode a))).
Proof.
    intros I L. cbn [legal] in L. cbn [does tstep]. unfold on_node.
    destruct L as (x' & L & M). destruct (is_node_inv _ _ _ L) as (x & E & ->). rewrite E.
    destruct (I _ _ E) as [N Hc]. pose proof N as ((_ & _ & _ & Es) & Ho & Hp). unfold store.
    assert (R : forall b, becomes (views h) a (view (with_buf x (Some b))) (views (set_nth h a (with_buf x (Some b)))))
      by (intros b; apply becomes_set; exact (nth_lt _ _ _ E)).
    assert (Enc : exists lk, encode_varchar (gcontent (nd_key x)) = Ok lk).
    { destruct M as [M1 _]. cbn [view a_key] in M1. destruct (varchar_layout (gcontent (nd_key x))) as (lk & -> & _); [|eauto].
      unfold zlen, gcontent. destruct (nd_key x); cbn [length] in *; lia. }
    destruct (nd_parent x) as [p|] eqn:Ep; cbn [view a_parent a_data].
    + assert (Ly : p < length h) by (pose proof (nth_lt _ _ _ E); lia). destruct (lt_nth h p Ly) as (y & Ey).
      destruct (nd_data x) as [v|] eqn:Ed.
      * pose proof (node_encode_ok h x p y v Ep Ey Ed M Es (proj1 (proj2 (proj1 (I _ _ Ey))))) as W.
        destruct (value_encode v) as [d| |] eqn:Ev.
        -- destruct W as (b & -> & W). cbn [rbind fst snd]. split.
           ++ exists (view x). split; [exact L|]. cbn [view a_parent a_data]. rewrite Ep, Ed. exists (view y).
              split; [now apply is_node_view|]. rewrite Ev. exists b. split; [exact W|]. split; [|reflexivity].
              specialize (R b). unfold view in R. cbn [with_buf nd_parent nd_data] in R. rewrite Ep, Ed in R. exact R.
           ++ apply inv_set; assumption.
        -- rewrite W. cbn [rbind fst snd]. split; [|exact I]. exists (view x). split; [exact L|]. cbn [view a_parent a_data].
           rewrite Ep, Ed. exists (view y). split; [now apply is_node_view|]. rewrite Ev. auto.
        -- rewrite W. cbn [rbind fst snd]. split; [|exact I]. exists (view x). split; [exact L|]. cbn [view a_parent a_data].
           rewrite Ep, Ed. exists (view y). split; [now apply is_node_view|]. rewrite Ev. auto.
      * assert (W : node_encode h x = Panic).
        { unfold node_encode. destruct Enc as (lk & ->). cbn [rbind]. rewrite Ep, Ey, Ed.
          destruct (I _ _ Ey) as [(_ & Hy & _) _]. unfold encode_uvarint64. rewrite N.mod_small by lia.
          destruct (put_uvarint_10 (nd_off y)) as (lo & -> & _); [lia|]. reflexivity. }
        rewrite W. cbn [rbind fst snd]. split; [|exact I]. exists (view x). split; [exact L|]. cbn [view a_parent a_data].
        rewrite Ep, Ed. auto.
    + assert (W : node_encode h x = Panic).
      { unfold node_encode. destruct Enc as (lk & ->). cbn [rbind]. rewrite Ep. reflexivity. }
      rewrite W. cbn [rbind fst snd]. split; [|exact I]. exists (view x). split; [exact L|]. cbn [view a_parent a_data].
      rewrite Ep. auto.
Qed.

Lemma node_step_any h c : inv any h -> legal any (views h) c ->
  (match c with TrGet _ _ | TrSet _ _ _ => False | _ => True end) ->
  (does (views h) c (views (fst (tstep h c))) (snd (tstep h c)) \/
   fst (tstep h c) = h /\ snd (tstep h c) = Panic /\ clash (views h) c) /\ inv any (fst (tstep h c)).
Proof.
  intros I L T. destruct c; cbn [legal] in L; try contradiction; cbn [does tstep]; unfold on_node.
  - rewrite (live_ok h p L). cbn [fst snd]. split.
    + left. rewrite views_length. unfold views. rewrite map_app. cbn [map]. destruct p; auto.
    + apply inv_app; [exact I| |].
      * destruct p as [p|]; unfold node_ok, new_node; cbn; split; try apply kids_ok_new; split; try reflexivity; try lia.
        unfold exists_at in L. now rewrite views_length in L.
      * destruct p; intros ? ? [].
  - node_at L x E. rewrite E. split; [left|exact I]. exists (view x). auto.
  - node_at L x E. rewrite E. split; [left|exact I]. exists (view x). auto.
  - node_at L x E. rewrite E. split; [left|exact I]. cbn [fst snd]. split; [reflexivity|].
    destruct (key_path_ok any h I (S a) a []) as (p & ->); [lia|exact (nth_lt _ _ _ E)|]. cbn [rbind]. now rewrite full_key_panics.
  - node_at L x E. rewrite E. split; [left|exact I]. exists (view x). split; [assumption|]. split; [reflexivity|]. cbn [snd view a_kids].
    destruct (I _ _ E) as [((_ & _ & _ & ->) & _) _]. reflexivity.
  - destruct L as [L Dk]. node_at L x E. rewrite E. split; [|exact I].
    cbn [fst snd]. destruct (kid_any a x k (proj1 (I _ _ E)) Dk) as [(c & -> & H1)|(-> & [H1|H1])]; cbn [rbind].
    + left. exists (view x). split; [assumption|]. split; [reflexivity|]. left. eauto.
    + left. exists (view x). split; [assumption|]. split; [reflexivity|]. right. eauto.
    + right. split; [reflexivity|]. split; [reflexivity|]. exists (view x). auto.
  - destruct L as (L & Dk & Lc). rewrite (live_ok h c Lc). node_at L x E. rewrite E. unfold store, put_kid.
    destruct (I _ _ E) as [(K & Ho & Hp) Hc].
    destruct (kids_put_any (nd_kids x) k c K Dk) as [(m' & o & -> & K' & M)|(-> & C)]; cbn [rbind fst snd].
    2: { split; [|exact I]. right. split; [reflexivity|]. split; [reflexivity|]. exists (view x). auto. }
    split.
    + left. exists (view x), (entries m'). split; [assumption|]. split; [split; [apply K'|exact M]|]. split; [|reflexivity].
      apply (becomes_set h a (with_kids x m')). exact (nth_lt _ _ _ E).
    + apply inv_set; [exact I|repeat split; try assumption; apply K'|]. cbn [with_kids nd_kids]. intros k0 c0 H0. apply M in H0.
      destruct H0 as [H0|[H0 _]]; [|eauto]. inv H0. unfold exists_at in Lc. now rewrite views_length in Lc.
  - destruct L as (L & Dk). node_at L x E. rewrite E. unfold store, remove_kid.
    destruct (I _ _ E) as [(K & Ho & Hp) Hc].
    destruct (kids_remove_any (nd_kids x) k K Dk) as [(m' & o & -> & K' & M)|(-> & C)]; cbn [rbind fst snd].
    2: { split; [|exact I]. right. split; [reflexivity|]. split; [reflexivity|]. exists (view x). auto. }
    split.
    + left. exists (view x), (entries m'). split; [assumption|]. split; [split; [apply K'|exact M]|]. split; [|reflexivity].
      apply (becomes_set h a (with_kids x m')). exact (nth_lt _ _ _ E).
    + apply inv_set; [exact I|repeat split; try assumption; apply K'|]. cbn [with_kids nd_kids]. intros k0 c0 H0. apply M in H0.
      destruct H0 as [H0 _]. eauto.
  - node_at L x E. rewrite E. split; [left|exact I]. exists (view x). auto.
  - node_at L x E. rewrite E. cbn [fst snd]. split.
    + left. exists (view x). split; [assumption|]. split; [|reflexivity]. apply (becomes_set h a (with_data x d)). exact (nth_lt _ _ _ E).
    + destruct (I _ _ E) as [N Hc]. apply inv_set; assumption.
  - node_at L x E. rewrite E. split; [left|exact I]. exists (view x). auto.
  - node_at L x E. rewrite E. cbn [fst snd]. split.
    + left. exists (view x). split; [assumption|]. split; [|reflexivity]. apply (becomes_set h a (with_off x (o mod 2 ^ 32)%N)). exact (nth_lt _ _ _ E).
    + destruct (I _ _ E) as [(K & Ho & Hp) Hc]. apply inv_set; [exact I| |assumption]. repeat split; try assumption; try apply K.
      cbn [with_off nd_off]. apply N.mod_lt. discriminate.
  - pose proof (encode_step any h a I L) as W. split; [left; exact (proj1 W)|exact (proj2 W)].
  - node_at L x E. rewrite E. split; [left|exact I]. exists (view x). auto.
  - node_at L x E. rewrite E. split; [left|exact I]. exists (view x). auto.
  - node_at L x E. rewrite E. destruct (I _ _ E) as [(K & Ho & Hp) Hc]. unfold node_copy.
    assert (E0 : nd_kids (new_node (nd_parent x) (nd_key x) (nd_data x)) = new_avl) by (unfold new_node; destruct (nd_parent x); reflexivity).
    rewrite E0. destruct (put_entries_any (entries (nd_kids x)) new_avl []) as (m & -> & K' & Em);
      [apply kids_ok_new|reflexivity|apply K|apply K|]. cbn [rbind app] in *. cbn [fst snd].
    assert (Ev : view (with_kids (new_node (nd_parent x) (nd_key x) (nd_data x)) m) =
                 mk_anode (nd_parent x) (nd_key x) (nd_data x) (entries (nd_kids x)) None 0).
    { unfold view, with_kids, new_node. destruct (nd_parent x) eqn:Ep; cbn; rewrite Em; [reflexivity|]. now rewrite Hp. }
    split.
    + left. exists (view x). split; [assumption|]. rewrite views_length. unfold views at 1. rewrite map_app. cbn [map]. rewrite Ev. auto.
    + apply inv_app; [exact I| |].
      * unfold node_ok, with_kids, new_node. destruct (nd_parent x) as [p|] eqn:Ep; cbn; repeat split; try apply K'; try lia.
        pose proof (nth_lt _ _ _ E). lia.
      * cbn [with_kids nd_kids]. rewrite Em. exact Hc.
Qed.

Lemma reachable_any h : reachable any h -> inv any h.
Proof.
  induction 1 as [|h c R IH L].
  - intros a x E. destruct a; discriminate.
  - destruct c; try (apply node_step_any; [exact IH|exact L|exact I]); apply (trie_step_inv any); try exact IH; try exact L; exact I.
Qed.
