(** * Trie nodes and tries in shared memory: C92, C93, C94 and C95. *)
From Coq Require Import List NArith ZArith Bool Lia Arith.
From Coq Require Import Strings.Byte.
From Verif Require Import Base BaseProofs EndianModel VarintModel VarintSpec VarintProofs CmpModel CmpSpec CmpProofs KeyModel KeyProofs ValueModel ValueProofs
  AVLModel MapSpec AVLSpec AVLProofs AVLHistory AVLProps TrieModel TrieProps TrieObjModel TrieObjSpec TrieObjProofs TrieObjTrie TrieObjMapped.
Import ListNotations.

(** Not a call on a whole trie. *)
Definition node_call (c : tcall) : Prop := match c with TrGet _ _ | TrSet _ _ _ => False | _ => True end.

(** ** Histories for the examples *)
Fixpoint legal_run (P : bytes -> Prop) (h : nodes) (cs : list tcall) : Prop :=
  match cs with [] => True | c :: cs' => legal P (views h) c /\ legal_run P (fst (tstep h c)) cs' end.
Lemma reachable_run P cs : forall h, reachable P h -> legal_run P h cs -> reachable P (fst (trun h cs)).
Proof.
  induction cs as [|c cs IH]; intros h R L; [exact R|]. destruct L as [L1 L2]. cbn [trun].
  pose proof (IH _ (reach_call P h c R L1) L2) as G. destruct (tstep h c) as [h1 o]. cbn [fst] in G.
  destruct (trun h1 cs) as [h2 os]. exact G.
Qed.
Definition one_byte : bytes -> Prop := fun l => length l = 1%nat.
Definition ka : gslice := Some [x61].
Definition kb : gslice := Some [x62].
Definition kc : gslice := Some [x63].
Definition va : value := VPrim (Some [x01]).
Definition vb : value := VPrim (Some [x02]).
Definition vc : value := VPrim (Some [x03]).
(** A root with "a" below it (value va), "a","b" (vb) and "c" (vc). *)
Definition demo_calls : list tcall :=
  [NNew None None None; NNew (Some 0%nat) ka (Some va); NPut 0 ka (Some 1%nat); NNew (Some 1%nat) kb (Some vb); NPut 1 kb (Some 2%nat);
   NNew (Some 0%nat) kc (Some vc); NPut 0 kc (Some 3%nat)].
Definition demo : nodes := fst (trun [] demo_calls).
Lemma demo_reachable : reachable one_byte demo.
Proof.
  apply reachable_run; [constructor|]. vm_compute. repeat split; try (eexists; split; reflexivity); repeat constructor.
Qed.
Definition demo_views : list anode :=
  [mk_anode None None None [(ka, Some 1%nat); (kc, Some 3%nat)] None 0;
   mk_anode (Some 0%nat) ka (Some va) [(kb, Some 2%nat)] None 0;
   mk_anode (Some 1%nat) kb (Some vb) [] None 0;
   mk_anode (Some 0%nat) kc (Some vc) [] None 0].
Lemma demo_is : views demo = demo_views.
Proof. vm_compute. reflexivity. Qed.
Lemma demo_linked : linked (views demo) /\ is_root (views demo) 0.
Proof.
  rewrite demo_is. split.
  - intros a x k o H Hk. unfold is_node, demo_views in *.
    do 4 (destruct a as [|a]; [cbn in H; inversion H; subst x; cbn in Hk; repeat (destruct Hk as [Hk|Hk]; [inversion Hk; subst; eexists; eexists; repeat split; reflexivity|]); destruct Hk|]).
    destruct a; discriminate.
  - eexists. split; reflexivity.
Qed.
Lemma one_byte_prefix_free : prefix_free one_byte.
Proof. exact (C16_fixed_length 1). Qed.
Definition key_ab : ikey := KKey false [ka; kb] None 1.
Definition key_a : ikey := KKey false [ka] None 1.
Definition key_c : ikey := KKey false [kc] None 1.
Definition key_b : ikey := KKey false [kb] None 1.

(** ** C92: trie nodes *)

(** The exact effect of every call on a node, in every history of calls. *)
Theorem C92_call_exact : forall P h c, prefix_free P -> reachable P h -> legal P (views h) c -> node_call c ->
  does (views h) c (views (fst (tstep h c))) (snd (tstep h c)).
Proof.
  intros P h c PF R L N. apply (node_step P PF h c (reachable_inv P PF h R) L). destruct c; try exact I; destruct N.
Qed.
Print Assumptions C92_call_exact.
Example C92_call_exact_applies :
  prefix_free one_byte /\ reachable one_byte demo /\ legal one_byte (views demo) (NRemove 0 ka) /\ node_call (NRemove 0 ka) /\
  exists x, is_node (views (fst (tstep demo (NRemove 0 ka)))) 0 x /\ a_kids x = [(kc, Some 3%nat)].
Proof.
  split; [exact one_byte_prefix_free|]. split; [exact demo_reachable|]. split.
  - split; [unfold exists_at; rewrite demo_is; cbn; lia|exists [x61]; split; reflexivity].
  - split; [exact I|]. eexists. split; vm_compute; reflexivity.
Qed.

(** The children are a map: a child that was put is found under its key, and the other keys find what they found. *)
Theorem C92_children_partial : forall P h a k c k', prefix_free P -> reachable P h -> exists_at (views h) a -> exists_at (views h) c ->
  key_from P k -> key_from P k' ->
  let h1 := fst (tstep h (NPut a k (Some c))) in
  snd (tstep h (NPut a k (Some c))) = Ok RNone /\
  (k' = k -> snd (tstep h1 (NGet a k')) = Ok (RNode (Some c))) /\
  (k' <> k -> snd (tstep h1 (NGet a k')) = snd (tstep h (NGet a k'))).
Proof.
  intros P h a k c k' PF R Ha Hc Dk Dk' h1.
  assert (Lp : legal P (views h) (NPut a k (Some c))) by (split; [exact Ha|split; assumption]).
  destruct (node_step P PF h _ (reachable_inv P PF h R) Lp Logic.I) as [D I1]. fold h1 in D, I1.
  destruct D as (x & l & Hx & (Ho & Hl) & B & ->). unfold becomes in B.
  assert (La : (a < length (views h))%nat) by exact Ha.
  assert (Hx1 : is_node (views h1) a (mk_anode (a_parent x) (a_key x) (a_data x) l (a_buf x) (a_off x))).
  { unfold is_node. rewrite B, nth_error_app2 by (rewrite firstn_length_le; lia). rewrite firstn_length_le by lia. now rewrite Nat.sub_diag. }
  assert (Lg1 : legal P (views h1) (NGet a k')).
  { split; [|exact Dk']. unfold exists_at. unfold is_node in Hx1. apply nth_error_Some. rewrite Hx1. discriminate. }
  destruct (node_step P PF h1 _ I1 Lg1 Logic.I) as [D1 _]. destruct D1 as (x1 & H1 & _ & D1).
  unfold is_node in *. rewrite Hx1 in H1. inv H1. cbn [a_kids] in D1.
  destruct (node_step P PF h (NGet a k') (reachable_inv P PF h R) (conj Ha Dk') Logic.I) as [D0 _]. destruct D0 as (x0 & H0 & _ & D0).
  unfold is_node in *. rewrite Hx in H0. inv H0.
  split; [reflexivity|]. split.
  - intros ->. destruct D1 as [(c' & Hc' & ->)|(Hn & _)].
    + apply Hl in Hc'. destruct Hc' as [Hc'|[_ Hc']]; [inv Hc'; reflexivity|]. cbn in Hc'. congruence.
    + exfalso. apply (Hn c). apply Hl. now left.
  - intros Hne. destruct D1 as [(c' & Hc' & ->)|(Hn & ->)]; destruct D0 as [(c0 & H0 & ->)|(Hn0 & ->)].
    + apply Hl in Hc'. destruct Hc' as [Hc'|[Hc' _]]; [inv Hc'; congruence|].
      assert (W : Some c' = Some c0); [|now inv W].
      destruct (is_node_inv _ _ _ Hx) as (z & Ez & ->). destruct (reachable_inv P PF h R _ _ Ez) as [N _].
      exact (entry_unique _ _ _ _ (proj1 (proj2 (proj1 N))) Hc' H0).
    + exfalso. apply Hl in Hc'. destruct Hc' as [Hc'|[Hc' _]]; [inv Hc'; congruence|]. exact (Hn0 _ Hc').
    + exfalso. apply (Hn c0). apply Hl. right. split; [exact H0|exact Hne].
    + reflexivity.
Qed.
Print Assumptions C92_children_partial.
Example C92_children_partial_applies :
  prefix_free one_byte /\ reachable one_byte demo /\ exists_at (views demo) 0 /\ exists_at (views demo) 2 /\ key_from one_byte ka /\ key_from one_byte kc /\
  snd (tstep (fst (tstep demo (NPut 0 ka (Some 2%nat)))) (NGet 0 ka)) = Ok (RNode (Some 2%nat)) /\
  snd (tstep (fst (tstep demo (NPut 0 ka (Some 2%nat)))) (NGet 0 kc)) = Ok (RNode (Some 3%nat)).
Proof.
  split; [exact one_byte_prefix_free|]. split; [exact demo_reachable|]. unfold exists_at. rewrite demo_is.
  split; [cbn; lia|]. split; [cbn; lia|]. split; [exists [x61]; split; reflexivity|]. split; [exists [x63]; split; reflexivity|].
  split; vm_compute; reflexivity.
Qed.

(** GetChild of an absent key panics instead of giving nil, for every node and key. *)
Theorem C92_absent_child_refuted : forall P h a x k, prefix_free P -> reachable P h -> is_node (views h) a x -> key_from P k ->
  (forall c, ~ In (k, Some c) (a_kids x)) -> snd (tstep h (NGet a k)) = Panic.
Proof.
  intros P h a x k PF R Hx Dk Hn.
  assert (La : exists_at (views h) a) by (unfold exists_at; apply nth_error_Some; unfold is_node in Hx; rewrite Hx; discriminate).
  destruct (C92_call_exact P h (NGet a k) PF R (conj La Dk) Logic.I) as (x' & Hx' & _ & [(c & Hc & _)|(_ & E)]); [|exact E].
  unfold is_node in *. rewrite Hx in Hx'. inv Hx'. destruct (Hn _ Hc).
Qed.
Print Assumptions C92_absent_child_refuted.
Example C92_absent_child_refuted_applies : exists x,
  prefix_free one_byte /\ reachable one_byte demo /\ is_node (views demo) 0 x /\ key_from one_byte kb /\ (forall c, ~ In (kb, Some c) (a_kids x)) /\
  snd (tstep demo (NGet 0 kb)) = Panic.
Proof.
  eexists. split; [exact one_byte_prefix_free|]. split; [exact demo_reachable|]. unfold is_node. rewrite demo_is. split; [reflexivity|].
  split; [exists [x62]; split; reflexivity|]. split; [cbn; intros c [H|[H|[]]]; inv H|]. vm_compute. reflexivity.
Qed.

(** FullKey panics for every node. *)
Theorem C92_full_key_refuted : forall P h a, prefix_free P -> reachable P h -> exists_at (views h) a -> snd (tstep h (NFullKey a)) = Panic.
Proof. intros P h a PF R La. apply (C92_call_exact P h (NFullKey a) PF R La Logic.I). Qed.
Print Assumptions C92_full_key_refuted.
Example C92_full_key_refuted_applies :
  reachable one_byte demo /\ exists_at (views demo) 2 /\ snd (tstep demo (NFullKey 2)) = Panic.
Proof. split; [exact demo_reachable|]. unfold exists_at. rewrite demo_is. split; [cbn; lia|]. vm_compute. reflexivity. Qed.

(** ** C93: tries whose nodes exist *)

(** Get reads the node reached by the sub keys, and panics when there is none. *)
Theorem C93_get_exact : forall P h r k, prefix_free P -> reachable P h -> legal P (views h) (TrGet r k) -> key_ok k ->
  fst (tstep h (TrGet r k)) = h /\
  ((exists a x, at_path (views h) r (ikey_keys k) a /\ is_node (views h) a x /\ snd (tstep h (TrGet r k)) = Ok (RValue (a_data x))) \/
   ((forall a, ~ at_path (views h) r (ikey_keys k) a) /\ snd (tstep h (TrGet r k)) = Panic)).
Proof.
  intros P h r k PF R (L & F) K. pose proof (reachable_inv P PF h R) as I. destruct (exists_node _ _ L) as (x & E).
  cbn [tstep]. unfold on_node. rewrite E. cbn [fst snd]. split; [reflexivity|].
  destruct (ikey_is_empty k) eqn:Em.
  - apply K in Em. unfold key_empty in Em. rewrite Em. left. exists r, (view x). split; [constructor|]. split; [now apply is_node_view|reflexivity].
  - destruct (descend_ok P PF h I (ikey_keys k) r (nth_lt _ _ _ E) F) as [(a & -> & La & A)|(-> & A)]; cbn [rbind].
    + destruct (lt_nth h a La) as (y & Ey). rewrite Ey. left. exists a, (view y). split; [exact A|]. split; [now apply is_node_view|reflexivity].
    + right. split; [exact A|reflexivity].
Qed.
Print Assumptions C93_get_exact.
Example C93_get_exact_applies :
  prefix_free one_byte /\ reachable one_byte demo /\ legal one_byte (views demo) (TrGet 0 key_ab) /\ key_ok key_ab /\
  snd (tstep demo (TrGet 0 key_ab)) = Ok (RValue (Some vb)) /\ snd (tstep demo (TrGet 0 key_b)) = Panic.
Proof.
  split; [exact one_byte_prefix_free|]. split; [exact demo_reachable|]. split.
  - split; [unfold exists_at; rewrite demo_is; cbn; lia|]. repeat constructor; eexists; split; reflexivity.
  - split; [apply constructed_key_ok|]. split; vm_compute; reflexivity.
Qed.

(** Set of a value: the node reached by the sub keys gets the value and the former one is returned; no other node changes. *)
Theorem C93_set_exact : forall P h r k v, prefix_free P -> reachable P h -> legal P (views h) (TrSet r k (Some v)) -> key_ok k ->
  let h' := fst (tstep h (TrSet r k (Some v))) in
  (exists a x, at_path (views h) r (ikey_keys k) a /\ is_node (views h) a x /\
     becomes (views h) a (mk_anode (a_parent x) (a_key x) (Some v) (a_kids x) (a_buf x) (a_off x)) (views h') /\
     snd (tstep h (TrSet r k (Some v))) = Ok (RValue (a_data x))) \/
  ((forall a, ~ at_path (views h) r (ikey_keys k) a) /\ h' = h /\ snd (tstep h (TrSet r k (Some v))) = Panic).
Proof.
  intros P h r k v PF R (L & F & _) K h'. pose proof (reachable_inv P PF h R) as I. destruct (exists_node _ _ L) as (x & E).
  subst h'. cbn [tstep]. unfold on_node. rewrite E.
  destruct (ikey_is_empty k) eqn:Em.
  - apply K in Em. unfold key_empty in Em. rewrite Em. left. exists r, (view x). split; [constructor|]. split; [now apply is_node_view|].
    cbn [fst snd]. split; [|reflexivity]. unfold becomes, views. rewrite set_nth_map, set_nth_split; [reflexivity|]. rewrite map_length. exact (nth_lt _ _ _ E).
  - destruct (descend_ok P PF h I (ikey_keys k) r (nth_lt _ _ _ E) F) as [(a & -> & La & A)|(-> & A)].
    + destruct (lt_nth h a La) as (y & Ey). rewrite Ey. left. exists a, (view y). split; [exact A|]. split; [now apply is_node_view|].
      cbn [fst snd]. split; [|reflexivity]. unfold becomes, views. rewrite set_nth_map, set_nth_split; [reflexivity|]. now rewrite map_length.
    + right. split; [exact A|split; reflexivity].
Qed.
Print Assumptions C93_set_exact.
Example C93_set_exact_applies :
  prefix_free one_byte /\ reachable one_byte demo /\ legal one_byte (views demo) (TrSet 0 key_ab (Some vc)) /\ key_ok key_ab /\
  snd (tstep demo (TrSet 0 key_ab (Some vc))) = Ok (RValue (Some vb)) /\
  snd (tstep (fst (tstep demo (TrSet 0 key_ab (Some vc)))) (TrGet 0 key_ab)) = Ok (RValue (Some vc)).
Proof.
  split; [exact one_byte_prefix_free|]. split; [exact demo_reachable|]. split.
  - split; [unfold exists_at; rewrite demo_is; cbn; lia|]. split; [repeat constructor; eexists; split; reflexivity|discriminate].
  - split; [apply constructed_key_ok|]. split; vm_compute; reflexivity.
Qed.

(** In a linked trie the contents change at that key only. *)
Theorem C93_set_contents_partial : forall P h r k v, prefix_free P -> reachable P h -> legal P (views h) (TrSet r k (Some v)) -> key_ok k ->
  linked (views h) -> is_root (views h) r -> (exists a, at_path (views h) r (ikey_keys k) a) ->
  let h' := fst (tstep h (TrSet r k (Some v))) in
  linked (views h') /\ is_root (views h') r /\
  forall q w, holds_at (views h') r q w <-> (q = ikey_keys k /\ w = v) \/ (q <> ikey_keys k /\ holds_at (views h) r q w).
Proof.
  intros P h r k v PF R (L & F & _) K LK RT (a & A) h'. pose proof (reachable_inv P PF h R) as I.
  assert (E : exists y, nth_error h a = Some y /\ h' = set_nth h a (with_data y (Some v))).
  { destruct (exists_node _ _ L) as (x & E). subst h'. cbn [tstep]. unfold on_node. rewrite E. destruct (ikey_is_empty k) eqn:Em.
    - apply K in Em. unfold key_empty in Em. rewrite Em in A. inversion A; subst. exists x. split; [exact E|reflexivity].
    - destruct (descend_ok P PF h I (ikey_keys k) r (nth_lt _ _ _ E) F) as [(a' & -> & La & A')|(-> & A')]; [|destruct (A' _ A)].
      pose proof (at_path_fun P h I _ _ _ _ A A') as <-. destruct (lt_nth h a La) as (y & Ey). rewrite Ey. exists y. auto. }
  destruct E as (y & Ey & Eh). rewrite Eh.
  split; [exact (set_data_linked h a y (Some v) Ey LK)|]. split; [exact (set_data_root h a y (Some v) Ey r RT)|].
  intros q w. split.
  - intros (b & x & B & Hx & Hd). apply (set_data_path h a y (Some v) Ey) in B.
    destruct (set_data_back h a y (Some v) Ey b x Hx) as (x0 & H0 & ->). cbn [a_data] in Hd. destruct (Nat.eqb_spec b a) as [->|Hb].
    + left. split; [exact (at_path_inj _ r LK RT _ _ _ B A)|congruence].
    + right. split; [|exists b, x0; auto]. intros ->. apply Hb. exact (at_path_fun P h I _ _ _ _ B A).
  - intros [(-> & ->)|(Hq & b & x & B & Hx & Hd)].
    + eexists a, _. split; [apply (set_data_path h a y (Some v) Ey); exact A|]. split; [apply (set_data_node h a y (Some v) Ey a (view y)), is_node_view, Ey|].
      cbn [a_data]. now rewrite Nat.eqb_refl.
    + eexists b, _. split; [apply (set_data_path h a y (Some v) Ey); exact B|]. split; [apply (set_data_node h a y (Some v) Ey b x), Hx|].
      cbn [a_data]. destruct (Nat.eqb_spec b a) as [->|Hb]; [|exact Hd]. exfalso. apply Hq. exact (at_path_inj _ r LK RT _ _ _ B A).
Qed.
Print Assumptions C93_set_contents_partial.
Lemma demo_ab : at_path (views demo) 0 [ka; kb] 2.
Proof.
  rewrite demo_is. eapply at_below; [reflexivity|left; reflexivity|]. eapply at_below; [reflexivity|left; reflexivity|]. constructor.
Qed.
Example C93_set_contents_partial_applies :
  prefix_free one_byte /\ reachable one_byte demo /\ legal one_byte (views demo) (TrSet 0 key_ab (Some vc)) /\ key_ok key_ab /\
  linked (views demo) /\ is_root (views demo) 0 /\ (exists a, at_path (views demo) 0 (ikey_keys key_ab) a) /\
  holds_at (views demo) 0 [ka] va /\ holds_at (views demo) 0 [ka; kb] vb.
Proof.
  destruct C93_set_exact_applies as (H1 & H2 & H3 & H4 & _). destruct demo_linked as [H5 H6].
  split; [exact H1|]. split; [exact H2|]. split; [exact H3|]. split; [exact H4|]. split; [exact H5|]. split; [exact H6|].
  split; [exists 2%nat; exact demo_ab|]. split.
  - exists 1%nat. eexists. rewrite demo_is. split; [eapply at_below; [reflexivity|left; reflexivity|constructor]|]. split; reflexivity.
  - exists 2%nat. eexists. split; [exact demo_ab|]. rewrite demo_is. split; reflexivity.
Qed.

(** Set of nil at the node [a] found under the key. *)
Lemma remove_at P h r k a y : inv P h -> linked (views h) -> is_root (views h) r -> Forall (key_from P) (ikey_keys k) -> ikey_keys k <> [] ->
  descend h r (ikey_keys k) = Ok a -> at_path (views h) r (ikey_keys k) a -> a < length h -> nth_error h a = Some y ->
  let out := (let (h2, u) := unlink (S a) (set_nth h a (with_data y None)) a in (h2, let? _ := u in Ok (RValue (nd_data y)))) in
  linked (views (fst out)) /\ is_root (views (fst out)) r /\
  (forall q w, holds_at (views (fst out)) r q w <-> holds_at (views h) r q w /\ ~ starts_with (ikey_keys k) q) /\
  (snd out = Ok (RValue (nd_data y)) /\ ~ bare (views (fst out)) r \/ snd out = Panic /\ bare (views (fst out)) r).
Proof.
  intros I LK RT F Hne D A La Ey. cbn zeta.
  set (h1 := set_nth h a (with_data y None)).
  destruct (unlink_contents P h1 r (ikey_keys k) a) as (J1 & J2 & J3 & J4 & J5 & J6).
  - exact (set_data_inv h a y None Ey P I).
  - exact (set_data_linked h a y None Ey LK).
  - exact (set_data_root h a y None Ey r RT).
  - apply (descend_attached P h1 r (set_data_inv h a y None Ey P I) (set_data_linked h a y None Ey LK) (set_data_root h a y None Ey r RT) (ikey_keys k) a F).
    unfold h1. now rewrite (set_data_descend h a y None Ey).
  - apply (set_data_path h a y None Ey). exact A.
  - exact Hne.
  - unfold h1. now rewrite set_nth_length.
  - intros z Hz. destruct (set_data_back h a y None Ey a z Hz) as (z0 & _ & ->). cbn [a_data]. now rewrite Nat.eqb_refl.
  - destruct (unlink (S a) h1 a) as [h2 r2]. cbn [fst snd] in *. split; [exact J2|]. split; [exact J3|]. split.
    + intros q w. rewrite J5. split.
      * intros ((b & z & B & Hz & Hd) & Hs). split; [|exact Hs]. apply (set_data_path h a y None Ey) in B.
        destruct (set_data_back h a y None Ey b z Hz) as (z0 & H0 & ->). cbn [a_data] in Hd.
        destruct (Nat.eqb b a); [discriminate|]. exists b, z0. auto.
      * intros ((b & z & B & Hz & Hd) & Hs). split; [|exact Hs]. eexists b, _. split; [apply (set_data_path h a y None Ey); exact B|].
        split; [apply (set_data_node h a y None Ey b z), Hz|]. cbn [a_data]. destruct (Nat.eqb_spec b a) as [->|]; [|exact Hd].
        exfalso. apply Hs. exists []. rewrite app_nil_r. exact (at_path_inj _ r LK RT _ _ _ B A).
    + destruct J6 as [(-> & Hb)|(-> & Hb)]; [left|right]; split; try exact Hb; reflexivity.
Qed.

(** Set of nil in a linked trie: everything at and below the key is gone, nothing else; the call returns the former value, unless nothing is left in
    the root: then it panics. *)
Theorem C93_remove_exact : forall P h r k, prefix_free P -> reachable P h -> legal P (views h) (TrSet r k None) -> key_ok k -> ikey_keys k <> [] ->
  let h' := fst (tstep h (TrSet r k None)) in
  (exists a x, at_path (views h) r (ikey_keys k) a /\ is_node (views h) a x /\
     linked (views h') /\ is_root (views h') r /\
     (forall q w, holds_at (views h') r q w <-> holds_at (views h) r q w /\ ~ starts_with (ikey_keys k) q) /\
     (snd (tstep h (TrSet r k None)) = Ok (RValue (a_data x)) /\ ~ bare (views h') r \/
      snd (tstep h (TrSet r k None)) = Panic /\ bare (views h') r)) \/
  ((forall a, ~ at_path (views h) r (ikey_keys k) a) /\ h' = h /\ snd (tstep h (TrSet r k None)) = Panic).
Proof.
  intros P h r k PF R (L & F & Q) K Hne h'. destruct (Q eq_refl) as [LK RT]. pose proof (reachable_inv P PF h R) as I.
  destruct (exists_node _ _ L) as (x & E). subst h'. cbn [tstep]. unfold on_node. rewrite E.
  destruct (ikey_is_empty k) eqn:Em; [apply K in Em; destruct (Hne Em)|].
  destruct (descend_ok P PF h I (ikey_keys k) r (nth_lt _ _ _ E) F) as [(a & D & La & A)|(D & A)]; rewrite D.
  2: { right. split; [exact A|split; reflexivity]. }
  destruct (lt_nth h a La) as (y & Ey). rewrite Ey. left. exists a, (view y). split; [exact A|]. split; [now apply is_node_view|].
  exact (remove_at P h r k a y I LK RT F Hne D A La Ey).
Qed.
Print Assumptions C93_remove_exact.
Example C93_remove_exact_applies :
  prefix_free one_byte /\ reachable one_byte demo /\ legal one_byte (views demo) (TrSet 0 key_ab None) /\ key_ok key_ab /\ ikey_keys key_ab <> [] /\
  snd (tstep demo (TrSet 0 key_ab None)) = Ok (RValue (Some vb)) /\
  snd (tstep (fst (tstep demo (TrSet 0 key_ab None))) (TrGet 0 key_a)) = Ok (RValue (Some va)).
Proof.
  split; [exact one_byte_prefix_free|]. split; [exact demo_reachable|]. split.
  - split; [unfold exists_at; rewrite demo_is; cbn; lia|]. split; [repeat constructor; eexists; split; reflexivity|intros _; exact demo_linked].
  - split; [apply constructed_key_ok|]. split; [discriminate|]. split; vm_compute; reflexivity.
Qed.

(** Removing "a" from a trie with "a", "a","b" and "c" also loses "a","b"; then removing "c", the last entry, panics; Set and Get of a key without node panic. *)
Theorem C93_refuted :
  let h1 := fst (tstep demo (TrSet 0 key_a None)) in
  snd (tstep demo (TrSet 0 key_a None)) = Ok (RValue (Some va)) /\
  holds_at (views demo) 0 [ka; kb] vb /\ (forall w, ~ holds_at (views h1) 0 [ka; kb] w) /\
  snd (tstep h1 (TrSet 0 key_c None)) = Panic /\
  snd (tstep demo (TrSet 0 key_b (Some vb))) = Panic /\ snd (tstep demo (TrGet 0 key_b)) = Panic.
Proof.
  cbn zeta. split; [vm_compute; reflexivity|]. split; [apply C93_set_contents_partial_applies|]. split.
  - intros w H.
    assert (L : legal one_byte (views demo) (TrSet 0 key_a None)).
    { split; [unfold exists_at; rewrite demo_is; cbn; lia|]. split; [repeat constructor; eexists; split; reflexivity|intros _; exact demo_linked]. }
    destruct (C93_remove_exact one_byte demo 0 key_a one_byte_prefix_free demo_reachable L (constructed_key_ok _ _ _ _) ltac:(discriminate))
      as [(a & x & _ & _ & _ & _ & C & _)|(A & _)].
    + apply C in H. destruct H as [_ H]. apply H. exists [kb]. reflexivity.
    + apply (A 1%nat). rewrite demo_is. eapply at_below; [reflexivity|left; reflexivity|constructor].
  - split; [|split]; vm_compute; reflexivity.
Qed.
Print Assumptions C93_refuted.

(** ** C94: parsed nodes *)
Local Open Scope Z_scope.

(** The exact effect of every call on parsed nodes, in every history of calls. *)
Theorem C94_call_exact : forall P s c, prefix_free P -> m_reachable P s -> m_legal P (mviews s) (ms_maps s) c ->
  mdoes (mviews s) (ms_maps s) c (mviews (fst (mstep s c))) (ms_maps (fst (mstep s c))) (snd (mstep s c)).
Proof. intros P s c PF R L. apply (mstep_exact P PF s c (m_reachable_inv P PF s R) L). Qed.
Print Assumptions C94_call_exact.

(** Every buffer has a reading, so that the statement is about every buffer. *)
Theorem C94_reads_total : forall known buf, exists rd, reads known buf rd.
Proof. exact reads_total. Qed.
Print Assumptions C94_reads_total.

Fixpoint mrun (s : mstate) (cs : list mcall) : mstate :=
  match cs with [] => s | c :: cs' => mrun (fst (mstep s c)) cs' end.
Fixpoint m_legal_run (P : bytes -> Prop) (s : mstate) (cs : list mcall) : Prop :=
  match cs with [] => True | c :: cs' => m_legal P (mviews s) (ms_maps s) c /\ m_legal_run P (fst (mstep s c)) cs' end.
Lemma m_reachable_run P cs : forall s, m_reachable P s -> m_legal_run P s cs -> m_reachable P (mrun s cs).
Proof. induction cs as [|c cs IH]; intros s R L; [exact R|]. destruct L. cbn [mrun]. apply IH; [constructor|]; assumption. Qed.

Definition read_key (buf : bytes) : res bytes :=
  let? (w, n) := decode_uvarint64 buf in
  if N.eqb w 0 then Err else let? b := go_from buf n in let? (k, _) := decode_varchar b in match k with [] => Err | _ => Ok k end.
Lemma keys_from_read (P : bytes -> Prop) buf : (forall k, read_key buf = Ok k -> P k) -> keys_from P buf.
Proof.
  intros H k b n m (s & (f & w & E & Nf & Hw & _) & S & Hk & _). apply H. unfold read_key. rewrite E, (num_read _ _ _ Nf). cbn [rbind].
  apply N.eqb_neq in Hw. rewrite Hw, go_from_app. cbn [rbind]. rewrite (str_read _ _ _ S). cbn [rbind]. destruct k; [congruence|reflexivity].
Qed.

(** An empty node at offset 0, below it a node with key "b" and an empty value at offset 1, and a node that cannot be read. *)
Definition dummy_buf : bytes := [x00].
Definition node_buf : bytes := [x01; x01; x62; x00; x00].
Definition bad_buf : bytes := [x02; x01].
Definition parse_calls : list mcall :=
  [MMap; MNew None dummy_buf 0 (Some 0%nat); MKnow 0 0 0; MNew (Some 0%nat) node_buf 1 (Some 0%nat); MNew None bad_buf 2 (Some 0%nat)].
Definition parsed : mstate := mrun (mk_mstate [] []) parse_calls.
Lemma parsed_reachable : m_reachable one_byte parsed.
Proof.
  apply m_reachable_run; [constructor|]. cbn [parse_calls m_legal_run].
  split; [exact I|]. split; [split; [exact I|]; split; [vm_compute; repeat constructor|apply keys_from_read; vm_compute; intros k E; now inv E]|].
  split; [split; vm_compute; repeat constructor|].
  split; [split; [vm_compute; repeat constructor|]; split; [vm_compute; repeat constructor|apply keys_from_read; vm_compute; intros k E; now inv E]|].
  split; [split; [exact I|]; split; [vm_compute; repeat constructor|apply keys_from_read; vm_compute; intros k E; now inv E]|exact I].
Qed.
Example C94_call_exact_applies :
  prefix_free one_byte /\ m_reachable one_byte parsed /\ m_legal one_byte (mviews parsed) (ms_maps parsed) (MGet 0 kb) /\
  snd (mstep parsed (MGet 0 kb)) = Ok (PNode (Some 1%nat) 0) /\ snd (mstep parsed (MKey 1)) = Panic.
Proof.
  split; [exact one_byte_prefix_free|]. split; [exact parsed_reachable|]. split.
  - split; [vm_compute; repeat constructor|exists [x62]; split; reflexivity].
  - split; vm_compute; reflexivity.
Qed.

(** In every history Key and Value of a parsed node panic or return nil: no parsed node shows a key or a value. *)
Theorem C94_key_value_refuted : forall P s a, prefix_free P -> m_reachable P s -> (a < length (mviews s))%nat ->
  (snd (mstep s (MKey a)) = Panic \/ snd (mstep s (MKey a)) = Ok (PKey None)) /\
  (snd (mstep s (MValue a)) = Panic \/ snd (mstep s (MValue a)) = Ok (PValue None)).
Proof.
  intros P s a PF R L. destruct (m_exists _ _ L) as (x & Ex). destruct (proj1 (m_reachable_inv P PF s R) _ _ Ex) as (_ & _ & _ & D).
  cbn [mstep]. unfold m_read, m_on. rewrite Ex. cbn [snd]. destruct (mn_decoded x); [|auto]. destruct (D eq_refl) as [-> ->]. auto.
Qed.
Print Assumptions C94_key_value_refuted.
Example C94_key_value_refuted_applies :
  m_reachable one_byte parsed /\ (1 < length (mviews parsed))%nat /\
  snd (mstep parsed (MKey 0)) = Ok (PKey None) /\ snd (mstep parsed (MKey 1)) = Panic /\ snd (mstep parsed (MValue 1)) = Panic.
Proof. split; [exact parsed_reachable|]. split; [vm_compute; repeat constructor|]. split; [|split]; vm_compute; reflexivity. Qed.

(** NewMappedTrieNode of a buffer that cannot be read returns a node and no error; the node is not decoded. *)
Theorem C94_error_dropped_refuted : forall P s p buf o m, prefix_free P -> m_reachable P s -> m_legal P (mviews s) (ms_maps s) (MNew p buf o m) ->
  reads (known_nodes (ms_maps s) m) buf RdError ->
  snd (mstep s (MNew p buf o m)) = Ok (PNode (Some (length (mviews s))) 0) /\
  snd (mstep (fst (mstep s (MNew p buf o m))) (MIsDecoded (length (mviews s)))) = Ok (PBool false).
Proof.
  intros P s p buf o m PF R L RD. destruct L as (L1 & L2 & L3). rewrite mviews_length in L1.
  assert (B : m_valid s p && m_map_valid s m = true).
  { unfold m_valid, m_map_valid. destruct p, m; try (apply Nat.ltb_lt in L1; rewrite L1); try (apply Nat.ltb_lt in L2; rewrite L2); reflexivity. }
  assert (RD' : reads (known_at (map_of s m)) buf RdError) by apply reads_known, RD.
  cbn [mstep]. rewrite B. pose proof (decode_reads s buf o p (Some new_avl) m RdError RD') as M. unfold m_fresh in M. cbn [decode_matches] in M.
  destruct (mnode_decode s _) as [x d]. destruct M as (M1 & _ & _ & _ & _ & Ed). cbn [fst snd] in M1, Ed. rewrite Ed. cbn [fst snd].
  rewrite mviews_length. split; [reflexivity|]. unfold m_on. cbn [ms_nodes snd]. rewrite nth_error_app2, Nat.sub_diag by lia. cbn [nth_error]. now rewrite M1.
Qed.
Print Assumptions C94_error_dropped_refuted.
Example C94_error_dropped_refuted_applies :
  m_reachable one_byte (mk_mstate [] []) /\ m_legal one_byte [] [] (MNew None [x01] 0 None) /\ reads (fun _ => None) [x01] RdError.
Proof.
  split; [constructor|]. split.
  - split; [exact I|]. split; [exact I|]. apply keys_from_read. vm_compute. discriminate.
  - apply rd_no_flag. apply err_no_num. vm_compute. reflexivity.
Qed.

(** What TrieNode.Encode writes has no flag in front: the node "b" of the trie above, once written, is not read. *)
Definition written : nodes := fst (tstep demo (NEncode 2)).
Theorem C94_written_node_refuted : exists b,
  snd (tstep demo (NEncode 2)) = Ok RNone /\ snd (tstep written (NBuf 2)) = Ok (RBytes b) /\
  forall P s p o m, prefix_free P -> m_reachable P s -> m_legal P (mviews s) (ms_maps s) (MNew p b o m) ->
    snd (mstep s (MNew p b o m)) = Ok (PNode (Some (length (mviews s))) 0) /\
    snd (mstep (fst (mstep s (MNew p b o m))) (MIsDecoded (length (mviews s)))) = Ok (PBool false).
Proof.
  eexists. split; [vm_compute; reflexivity|]. split; [vm_compute; reflexivity|].
  intros P s p o m PF R L. apply (C94_error_dropped_refuted P); try assumption.
  eapply rd_no_key with (n := 1).
  - exists [x01], 1%N. split; [reflexivity|]. split; [|split; [discriminate|reflexivity]].
    match goal with |- num_at _ ?r _ => assert (E : decode_uvarint64 ([x01] ++ r) = Ok (1%N, 1)) by (vm_compute; reflexivity) end.
    apply num_ok in E. destruct E as (q & rest & E & N & Lq). destruct q as [|q0 [|q1 q]]; try (unfold zlen in Lq; cbn in Lq; lia).
    injection E as <- <-. exact N.
  - apply err_no_str. vm_compute. reflexivity.
  - apply err_no_str. vm_compute. reflexivity.
Qed.
Print Assumptions C94_written_node_refuted.

(** The part that holds: an empty node (the number 0) is parsed, and the rest of the buffer is left over. *)
Theorem C94_empty_node_partial : forall P s p z rest o m, prefix_free P -> m_reachable P s -> m_legal P (mviews s) (ms_maps s) (MNew p (z ++ rest) o m) ->
  num_at z rest 0 ->
  let s' := fst (mstep s (MNew p (z ++ rest) o m)) in
  let a := length (mviews s) in
  snd (mstep s (MNew p (z ++ rest) o m)) = Ok (PNode (Some a) (zlen z)) /\
  mviews s' = mviews s ++ [mk_amnode true (z ++ rest) o None None p (Some []) m] /\ ms_maps s' = ms_maps s.
Proof.
  intros P s p z rest o m PF R L N s' a. subst s' a. destruct L as (L1 & L2 & L3). rewrite mviews_length in L1.
  assert (B : m_valid s p && m_map_valid s m = true).
  { unfold m_valid, m_map_valid. destruct p, m; try (apply Nat.ltb_lt in L1; rewrite L1); try (apply Nat.ltb_lt in L2; rewrite L2); reflexivity. }
  cbn [mstep]. rewrite B.
  pose proof (decode_reads s (z ++ rest) o p (Some new_avl) m (RdDummy (zlen z)) (rd_dummy _ _ z rest eq_refl N)) as M.
  unfold m_fresh in M. cbn [decode_matches] in M. destruct (mnode_decode s _) as [x d]. destruct M as (Ex & Ed). cbn [fst snd] in Ex, Ed. subst x d.
  cbn [mlink fst snd]. rewrite mviews_length. split; [reflexivity|]. unfold mviews. cbn [ms_nodes ms_maps]. rewrite map_app. split; reflexivity.
Qed.
Print Assumptions C94_empty_node_partial.
Example C94_empty_node_partial_applies :
  m_reachable one_byte parsed /\ m_legal one_byte (mviews parsed) (ms_maps parsed) (MNew (Some 0%nat) ([x80; x00] ++ [x05]) 9 (Some 0%nat)) /\
  num_at [x80; x00] [x05] 0 /\ snd (mstep parsed (MNew (Some 0%nat) ([x80; x00] ++ [x05]) 9 (Some 0%nat))) = Ok (PNode (Some 3%nat) 2).
Proof.
  split; [exact parsed_reachable|]. split.
  - split; [vm_compute; repeat constructor|]. split; [vm_compute; repeat constructor|]. apply keys_from_read. vm_compute. discriminate.
  - split; [|vm_compute; reflexivity].
    assert (E : decode_uvarint64 ([x80; x00] ++ [x05]) = Ok (0%N, 2)) by (vm_compute; reflexivity).
    apply num_ok in E. destruct E as (q & rest & E & N & Lq). destruct q as [|q0 [|q1 [|q2 q]]]; try (unfold zlen in Lq; cbn in Lq; lia).
    injection E as <- <- <-. exact N.
Qed.

(** ** C95: copies *)

(** TrieNode.Copy: a new node with the same parent, key, value and children, not encoded and with offset 0; nothing else changes. *)
Theorem C95_node_copy_exact : forall P h a x, prefix_free P -> reachable P h -> is_node (views h) a x ->
  views (fst (tstep h (NCopy a))) = views h ++ [mk_anode (a_parent x) (a_key x) (a_data x) (a_kids x) None 0] /\
  snd (tstep h (NCopy a)) = Ok (RNode (Some (length (views h)))).
Proof.
  intros P h a x PF R Hx. unfold is_node in Hx.
  assert (La : exists_at (views h) a) by (unfold exists_at; apply nth_error_Some; rewrite Hx; discriminate).
  destruct (C92_call_exact P h (NCopy a) PF R La Logic.I) as (x' & Hx' & E & E').
  unfold is_node in Hx'. rewrite Hx in Hx'. inv Hx'. auto.
Qed.
Print Assumptions C95_node_copy_exact.

(** The node a call writes. *)
Definition writes (c : tcall) : option nat :=
  match c with
  | NPut a _ _ | NRemove a _ | NSetValue a _ | NSetOffset a _ | NEncode a => Some a
  | _ => None
  end.
(** A node call changes no node but the one it is for, so a copy is not changed by calls on the original. *)
Theorem C95_independent_partial : forall P h c b, prefix_free P -> reachable P h -> legal P (views h) c -> node_call c ->
  (b < length (views h))%nat -> writes c <> Some b ->
  nth_error (views (fst (tstep h c))) b = nth_error (views h) b.
Proof.
  assert (W : forall (ns : list anode) a x' ns' b, becomes ns a x' ns' -> (a < length ns)%nat -> b <> a -> nth_error ns' b = nth_error ns b).
  { intros ns a x' ns' b -> L N. destruct (Nat.lt_ge_cases b a) as [H|H].
    - rewrite nth_error_app1 by (rewrite firstn_length_le; lia).
      rewrite <- (firstn_skipn a ns) at 2. rewrite nth_error_app1 by (rewrite firstn_length_le; lia). reflexivity.
    - rewrite nth_error_app2 by (rewrite firstn_length_le; lia). rewrite firstn_length_le by lia.
      destruct (b - a)%nat as [|d] eqn:Ed; [lia|]. cbn [nth_error]. rewrite <- (firstn_skipn (S a) ns) at 2.
      rewrite nth_error_app2 by (rewrite firstn_length_le; lia). rewrite firstn_length_le by lia. f_equal. lia. }
  assert (LT : forall ns a x, is_node ns a x -> (a < length ns)%nat) by (intros ns a x H; apply nth_error_Some; unfold is_node in H; rewrite H; discriminate).
  intros P h c b PF R L N Lb Hw. pose proof (C92_call_exact P h c PF R L N) as D.
  destruct c; cbn [does writes] in D, Hw; try (destruct N; fail).
  - destruct D as [-> _]. apply nth_error_app1. exact Lb.
  - destruct D as (x & _ & -> & _). reflexivity.
  - destruct D as (x & _ & -> & _). reflexivity.
  - destruct D as [-> _]. reflexivity.
  - destruct D as (x & _ & -> & _). reflexivity.
  - destruct D as (x & _ & -> & _). reflexivity.
  - destruct D as (x & l & Hx & _ & B & _). apply (W _ _ _ _ _ B (LT _ _ _ Hx)). congruence.
  - destruct D as (x & l & Hx & _ & B & _). apply (W _ _ _ _ _ B (LT _ _ _ Hx)). congruence.
  - destruct D as (x & _ & -> & _). reflexivity.
  - destruct D as (x & Hx & B & _). apply (W _ _ _ _ _ B (LT _ _ _ Hx)). congruence.
  - destruct D as (x & _ & -> & _). reflexivity.
  - destruct D as (x & Hx & B & _). apply (W _ _ _ _ _ B (LT _ _ _ Hx)). congruence.
  - destruct D as (x & Hx & D). destruct (a_parent x) as [q|]; [|destruct D as [-> _]; reflexivity].
    destruct (a_data x) as [v|]; [|destruct D as [-> _]; reflexivity].
    destruct D as (y & _ & D). destruct (value_encode v).
    + destruct D as (b' & _ & B & _). apply (W _ _ _ _ _ B (LT _ _ _ Hx)). congruence.
    + destruct D as [-> _]. reflexivity.
    + destruct D as [-> _]. reflexivity.
  - destruct D as (x & _ & -> & _). reflexivity.
  - destruct D as (x & _ & -> & _). reflexivity.
  - destruct D as (x & _ & -> & _). apply nth_error_app1. exact Lb.
Qed.
Print Assumptions C95_independent_partial.

(** The root of the trie above and its copy, node 4. *)
Definition copied : nodes := fst (tstep demo (NCopy 0)).
Lemma copied_reachable : reachable one_byte copied.
Proof. apply reach_call; [exact demo_reachable|]. unfold legal, exists_at. rewrite demo_is. cbn. lia. Qed.
Example C95_node_copy_exact_applies : exists x, is_node (views demo) 0 x /\ a_kids x = [(ka, Some 1%nat); (kc, Some 3%nat)] /\
  snd (tstep demo (NCopy 0)) = Ok (RNode (Some 4%nat)).
Proof. unfold is_node. rewrite demo_is. eexists. split; [reflexivity|]. split; [reflexivity|]. vm_compute. reflexivity. Qed.
Example C95_independent_partial_applies :
  reachable one_byte copied /\ legal one_byte (views copied) (NRemove 0 ka) /\ (4 < length (views copied))%nat /\ writes (NRemove 0 ka) <> Some 4%nat /\
  snd (tstep (fst (tstep copied (NRemove 0 ka))) (NGet 4 ka)) = Ok (RNode (Some 1%nat)).
Proof.
  split; [exact copied_reachable|]. split; [split; [vm_compute; repeat constructor|exists [x61]; split; reflexivity]|].
  split; [vm_compute; repeat constructor|]. split; [discriminate|]. vm_compute. reflexivity.
Qed.

(** The children themselves are shared: a value set in a child of the original is seen through the copy; and the children of the copy have the original
    as parent. *)
Theorem C95_node_copy_refuted : exists P h a b c k v,
  prefix_free P /\ reachable P h /\ exists_at (views h) a /\
  snd (tstep h (NCopy a)) = Ok (RNode (Some b)) /\
  let h1 := fst (tstep h (NCopy a)) in
  snd (tstep h1 (NGet a k)) = Ok (RNode (Some c)) /\ snd (tstep h1 (NGet b k)) = Ok (RNode (Some c)) /\
  snd (tstep h1 (NValue c)) <> Ok (RValue (Some v)) /\
  snd (tstep (fst (tstep h1 (NSetValue c (Some v)))) (NValue c)) = Ok (RValue (Some v)) /\
  snd (tstep h1 (NParent c)) = Ok (RNode (Some a)) /\ a <> b.
Proof.
  exists one_byte, demo, 0%nat, 4%nat, 1%nat, ka, vc. split; [exact one_byte_prefix_free|]. split; [exact demo_reachable|].
  split; [unfold exists_at; rewrite demo_is; cbn; lia|]. cbn zeta.
  split; [vm_compute; reflexivity|]. split; [vm_compute; reflexivity|]. split; [vm_compute; reflexivity|]. split; [vm_compute; discriminate|].
  split; [vm_compute; reflexivity|]. split; [vm_compute; reflexivity|]. discriminate.
Qed.
Print Assumptions C95_node_copy_refuted.

(** MappedTrieNode.Copy of a node with a key takes the place of the original: below the parent and among the known nodes. *)
Theorem C95_mapped_copy_refuted : forall P s a x k e v q n y l, prefix_free P -> m_reachable P s ->
  is_mnode (mviews s) a x ->
  reads (known_nodes (ms_maps s) (am_known x)) (am_buf x) (RdNode k e v q n) ->
  is_mnode (mviews s) q y -> am_decoded y = true -> am_kids y = Some l -> P k ->
  let s' := fst (mstep s (MCopy a)) in
  snd (mstep s (MCopy a)) = Ok (PNode (Some (length (mviews s))) 0) /\
  snd (mstep s' (MGet q (Some k))) = Ok (PNode (Some (length (mviews s))) 0).
Proof.
  intros P s a x k e v q n y l PF R Hx RD Hy Dy Ky Pk s'. pose proof (m_reachable_inv P PF s R) as I0.
  assert (LT : forall ns b z, is_mnode ns b z -> (b < length ns)%nat) by (intros ns b z H; apply nth_error_Some; unfold is_mnode in H; rewrite H; discriminate).
  pose proof (LT _ _ _ Hx) as La. pose proof (LT _ _ _ Hy) as Lq.
  destruct (m_exists _ _ La) as (x0 & Ex). pose proof (is_mnode_view _ _ _ Ex) as Hx0. unfold is_mnode in Hx, Hx0. rewrite Hx in Hx0. inv Hx0.
  destruct (mstep_exact P PF s (MCopy a) I0 La) as [D I1]. fold s' in D, I1. cbn [mdoes] in D.
  cbn [mview am_known am_buf] in RD.
  destruct (m_exists _ _ Lq) as (y0 & Ey). pose proof (is_mnode_view _ _ _ Ey) as Hy0. unfold is_mnode in Hy, Hy0. rewrite Hy in Hy0. inv Hy0.
  assert (RD' : reads (known_at (map_of s (mn_known x0))) (mn_buf x0) (RdNode k e v q n)) by apply reads_known, RD.
  pose proof (decode_reads s (mn_buf x0) (mn_off x0) None None (mn_known x0) _ RD') as M.
  assert (Ik : exists i, mn_known x0 = Some i).
  { inversion RD as [|k' e' v' rest p' n' j l' A SA| | | | | | | | ]; subst. destruct A as (po & off & _ & _ & K & _).
    destruct (mn_known x0); [eauto|discriminate]. }
  destruct Ik as (i & Ei).
  destruct (proj1 I0 _ _ Ey) as (Kk & _). cbn [mview am_kids] in Ky. destruct (mn_kids y0) as [m|] eqn:Em; [|discriminate].
  destruct (kids_put_ok P PF m (Some k) (length (ms_nodes s)) Kk (ex_intro _ k (conj eq_refl Pk))) as (m' & old & Ep & K' & HM).
  assert (Es : s' = mk_mstate (set_nth (ms_nodes s) q (m_with_kids y0 (Some m')) ++ [fst (mnode_decode s (m_fresh (mn_buf x0) (mn_off x0) None None (mn_known x0)))])
                   (set_nth (ms_maps s) i ((mn_off x0, length (ms_nodes s)) :: nth i (ms_maps s) [])) /\
               snd (mstep s (MCopy a)) = Ok (PNode (Some (length (mviews s))) 0)).
  { subst s'. cbn [mstep]. rewrite Ex. unfold m_fresh in *. cbn [decode_matches] in M. destruct (mnode_decode s _) as [z d]. cbn [fst snd] in M. destruct M as (-> & ->).
    cbn [mlink]. rewrite Ey, Em, Ep. cbn [rbind mn_known mn_off]. rewrite Ei. cbn [fst snd]. rewrite mviews_length. split; reflexivity. }
  destruct Es as [Es Er]. split; [exact Er|].
  cbn [mstep]. unfold m_read, m_on. rewrite Es. cbn [ms_nodes snd]. rewrite mviews_length in Lq.
  rewrite nth_error_app1 by (now rewrite set_nth_length). rewrite set_nth_same by exact Lq.
  cbn [mview am_decoded] in Dy. unfold m_with_kids. cbn [mn_decoded mn_kids]. rewrite Dy.
  destruct (kids_get P PF m' (Some k) K' (ex_intro _ k (conj eq_refl Pk))) as ([[k0 c]|] & -> & Hc); cbn [rbind].
  - destruct Hc as [_ Hc]. apply HM in Hc. destruct Hc as [Hc|[_ Hc]]; [inv Hc; now rewrite mviews_length|]. cbn in Hc. congruence.
  - exfalso. apply (Hc (length (ms_nodes s))). apply HM. now left.
Qed.
Print Assumptions C95_mapped_copy_refuted.
Example C95_mapped_copy_refuted_applies : exists x y k e v q n l,
  m_reachable one_byte parsed /\ is_mnode (mviews parsed) 1 x /\
  reads (known_nodes (ms_maps parsed) (am_known x)) (am_buf x) (RdNode k e v q n) /\
  is_mnode (mviews parsed) q y /\ am_decoded y = true /\ am_kids y = Some l /\ one_byte k /\
  snd (mstep parsed (MGet 0 kb)) = Ok (PNode (Some 1%nat) 0) /\
  snd (mstep (fst (mstep parsed (MCopy 1))) (MGet 0 kb)) = Ok (PNode (Some 3%nat) 0).
Proof.
  assert (NA : forall b rest v, decode_uvarint64 ([b] ++ rest) = Ok (v, 1) -> num_at [b] rest v).
  { intros b rest v E. apply num_ok in E. destruct E as (q & rest' & E & N & Lq). destruct q as [|q0 [|q1 q]]; try (unfold zlen in Lq; cbn in Lq; lia).
    cbn in E. injection E as <- <-. exact N. }
  do 2 eexists. exists [x62], [x00], [], 0%nat. do 2 eexists.
  split; [exact parsed_reachable|]. split; [vm_compute; reflexivity|]. split.
  - vm_compute am_known. vm_compute am_buf.
    eapply rd_node with (rest := []) (n := 1) (m := 2) (l := 1).
    + exists [x00], 0%N. split; [|split; [apply NA; reflexivity|split; [vm_compute; reflexivity|reflexivity]]].
      exists [x01; x62]. split; [|split; [|split; [discriminate|reflexivity]]].
      * exists [x01], 1%N. split; [reflexivity|]. split; [apply NA; reflexivity|]. split; [discriminate|reflexivity].
      * assert (E : decode_varchar ([x01; x62] ++ [x00; x00]) = Ok ([x62], 2)) by reflexivity.
        apply str_ok in E. destruct E as (q & rest' & E & N & Lq). destruct q as [|q0 [|q1 [|q2 q]]]; try (unfold zlen in Lq; cbn in Lq; lia).
        cbn in E. injection E as <- <- <-. exact N.
    + assert (E : decode_varchar ([x00] ++ []) = Ok ([], 1)) by reflexivity.
      apply str_ok in E. destruct E as (q & rest' & E & N & Lq). destruct q as [|q0 [|q1 q]]; try (unfold zlen in Lq; cbn in Lq; lia).
      cbn in E. injection E as <- <-. exact N.
  - split; [vm_compute; reflexivity|]. split; [reflexivity|]. split; [reflexivity|]. split; [reflexivity|]. split; vm_compute; reflexivity.
Qed.

(** Trie.Copy: whatever the trie holds, the copy is a parsed trie of no bytes, in which every key reads as nil. *)
Theorem C95_trie_copy_refuted : forall t k, trie_copy t = Ok 0 /\ mapped_trie_get k = Ok None.
Proof.
  intros t k. split; [reflexivity|]. unfold mapped_trie_get. destruct (ikey_is_empty k); [reflexivity|]. destruct (ikey_keys k); reflexivity.
Qed.
Print Assumptions C95_trie_copy_refuted.
Example C95_trie_copy_refuted_applies : forall v, exists t outs,
  trie_run new_trie [TSet new_key (Some v)] = Ok (t, outs) /\ trie_get t new_key = Ok (Some v) /\ trie_copy t = Ok 0 /\ mapped_trie_get new_key = Ok None.
Proof. intros v. eexists. eexists. repeat split. Qed.
