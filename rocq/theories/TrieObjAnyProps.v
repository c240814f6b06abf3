(** * Trie nodes and tries under any sub keys: C92 and C93. *)
From Coq Require Import List NArith ZArith Bool Lia Arith.
From Coq Require Import Strings.Byte.
From Verif Require Import Base BaseProofs EndianModel VarintModel VarintSpec VarintProofs CmpModel CmpSpec CmpProofs KeyModel KeyProofs ValueModel ValueProofs
  AVLModel MapSpec AVLSpec AVLProofs AVLHistory AVLProps TrieModel TrieProps TrieObjModel TrieObjSpec TrieObjProofs TrieObjKids TrieObjTrie TrieObjAny TrieObjMapped
  TrieObjProps.
Import ListNotations.

(** ** Histories for the examples *)
Definition kab : gslice := Some [x61; x62].
Definition kac : gslice := Some [x61; x63].
(** A root with the children "a" (value va) and "ab" (vb); the node of "ac" exists and is not a child yet. *)
Definition near_calls : list tcall :=
  [NNew None None None; NNew (Some 0%nat) ka (Some va); NPut 0 ka (Some 1%nat); NNew (Some 0%nat) kab (Some vb); NPut 0 kab (Some 2%nat);
   NNew (Some 0%nat) kac (Some vc)].
Definition near : nodes := fst (trun [] near_calls).
Definition near_views (more : list (gslice * option nat)) : list anode :=
  [mk_anode None None None ([(ka, Some 1%nat); (kab, Some 2%nat)] ++ more) None 0;
   mk_anode (Some 0%nat) ka (Some va) [] None 0;
   mk_anode (Some 0%nat) kab (Some vb) [] None 0;
   mk_anode (Some 0%nat) kac (Some vc) [] None 0].
Lemma near_is : views near = near_views [].
Proof. vm_compute. reflexivity. Qed.
Lemma near_reachable : reachable any near.
Proof.
  apply reachable_run; [constructor|]. vm_compute. repeat split; try (eexists; split; reflexivity); repeat constructor.
Qed.
(** "ac" is put too. *)
Definition nearer : nodes := fst (tstep near (NPut 0 kac (Some 3%nat))).
Lemma nearer_is : views nearer = near_views [(kac, Some 3%nat)].
Proof. vm_compute. reflexivity. Qed.
Lemma nearer_legal : legal any (views near) (NPut 0 kac (Some 3%nat)).
Proof. rewrite near_is. split; [unfold exists_at; cbn; lia|]. split; [eexists; split; reflexivity|unfold exists_at; cbn; lia]. Qed.
Lemma nearer_reachable : reachable any nearer.
Proof. exact (reach_call any near _ near_reachable nearer_legal). Qed.
Lemma nearer_linked : linked (views nearer) /\ is_root (views nearer) 0.
Proof.
  rewrite nearer_is. split.
  - intros a x k o H Hk. unfold is_node, near_views in *.
    do 4 (destruct a as [|a]; [cbn in H; inversion H; subst x; cbn in Hk; repeat (destruct Hk as [Hk|Hk]; [inversion Hk; subst; eexists; eexists; repeat split; reflexivity|]); destruct Hk|]).
    destruct a; discriminate.
  - eexists. split; reflexivity.
Qed.
Definition key_1 (k : gslice) : ikey := KKey false [k] None 1.

(** ** C92 *)

(** In every history, whatever the (non-nil) sub keys: every node call does what it does for keys that are no prefixes of each other, or panics and changes
    nothing, and then its key is a proper prefix of the key of a child of that node. *)
Theorem C92_call_any_partial : forall h c, reachable any h -> legal any (views h) c -> node_call c ->
  does (views h) c (views (fst (tstep h c))) (snd (tstep h c)) \/
  fst (tstep h c) = h /\ snd (tstep h c) = Panic /\ clash (views h) c.
Proof.
  intros h c R L N. apply (node_step_any h c (reachable_any h R) L). destruct c; try exact I; destruct N.
Qed.
Print Assumptions C92_call_any_partial.
Example C92_call_any_partial_applies :
  reachable any nearer /\ legal any (views nearer) (NGet 0 kab) /\ node_call (NGet 0 kab) /\
  snd (tstep nearer (NGet 0 kab)) = Ok (RNode (Some 2%nat)) /\
  legal any (views nearer) (NPut 0 ka (Some 1%nat)) /\ clash (views nearer) (NPut 0 ka (Some 1%nat)) /\ snd (tstep nearer (NPut 0 ka (Some 1%nat))) = Panic.
Proof.
  split; [exact nearer_reachable|]. split; [rewrite nearer_is; split; [unfold exists_at; cbn; lia|eexists; split; reflexivity]|]. split; [exact I|].
  split; [vm_compute; reflexivity|]. split; [rewrite nearer_is; split; [unfold exists_at; cbn; lia|]; split; [eexists; split; reflexivity|unfold exists_at; cbn; lia]|].
  split; [|vm_compute; reflexivity]. rewrite nearer_is. eexists. split; [reflexivity|]. exists kab, (Some 2%nat).
  split; [right; left; reflexivity|]. exists [x61], [x61; x62]. split; [reflexivity|]. split; [reflexivity|]. exists x62, []. reflexivity.
Qed.

(** Calls with a key that no child key extends answer as usual, also when the key itself extends child keys. *)
Theorem C92_no_clash_partial : forall h a x k, reachable any h -> is_node (views h) a x -> key_from any k ->
  (forall k' o, In (k', o) (a_kids x) -> ~ slice_proper_prefix k k') ->
  forall c, c = NGet a k \/ (exists b, exists_at (views h) b /\ c = NPut a k (Some b)) \/ c = NPut a k None \/ c = NRemove a k ->
  does (views h) c (views (fst (tstep h c))) (snd (tstep h c)).
Proof.
  intros h a x k R Hx Dk Nc c Hc.
  assert (La : exists_at (views h) a) by (unfold exists_at; apply nth_error_Some; unfold is_node in Hx; congruence).
  assert (NC : ~ exists y, is_node (views h) a y /\ clashes k (a_kids y)).
  { intros (y & Hy & k' & v & Hk & Hp). rewrite (is_node_fun _ _ _ _ Hy Hx) in Hk. exact (Nc _ _ Hk Hp). }
  assert (D : legal any (views h) c /\ node_call c /\ ~ clash (views h) c).
  { destruct Hc as [->|[(b & Lb & ->)|[->| ->]]]; cbn [legal node_call clash]; auto. }
  destruct D as (D1 & D2 & D3). destruct (C92_call_any_partial h c R D1 D2) as [D|(_ & _ & D)]; [exact D|contradiction].
Qed.
Print Assumptions C92_no_clash_partial.
Example C92_no_clash_partial_applies :
  reachable any nearer /\ is_node (views nearer) 0 (mk_anode None None None [(ka, Some 1%nat); (kab, Some 2%nat); (kac, Some 3%nat)] None 0) /\
  key_from any kab /\ slice_proper_prefix ka kab /\
  (forall k' o, In (k', o) [(ka, Some 1%nat); (kab, Some 2%nat); (kac, Some 3%nat)] -> ~ slice_proper_prefix kab k') /\
  snd (tstep nearer (NRemove 0 kab)) = Ok RNone.
Proof.
  split; [exact nearer_reachable|]. split; [rewrite nearer_is; reflexivity|]. split; [eexists; split; reflexivity|]. split.
  - exists [x61], [x61; x62]. split; [reflexivity|]. split; [reflexivity|]. exists x62, []. reflexivity.
  - split; [|vm_compute; reflexivity]. intros k' o H (p & q & E1 & E2 & y & ys & E3). inversion E1; subst p q.
    repeat (destruct H as [H|H]; [inversion H; subst; discriminate|]); destruct H.
Qed.

(** A child that GetChild returned is lost from sight when a third child is put, without an error. *)
Theorem C92_prefix_keys_refuted :
  snd (tstep near (NGet 0 ka)) = Ok (RNode (Some 1%nat)) /\
  snd (tstep near (NPut 0 kac (Some 3%nat))) = Ok RNone /\
  snd (tstep nearer (NGet 0 ka)) = Panic /\ snd (tstep nearer (NRemove 0 ka)) = Panic /\
  exists x, is_node (views nearer) 0 x /\ In (ka, Some 1%nat) (a_kids x).
Proof.
  split; [vm_compute; reflexivity|]. split; [vm_compute; reflexivity|]. split; [vm_compute; reflexivity|]. split; [vm_compute; reflexivity|].
  rewrite nearer_is. eexists. split; [reflexivity|left; reflexivity].
Qed.
Print Assumptions C92_prefix_keys_refuted.

(** ** C93 *)

(** Some sub key of the path is a proper prefix of the key of a child of the node reached by the sub keys before it. *)
Definition path_clash (ns : list anode) (r : nat) (ks : list gslice) : Prop :=
  exists q k rest p x k' o, ks = q ++ k :: rest /\ at_path ns r q p /\ is_node ns p x /\ In (k', o) (a_kids x) /\ slice_proper_prefix k k'.

Lemma descend_out h r ks : reachable any h -> exists_at (views h) r -> Forall (key_from any) ks ->
  (exists a, descend h r ks = Ok a /\ a < length h /\ at_path (views h) r ks a) \/
  (descend h r ks = Panic /\ ((forall a, ~ at_path (views h) r ks a) \/ path_clash (views h) r ks)).
Proof.
  intros R L F. destruct (exists_node _ _ L) as (x & E).
  destruct (descend_any any h (reachable_any h R) ks r (nth_lt _ _ _ E) F) as [W|(D & [W|(q & k & rest & p & y & E1 & A & Hy & k' & v & Hk & Hp)])].
  - left. exact W.
  - right. split; [exact D|]. left. exact W.
  - right. split; [exact D|]. right. exists q, k, rest, p, y, k', v. auto.
Qed.

Theorem C93_get_any : forall h r k, reachable any h -> legal any (views h) (TrGet r k) -> key_ok k ->
  fst (tstep h (TrGet r k)) = h /\
  ((exists a x, at_path (views h) r (ikey_keys k) a /\ is_node (views h) a x /\ snd (tstep h (TrGet r k)) = Ok (RValue (a_data x))) \/
   (((forall a, ~ at_path (views h) r (ikey_keys k) a) \/ path_clash (views h) r (ikey_keys k)) /\ snd (tstep h (TrGet r k)) = Panic)).
Proof.
  intros h r k R (L & F) K. destruct (exists_node _ _ L) as (x & E).
  cbn [tstep]. unfold on_node. rewrite E. cbn [fst snd]. split; [reflexivity|].
  destruct (ikey_is_empty k) eqn:Em.
  - apply K in Em. unfold key_empty in Em. rewrite Em. left. exists r, (view x). split; [constructor|]. split; [now apply is_node_view|reflexivity].
  - destruct (descend_out h r (ikey_keys k) R L F) as [(a & -> & La & A)|(-> & A)]; cbn [rbind].
    + destruct (lt_nth h a La) as (y & Ey). rewrite Ey. left. exists a, (view y). split; [exact A|]. split; [now apply is_node_view|reflexivity].
    + right. split; [exact A|reflexivity].
Qed.
Print Assumptions C93_get_any.
Example C93_get_any_applies :
  reachable any nearer /\ legal any (views nearer) (TrGet 0 (key_1 kab)) /\ key_ok (key_1 kab) /\
  snd (tstep nearer (TrGet 0 (key_1 kab))) = Ok (RValue (Some vb)) /\ snd (tstep nearer (TrGet 0 (key_1 ka))) = Panic /\
  holds_at (views nearer) 0 [ka] va.
Proof.
  split; [exact nearer_reachable|]. split.
  { split; [rewrite nearer_is; unfold exists_at; cbn; lia|]. repeat constructor; eexists; split; reflexivity. }
  split; [apply constructed_key_ok|]. split; [vm_compute; reflexivity|]. split; [vm_compute; reflexivity|].
  exists 1%nat. eexists. rewrite nearer_is. split; [eapply at_below; [reflexivity|left; reflexivity|constructor]|]. split; reflexivity.
Qed.

Theorem C93_set_any : forall h r k v, reachable any h -> legal any (views h) (TrSet r k (Some v)) -> key_ok k ->
  let h' := fst (tstep h (TrSet r k (Some v))) in
  (exists a x, at_path (views h) r (ikey_keys k) a /\ is_node (views h) a x /\
     becomes (views h) a (mk_anode (a_parent x) (a_key x) (Some v) (a_kids x) (a_buf x) (a_off x)) (views h') /\
     snd (tstep h (TrSet r k (Some v))) = Ok (RValue (a_data x))) \/
  (((forall a, ~ at_path (views h) r (ikey_keys k) a) \/ path_clash (views h) r (ikey_keys k)) /\ h' = h /\
   snd (tstep h (TrSet r k (Some v))) = Panic).
Proof.
  intros h r k v R (L & F & _) K h'. destruct (exists_node _ _ L) as (x & E).
  subst h'. cbn [tstep]. unfold on_node. rewrite E.
  destruct (ikey_is_empty k) eqn:Em.
  - apply K in Em. unfold key_empty in Em. rewrite Em. left. exists r, (view x). split; [constructor|]. split; [now apply is_node_view|].
    cbn [fst snd]. split; [|reflexivity]. unfold becomes, views. rewrite set_nth_map, set_nth_split; [reflexivity|]. rewrite map_length. exact (nth_lt _ _ _ E).
  - destruct (descend_out h r (ikey_keys k) R L F) as [(a & -> & La & A)|(-> & A)].
    + destruct (lt_nth h a La) as (y & Ey). rewrite Ey. left. exists a, (view y). split; [exact A|]. split; [now apply is_node_view|].
      cbn [fst snd]. split; [|reflexivity]. unfold becomes, views. rewrite set_nth_map, set_nth_split; [reflexivity|]. now rewrite map_length.
    + right. split; [exact A|split; reflexivity].
Qed.
Print Assumptions C93_set_any.
Example C93_set_any_applies :
  reachable any nearer /\ legal any (views nearer) (TrSet 0 (key_1 kab) (Some vc)) /\ key_ok (key_1 kab) /\
  snd (tstep nearer (TrSet 0 (key_1 kab) (Some vc))) = Ok (RValue (Some vb)) /\ snd (tstep nearer (TrSet 0 (key_1 ka) (Some vc))) = Panic.
Proof.
  split; [exact nearer_reachable|]. split.
  { split; [rewrite nearer_is; unfold exists_at; cbn; lia|]. split; [repeat constructor; eexists; split; reflexivity|discriminate]. }
  split; [apply constructed_key_ok|]. split; vm_compute; reflexivity.
Qed.

Theorem C93_remove_any : forall h r k, reachable any h -> legal any (views h) (TrSet r k None) -> key_ok k -> ikey_keys k <> [] ->
  let h' := fst (tstep h (TrSet r k None)) in
  (exists a x, at_path (views h) r (ikey_keys k) a /\ is_node (views h) a x /\
     linked (views h') /\ is_root (views h') r /\
     (forall q w, holds_at (views h') r q w <-> holds_at (views h) r q w /\ ~ starts_with (ikey_keys k) q) /\
     (snd (tstep h (TrSet r k None)) = Ok (RValue (a_data x)) /\ ~ bare (views h') r \/
      snd (tstep h (TrSet r k None)) = Panic /\ bare (views h') r)) \/
  (((forall a, ~ at_path (views h) r (ikey_keys k) a) \/ path_clash (views h) r (ikey_keys k)) /\ h' = h /\ snd (tstep h (TrSet r k None)) = Panic).
Proof.
  intros h r k R (L & F & Q) K Hne h'. destruct (Q eq_refl) as [LK RT]. pose proof (reachable_any h R) as I.
  destruct (exists_node _ _ L) as (x & E). subst h'. cbn [tstep]. unfold on_node. rewrite E.
  destruct (ikey_is_empty k) eqn:Em; [apply K in Em; destruct (Hne Em)|].
  destruct (descend_out h r (ikey_keys k) R L F) as [(a & D & La & A)|(D & A)]; rewrite D.
  2: { right. split; [exact A|split; reflexivity]. }
  destruct (lt_nth h a La) as (y & Ey). rewrite Ey. left. exists a, (view y). split; [exact A|]. split; [now apply is_node_view|].
  exact (remove_at any h r k a y I LK RT F Hne D A La Ey).
Qed.
Print Assumptions C93_remove_any.
Example C93_remove_any_applies :
  reachable any nearer /\ legal any (views nearer) (TrSet 0 (key_1 kab) None) /\ key_ok (key_1 kab) /\ ikey_keys (key_1 kab) <> [] /\
  snd (tstep nearer (TrSet 0 (key_1 kab) None)) = Ok (RValue (Some vb)) /\
  snd (tstep (fst (tstep nearer (TrSet 0 (key_1 kab) None))) (TrGet 0 (key_1 kac))) = Ok (RValue (Some vc)) /\
  snd (tstep nearer (TrSet 0 (key_1 ka) None)) = Panic.
Proof.
  split; [exact nearer_reachable|]. split.
  { split; [rewrite nearer_is; unfold exists_at; cbn; lia|]. split; [repeat constructor; eexists; split; reflexivity|intros _; exact nearer_linked]. }
  split; [apply constructed_key_ok|]. split; [discriminate|]. split; [vm_compute; reflexivity|]. split; vm_compute; reflexivity.
Qed.
