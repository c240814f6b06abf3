(** * Proofs about the order of trie keys and the list of nodes *)
From Coq Require Import List NArith ZArith Bool Lia.
From Coq Require Import Strings.Byte.
From Verif Require Import Base CmpSpec CmpModel CmpProofs ValueModel AVLModel AVLSpec AVLProofs AVLProps TrieModel TrieIterModel TrieIterSpec TrieIterProofs.
Import ListNotations.
Local Open Scope nat_scope.

Lemma b2n_inj x y : b2n x = b2n y -> x = y.
Proof. unfold b2n. intros H. apply (f_equal Byte.of_N) in H. rewrite !Byte.of_to_N in H. congruence. Qed.

Lemma lexb_irrefl a : lexb a a = false.
Proof. induction a as [|x a IH]; [reflexivity|]. cbn. rewrite N.ltb_irrefl, N.eqb_refl, IH. reflexivity. Qed.
Lemma lexb_lt a b : lexb a b = true <-> lex_lt byte_lt a b.
Proof.
  revert b. induction a as [|x a IH]; intros [|y b]; cbn; split; intros H; try discriminate; try (inversion H; fail).
  - apply lex_nil.
  - reflexivity.
  - apply orb_true_iff in H. destruct H as [H|H].
    + apply lex_head. apply byte_ltb_lt. exact H.
    + apply andb_true_iff in H. destruct H as [H1 H2]. apply N.eqb_eq, b2n_inj in H1. subst y. apply lex_tail. apply IH, H2.
  - apply orb_true_iff. inversion H as [| ? ? ? ? L|? ? ? L]; subst.
    + left. apply byte_ltb_lt in L. exact L.
    + right. rewrite N.eqb_refl. cbn. now apply IH.
Qed.
Lemma lexb_trans a b c : lexb a b = true -> lexb b c = true -> lexb a c = true.
Proof. rewrite !lexb_lt. apply lex_lt_trans'. Qed.
Lemma lexb_total a b : lexb a b = false -> lexb b a = false -> a = b.
Proof.
  revert b. induction a as [|x a IH]; intros [|y b]; cbn; intros H1 H2; try discriminate; [reflexivity|].
  apply orb_false_iff in H1. apply orb_false_iff in H2. destruct H1 as [L1 H1], H2 as [L2 H2].
  apply N.ltb_ge in L1. apply N.ltb_ge in L2. assert (E : b2n x = b2n y) by lia. rewrite <- E in *. rewrite N.eqb_refl in *.
  cbn in H1, H2. rewrite (IH b H1 H2), (b2n_inj _ _ E). reflexivity.
Qed.

Lemma keyb_irrefl a : keyb a a = false.
Proof. apply lexb_irrefl. Qed.
Lemma keyb_trans a b c : keyb a b = true -> keyb b c = true -> keyb a c = true.
Proof. apply lexb_trans. Qed.
Lemma same_refl a : same a a = true.
Proof. unfold same. now rewrite keyb_irrefl. Qed.
Definition full (k : gslice) : Prop := exists b, k = Some b.
Lemma same_eq a b : full a -> full b -> same a b = true -> a = b.
Proof.
  intros (x & ->) (y & ->) H. unfold same, keyb in H. cbn in H. apply andb_true_iff in H. destruct H as [H1 H2].
  apply negb_true_iff in H1. apply negb_true_iff in H2. now rewrite (lexb_total _ _ H1 H2).
Qed.
Lemma keyb_lt a b : full a -> full b -> (keyb a b = true <-> slice_lt byte_lt a b).
Proof.
  intros (x & ->) (y & ->). unfold keyb. cbn. rewrite lexb_lt. split; intros H; [now constructor|now inversion H].
Qed.
Lemma keyb_not_same a b : keyb a b = true -> same a b = false /\ same b a = false /\ keyb b a = false.
Proof.
  intros H. assert (K : keyb b a = false).
  { destruct (keyb b a) eqn:E; [|reflexivity]. exfalso. pose proof (keyb_trans _ _ _ H E) as X. rewrite keyb_irrefl in X. discriminate. }
  unfold same. rewrite H, K. auto.
Qed.

(** ** Comparison of sub keys *)

Lemma compare_key P a b : prefix_free P -> key_in P a -> key_in P b ->
  exists c, compare_byte_slice a b = Ok c /\ (c <? 0)%Z = keyb a b /\ (0 <? c)%Z = keyb b a /\ (c =? 0)%Z = same a b.
Proof.
  intros HP (x & -> & Px) (y & -> & Py).
  assert (Np : ~ slice_proper_prefix (Some y) (Some x)).
  { intros (p & l & E1 & E2 & Hp). injection E1 as <-. injection E2 as <-. exact (HP _ _ Py Px Hp). }
  destruct (byte_compare_defined _ _ Np) as (c & Hc & H1 & H2 & H3). exists c. split; [exact Hc|].
  assert (F : full (Some x) /\ full (Some y)) by (split; eexists; reflexivity). destruct F as [Fx Fy].
  assert (A : (c <? 0)%Z = keyb (Some x) (Some y)) by (apply eq_true_iff_eq; rewrite Z.ltb_lt, (keyb_lt _ _ Fx Fy); exact H1).
  assert (B : (0 <? c)%Z = keyb (Some y) (Some x)) by (apply eq_true_iff_eq; rewrite Z.ltb_lt, (keyb_lt _ _ Fy Fx), <- H3; lia).
  split; [exact A|]. split; [exact B|]. unfold same. rewrite <- A, <- B. lia.
Qed.
Lemma ck_compare_key a b : full a -> ck_compare a b = compare_byte_slice a b.
Proof. intros (x & ->). reflexivity. Qed.

(** ** Order of keys *)

Lemma pathb_app p a b : pathb (p ++ a) (p ++ b) = pathb a b.
Proof. induction p as [|x p IH]; [reflexivity|]. cbn. now rewrite keyb_irrefl, same_refl, IH. Qed.
Lemma pathb_irrefl p : pathb p p = false.
Proof. rewrite <- (app_nil_r p), pathb_app. reflexivity. Qed.

(** ** Nodes *)

Lemma node_at_below t k c p n : In (k, c) (kids t) -> node_at c p n -> node_at t (k :: p) n.
Proof.
  intros H N. induction N as [|p n k' c' N IH Hin].
  - apply (at_child t [] t k c); [constructor|exact H].
  - apply (at_child t (k :: p) n k' c'); assumption.
Qed.
Lemma node_at_nil t n : node_at t [] n -> n = t.
Proof. intros H. inversion H as [|p m k c H1 H2 E]; [reflexivity|]. destruct p; discriminate E. Qed.
Lemma node_at_cons t k p n : node_at t (k :: p) n -> exists c, In (k, c) (kids t) /\ node_at c p n.
Proof.
  intros H. remember (k :: p) as q eqn:E. revert k p E. induction H as [|q m k' c' H IH Hin]; intros k p E; [discriminate|].
  destruct q as [|x q]; cbn in E; injection E as -> <-.
  - apply node_at_nil in H. subst m. exists c'. split; [exact Hin|constructor].
  - destruct (IH k q eq_refl) as (c & Hc & N). exists c. split; [exact Hc|]. now apply (at_child c q m k' c').
Qed.

Lemma nodes_in : forall n p q d, In (q, d) (nodes p n) <-> exists r c, q = p ++ r /\ node_at n r c /\ d = tn_data c.
Proof.
  apply (tnode_kids_ind (fun n => forall p q d, In (q, d) (nodes p n) <-> exists r c, q = p ++ r /\ node_at n r c /\ d = tn_data c)).
  intros n IH p q d. rewrite nodes_eq. split.
  - intros [H|H].
    + injection H as <- <-. exists [], n. rewrite app_nil_r. repeat split. constructor.
    + unfold below in H. apply in_flat_map in H. destruct H as ((k & c) & Hin & H). cbn [fst snd] in H.
      apply (IH k c Hin) in H. destruct H as (r & c' & -> & N & ->). exists (k :: r), c'. rewrite <- app_assoc. repeat split.
      apply (node_at_below n k c); assumption.
  - intros (r & c & -> & N & ->). destruct r as [|k r].
    + apply node_at_nil in N. subst c. left. now rewrite app_nil_r.
    + right. apply node_at_cons in N. destruct N as (c' & Hin & N). unfold below. apply in_flat_map. exists (k, c').
      split; [exact Hin|]. cbn [fst snd]. apply (IH k c' Hin). exists r, c. rewrite <- app_assoc. auto.
Qed.

Definition sorted (l : list shown) : Prop := ForallOrdPairs (fun x y => pathb (fst x) (fst y) = true) l.
Lemma below_in p l x : In x (below p l) -> exists k c r, In (k, c) l /\ fst x = p ++ k :: r.
Proof.
  intros H. unfold below in H. apply in_flat_map in H. destruct H as ((k & c) & Hin & H). cbn [fst snd] in H.
  destruct x as [q d]. apply nodes_in in H. destruct H as (r & c' & -> & _ & _). exists k, c, r. rewrite <- app_assoc. auto.
Qed.
Lemma fop_app_intro {A} (R : A -> A -> Prop) l1 l2 : ForallOrdPairs R l1 -> ForallOrdPairs R l2 ->
  (forall x y, In x l1 -> In y l2 -> R x y) -> ForallOrdPairs R (l1 ++ l2).
Proof.
  intros H1 H2 H. induction H1 as [|x l F H1 IH]; [exact H2|]. cbn. constructor.
  - apply Forall_app. split; [exact F|]. apply Forall_forall. intros y Hy. apply H; [now left|exact Hy].
  - apply IH. intros a b Ha. apply H. now right.
Qed.
Lemma ordered_kids P n : ordered P n -> ascending (slice_lt byte_lt) (kids n) /\
  forall k c, In (k, c) (kids n) -> (exists b, k = Some b /\ P b) /\ ordered P c.
Proof.
  intros [m S H]. split; [|exact H]. unfold kids. apply search_tree_ascending; [|exact S].
  intros a b c H1 H2. inversion H1; subst; inversion H2; subst; constructor; eauto using lex_lt_trans'.
Qed.
(** Ascending keys in terms of [keyb]. *)
Definition ascends (l : list (gslice * tnode)) : Prop := ForallOrdPairs (fun x y => keyb (fst x) (fst y) = true) l.
Lemma kids_ascend P n : ordered P n -> ascends (kids n).
Proof.
  intros H. apply ordered_kids in H. destruct H as [A H]. unfold ascends. revert A H. generalize (kids n) as l.
  induction l as [|[k c] l IH]; intros A H; [constructor|]. inversion A as [|? ? F A']; subst. constructor.
  - rewrite Forall_forall in *. intros [k' c'] Hin. specialize (F _ Hin). cbn [fst] in *. apply keyb_lt; [| |exact F].
    + destruct (H k c (or_introl eq_refl)) as [(b & -> & _) _]. now exists b.
    + destruct (H k' c' (or_intror Hin)) as [(b & -> & _) _]. now exists b.
  - apply IH; [exact A'|]. intros k' c' Hin. apply H. now right.
Qed.
Lemma kids_full P n k c : ordered P n -> In (k, c) (kids n) -> full k /\ key_in P k /\ ordered P c.
Proof.
  intros H Hin. apply ordered_kids in H. destruct H as [_ H]. destruct (H k c Hin) as [(b & -> & Hb) O].
  split; [now exists b|]. split; [now exists b|exact O].
Qed.

Lemma below_sorted p l : ascends l -> (forall k c, In (k, c) l -> forall q, sorted (nodes q c)) -> sorted (below p l).
Proof.
  induction l as [|[k c] l IH]; intros A H; [constructor|]. inversion A as [|? ? F A']; subst.
  unfold below. cbn [flat_map fst snd]. apply fop_app_intro.
  - apply (H k c). now left.
  - apply IH; [exact A'|]. intros k' c' Hin. apply (H k' c'). now right.
  - intros [x dx] y Hx Hy. apply nodes_in in Hx. destruct Hx as (r & c' & -> & _ & _).
    destruct (below_in p l y Hy) as (k' & c2 & r' & Hin & ->). cbn [fst]. rewrite <- app_assoc, pathb_app. cbn [app pathb].
    rewrite Forall_forall in F. specialize (F _ Hin). cbn [fst] in F. now rewrite F.
Qed.
Lemma nodes_sorted P : forall n, ordered P n -> forall p, sorted (nodes p n).
Proof.
  apply (tnode_kids_ind (fun n => ordered P n -> forall p, sorted (nodes p n))). intros n IH O p. rewrite nodes_eq. constructor.
  - apply Forall_forall. intros x Hx. destruct (below_in p _ x Hx) as (k & c & r & _ & E). cbn [fst]. rewrite E.
    rewrite <- (app_nil_r p) at 1. rewrite pathb_app. reflexivity.
  - apply below_sorted; [apply (kids_ascend P n O)|]. intros k c Hin q. apply (IH k c Hin). apply (kids_full P n k c O Hin).
Qed.
