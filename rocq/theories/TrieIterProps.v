(** * C98, C99: iterators over tries *)
From Coq Require Import List NArith ZArith Bool Lia.
From Coq Require Import Strings.Byte.
From Verif Require Import Base CmpSpec CmpModel CmpProofs KeyModel ValueModel AVLModel AVLSpec AVLIter AVLProofs AVLProps TrieModel TrieIterModel TrieIterSpec TrieIterProofs TrieIterOrder TrieIterRange TrieIterStart.
Import ListNotations.
Local Open Scope nat_scope.

(** ** An example *)

Definition leaf (k : gslice) (d : option value) : tnode := TNode k d new_avl.
Definition ka : gslice := Some [x61].
Definition kb : gslice := Some [x62].
Definition kc : gslice := Some [x63].
Definition kd : gslice := Some [x64].
Definition node_a : tnode := TNode ka None (mk_avl (Node kb (leaf kb None) 0%Z Leaf Leaf) 1%Z).
Definition node_b : tnode := TNode kb None (mk_avl (Node ka (leaf ka None) 1%Z Leaf (Node kc (leaf kc None) 0%Z Leaf Leaf)) 2%Z).
(** A trie with the keys a, a/b, b, b/a, b/c, d. *)
Definition example : tnode :=
  TNode None None (mk_avl (Node kb node_b 0%Z (Node ka node_a 0%Z Leaf Leaf) (Node kd (leaf kd None) 0%Z Leaf Leaf)) 3%Z).
Definition one_byte (l : bytes) : Prop := length l = 1.
Lemma regular_leaf k d : regular (leaf k d).
Proof. constructor; [reflexivity|intros ? ? []]. Qed.
Lemma example_regular : regular example.
Proof.
  constructor; [reflexivity|]. cbn. intros k c [H|[H|[H|[]]]]; injection H as <- <-; (split; [reflexivity|]).
  - constructor; [reflexivity|]. cbn. intros k c [H|[]]; injection H as <- <-. split; [reflexivity|apply regular_leaf].
  - constructor; [reflexivity|]. cbn. intros k c [H|[H|[]]]; injection H as <- <-; (split; [reflexivity|apply regular_leaf]).
  - apply regular_leaf.
Qed.
Lemma lt_bytes x y : byte_lt x y -> slice_lt byte_lt (Some [x]) (Some [y]).
Proof. intros H. apply slice_lex, lex_head, H. Qed.
Lemma example_ordered : ordered one_byte example.
Proof.
  assert (L : forall k d, ordered one_byte (leaf k d)) by (intros k d; constructor; [exact I|intros ? ? []]).
  assert (K : forall x, exists b, Some [x] = Some b /\ one_byte b) by (intros x; exists [x]; split; reflexivity).
  constructor.
  - cbn. split; [|split; [|split; (split; [constructor|split; [constructor|split; exact I]])]];
      (constructor; [apply lt_bytes; reflexivity|constructor]).
  - cbn. intros k c [H|[H|[H|[]]]]; injection H as <- <-; (split; [apply K|]).
    + constructor; [cbn; split; [constructor|split; [constructor|split; exact I]]|].
      cbn. intros k c [H|[]]; injection H as <- <-. split; [apply K|apply L].
    + constructor; [cbn; split; [constructor|split; [constructor; [apply lt_bytes; reflexivity|constructor]|
                     split; [exact I|split; [constructor|split; [constructor|split; exact I]]]]]|].
      cbn. intros k c [H|[H|[]]]; injection H as <- <-; (split; [apply K|apply L]).
    + apply L.
Qed.

(** ** C98: the key iterator *)

(** The nodes of a trie: each once, and in the order of their keys. *)
Theorem C98_nodes_membership : forall (t : tnode) (p : path) (d : option value),
  In (p, d) (nodes [] t) <-> exists n, node_at t p n /\ d = tn_data n.
Proof.
  intros t p d. rewrite nodes_in. split.
  - intros (r & c & -> & H & E). eauto.
  - intros (n & H & E). exists p, n. auto.
Qed.
Print Assumptions C98_nodes_membership.
Theorem C98_nodes_order : forall (P : bytes -> Prop) (t : tnode) (p : path), ordered P t ->
  ForallOrdPairs (fun x y => pathb (fst x) (fst y) = true) (nodes p t).
Proof. intros P t p H. exact (nodes_sorted P t H p). Qed.
Print Assumptions C98_nodes_order.

Lemma key_start p n : regular n -> key_state (TIter (Some (p, n)) []) (nodes p n).
Proof.
  intros R. exists []. split; [constructor|]. split; [constructor|]. split; [exact R|]. unfold pend. cbn [flat_map concat map].
  symmetry. apply app_nil_r.
Qed.
(** An iterator over the whole trie shows these nodes; HasNext says the opposite. *)
Theorem C98_whole_exact : forall (t : tnode) (cs : list icall), regular t ->
  exists it, new_key_iterator t None = Ok it /\ key_run it cs = Ok (backward_answers (nodes [] t) cs).
Proof.
  intros t cs R. eexists. split; [reflexivity|]. apply key_run_ok. exact (key_start [] t R).
Qed.
Print Assumptions C98_whole_exact.
(** An iterator from a node on: every sub key of it has to be a child of the root. *)
Theorem C98_from_exact : forall (P : bytes -> Prop) (t n : tnode) (p : path) (cs : list icall),
  prefix_free P -> ordered P t -> Forall (key_in P) p -> regular n ->
  if forallb (fun k => match child t k with Some _ => true | None => false end) p
  then exists it, new_key_iterator t (Some (p, n)) = Ok it /\ key_run it cs = Ok (backward_answers (nodes p n) cs)
  else new_key_iterator t (Some (p, n)) = Panic.
Proof.
  intros P t n p cs HP O F R.
  assert (X : check_children t p = if forallb (fun k => match child t k with Some _ => true | None => false end) p then Ok tt else Panic).
  { induction p as [|k p IH]; [reflexivity|]. cbn [check_children forallb]. rewrite (find_child_ok P HP t k O (Forall_inv F)). cbn [rbind].
    destruct (child t k); [exact (IH (Forall_inv_tail F))|reflexivity]. }
  unfold new_key_iterator. rewrite X. destruct (forallb _ p); [|reflexivity]. cbn [rbind]. eexists. split; [reflexivity|].
  apply key_run_ok. exact (key_start p n R).
Qed.
Print Assumptions C98_from_exact.
Example C98_exact_applies : regular example /\ ordered one_byte example /\ map fst (nodes [] example) =
  [[]; [ka]; [ka; kb]; [kb]; [kb; ka]; [kb; kc]; [kd]].
Proof. split; [exact example_regular|]. split; [exact example_ordered|]. vm_compute. reflexivity. Qed.

(** HasNext is false as long as there is a node, and true when there is none. A node two levels below the root is refused,
    though it is a node of the trie. *)
Theorem C98_refuted : exists t, regular t /\
  (exists it, new_key_iterator t None = Ok it /\
     key_run it [CHasNext; CPeek] = Ok [OHas false; OPeek (Some ([], None))] /\
     key_run it (repeat CNext 7 ++ [CHasNext; CNext]) =
       Ok (map (fun p => ONext (Some (p, None))) [[]; [ka]; [ka; kb]; [kb]; [kb; ka]; [kb; kc]; [kd]] ++ [OHas true; ONext None])) /\
  (exists n, node_at t [kb; kc] n /\ regular n /\ new_key_iterator t (Some ([kb; kc], n)) = Panic).
Proof.
  exists example. split; [exact example_regular|]. split.
  - eexists. split; [reflexivity|]. split; vm_compute; reflexivity.
  - exists (leaf kc None). split; [|split; [apply regular_leaf|vm_compute; reflexivity]].
    apply (at_child example [kb] node_b kc); [|cbn; auto]. apply (at_child example [] example kb); [constructor|cbn; auto].
Qed.
Print Assumptions C98_refuted.
(** Without HasNext, on the whole trie or from a child of the root: all nodes once, in the order of the keys, then nothing. *)
Lemma firstn_repeat {A} (x : A) a : forall b, firstn a (repeat x b) = repeat x (Nat.min a b).
Proof. induction a as [|a IH]; intros [|b]; [reflexivity|reflexivity|reflexivity|]. cbn. now rewrite IH. Qed.
Lemma backward_next l : forall k, backward_answers l (repeat CNext k) = firstn k (map (fun x => ONext (Some x)) l ++ repeat (ONext None) k).
Proof.
  induction l as [|x l IH]; intros k.
  - cbn [map app]. rewrite firstn_all2 by (rewrite repeat_length; apply Nat.le_refl).
    induction k as [|k IH]; [reflexivity|]. cbn. now rewrite IH.
  - destruct k as [|k]; [reflexivity|]. change (repeat CNext (S k)) with (CNext :: repeat CNext k).
    cbn [backward_answers hd_error tl map app firstn]. f_equal. rewrite IH.
    rewrite !firstn_app, map_length, !firstn_repeat. f_equal. f_equal. lia.
Qed.
Lemma under_app p r : under p (p ++ r) = true.
Proof. induction p as [|k p IH]; [reflexivity|]. cbn. now rewrite same_refl. Qed.
Theorem C98_partial : forall (P : bytes -> Prop) (t n : tnode) (p : path) (k : nat),
  prefix_free P -> ordered P t -> regular t -> node_at t p n -> length p <= 1 ->
  exists it, new_key_iterator t (Some (p, n)) = Ok it /\
    key_run it (repeat CNext k) = Ok (firstn k (map (fun x => ONext (Some x)) (nodes p n) ++ repeat (ONext None) k)) /\
    ForallOrdPairs (fun x y => pathb (fst x) (fst y) = true) (nodes p n) /\
    forall q d, In (q, d) (nodes p n) <-> exists c, node_at t q c /\ d = tn_data c /\ under p q = true.
Proof.
  intros P t n p k HP O R A L.
  assert (C : (p = [] /\ n = t) \/ exists x, p = [x] /\ In (x, n) (kids t)).
  { destruct p as [|x [|y p]]; [left; split; [reflexivity|exact (node_at_nil t n A)]| |cbn in L; lia].
    right. exists x. split; [reflexivity|]. destruct (node_at_cons t x [] n A) as (c & Hin & N). apply node_at_nil in N. now subst. }
  assert (X : Forall (key_in P) p /\ ordered P n /\ regular n /\ forallb (fun k => match child t k with Some _ => true | None => false end) p = true).
  { destruct C as [[-> ->]|(x & -> & Hin)]; [auto|]. destruct (kids_full P t x n O Hin) as (_ & Kx & On).
    split; [constructor; [exact Kx|constructor]|]. split; [exact On|]. split.
    - destruct R as [t _ Rk]. exact (proj2 (Rk x n Hin)).
    - cbn [forallb]. rewrite (proj2 (child_in P t x n O Kx) Hin). reflexivity. }
  destruct X as (F & On & Rn & B). pose proof (C98_from_exact P t n p (repeat CNext k) HP O F Rn) as E. rewrite B in E.
  destruct E as (it & E1 & E2). exists it. split; [exact E1|]. split; [rewrite E2, backward_next; reflexivity|].
  split; [exact (C98_nodes_order P n p On)|]. intros q d. rewrite nodes_in. split.
  - intros (r & c & -> & Hr & Hd). exists c. split; [|split; [exact Hd|apply under_app]].
    destruct C as [[-> ->]|(x & -> & Hin)]; [exact Hr|]. exact (node_at_below t x n r c Hin Hr).
  - intros (c & Hq & Hd & U). destruct C as [[-> ->]|(x & -> & Hin)]; [exists q, c; auto|].
    destruct q as [|y q]; [discriminate|]. destruct (node_at_cons t y q c Hq) as (c' & Hin' & Hc').
    cbn in U. rewrite andb_true_r in U.
    apply same_eq in U; [|exact (proj1 (kids_full P t x n O Hin))|exact (proj1 (kids_full P t y c' O Hin'))]. subst y.
    rewrite (ascends_unique _ _ _ _ (kids_ascend P t O) Hin' Hin) in Hc'. exists q, c. auto.
Qed.
Print Assumptions C98_partial.
Example C98_partial_applies : exists it n, node_at example [kb] n /\ new_key_iterator example (Some ([kb], n)) = Ok it /\
  key_run it (repeat CNext 4) = Ok [ONext (Some ([kb], None)); ONext (Some ([kb; ka], None)); ONext (Some ([kb; kc], None)); ONext None].
Proof.
  eexists. exists node_b. split; [|split; [vm_compute; reflexivity|vm_compute; reflexivity]].
  apply (at_child example [] example kb); [constructor|cbn; auto].
Qed.

(** ** C99: the range iterator *)

(** The sub keys of a bound; a nil bound has none. *)
Definition bound (k : option ikey) : path := match k with None => [] | Some k => ikey_keys k end.
(** What the range iterator does, for any trie, bounds and calls, with any number of rounds allowed to its loops. *)
Theorem C99_range_exact : forall (P : bytes -> Prop) (t : tnode) (start end_ : option ikey),
  prefix_free P -> ordered P t -> regular t -> Forall (key_in P) (bound start) -> Forall (key_in P) (bound end_) ->
  if match start, end_ with Some s, Some e => pathb (ikey_keys e) (ikey_keys s) | _, _ => false end
  then new_range_iterator t start end_ = Panic
  else exists r, new_range_iterator t start end_ = Ok r /\
         forall f cs, range_run (S f) r cs = range_answers t (bound start) (bound end_) cs.
Proof. intros P t start end_ HP O R Fs Fe. exact (range_exact P HP t start end_ O R Fs Fe). Qed.
Print Assumptions C99_range_exact.
Definition key2 (a b : gslice) : option ikey := Some (KKey false [a; b] None 5).
Definition key1 (a : gslice) : option ikey := Some (KKey false [a] None 3).
Example C99_exact_applies : prefix_free one_byte /\ ordered one_byte example /\ regular example /\
  Forall (key_in one_byte) (bound (key2 kb kc)) /\
  exists r, new_range_iterator example None (key2 kb kc) = Ok r /\
    range_run 1 r [CHasNext; CNext; CNext; CPeek; CNext; CNext; CNext; CHasNext; CNext] =
      [Said (OHas true); Said (ONext (Some ([], None))); Said (ONext (Some ([ka], None))); Said (OPeek (Some ([ka; kb], None)));
       Said (ONext (Some ([ka; kb], None))); Said (ONext (Some ([kb], None))); Said (ONext (Some ([kb; ka], None)));
       Said (OHas false); Said (ONext None)].
Proof.
  split; [exact (C16_fixed_length 1)|]. split; [exact example_ordered|]. split; [exact example_regular|].
  split; [repeat (constructor; [eexists; split; reflexivity|]); constructor|].
  eexists. split; vm_compute; reflexivity.
Qed.

(** The contract fails: without an end the iterator does not get past the first node below level one; an end that is not in
    the trie does not end the range; a start that is not the first key is a crash; a trie with only a root never ends. *)
Theorem C99_refuted : exists t, regular t /\ ordered one_byte t /\
  (exists r, new_range_iterator t None None = Ok r /\ forall f,
     range_run (S f) r [CNext; CNext; CNext; CHasNext; CNext] =
       [Said (ONext (Some ([], None))); Said (ONext (Some ([ka], None))); Said (ONext (Some ([ka; kb], None))); Said (OHas true); Busy]) /\
  (exists r, new_range_iterator t None (key2 ka ka) = Ok r /\ pathb [ka; ka] [ka; kb] = true /\ forall f,
     In (Said (ONext (Some ([ka; kb], None)))) (range_run (S f) r (repeat CNext 3))) /\
  (exists r, new_range_iterator t (key1 kb) (key1 kd) = Ok r /\ forall f c, range_run (S f) r [c] = [Crash]) /\
  (exists r, new_range_iterator t (key2 ka kb) (key1 kd) = Ok r /\ forall f c, range_run (S f) r [c] = [Crash]) /\
  (exists t0, regular t0 /\ ordered one_byte t0 /\
    exists r, new_range_iterator t0 None (key1 ka) = Ok r /\ forall f n, range_run (S f) r (repeat CNext n) = repeat (Said (ONext (Some ([], None)))) n).
Proof.
  exists example. split; [exact example_regular|]. split; [exact example_ordered|].
  pose proof (C16_fixed_length 1) as HP.
  assert (K : forall l, forallb (fun k => match k with Some [_] => true | _ => false end) l = true -> Forall (key_in one_byte) l).
  { intros l. induction l as [|[[|x [|y s]]|] l IH]; intros H; try discriminate; constructor; [|exact (IH H)]. exists [x]. split; reflexivity. }
  assert (X : forall s e, match s, e with Some s, Some e => pathb (ikey_keys e) (ikey_keys s) | _, _ => false end = false ->
    Forall (key_in one_byte) (bound s) -> Forall (key_in one_byte) (bound e) ->
    exists r, new_range_iterator example s e = Ok r /\ forall f cs, range_run (S f) r cs = range_answers example (bound s) (bound e) cs).
  { intros s e N Fs Fe. pose proof (C99_range_exact one_byte example s e HP example_ordered example_regular Fs Fe) as H. now rewrite N in H. }
  split; [|split; [|split; [|split]]].
  - destruct (X None None eq_refl (K (bound None) eq_refl) (K (bound None) eq_refl)) as (r & E & H). exists r. split; [exact E|]. intros f. rewrite H. vm_compute. reflexivity.
  - destruct (X None (key2 ka ka) eq_refl (K (bound None) eq_refl) (K (bound (key2 ka ka)) eq_refl)) as (r & E & H). exists r. split; [exact E|].
    split; [reflexivity|]. intros f. rewrite H. vm_compute. tauto.
  - destruct (X (key1 kb) (key1 kd) eq_refl (K (bound (key1 kb)) eq_refl) (K (bound (key1 kd)) eq_refl)) as (r & E & H). exists r. split; [exact E|]. intros f c. rewrite H. destruct c; vm_compute; reflexivity.
  - destruct (X (key2 ka kb) (key1 kd) eq_refl (K (bound (key2 ka kb)) eq_refl) (K (bound (key1 kd)) eq_refl)) as (r & E & H). exists r. split; [exact E|]. intros f c. rewrite H. destruct c; vm_compute; reflexivity.
  - exists (leaf None None). split; [apply regular_leaf|]. assert (O : ordered one_byte (leaf None None)) by (constructor; [exact I|intros ? ? []]).
    split; [exact O|].
    pose proof (C99_range_exact one_byte (leaf None None) None (key1 ka) HP O (regular_leaf _ _) (K (bound None) eq_refl) (K (bound (key1 ka)) eq_refl)) as (r & E & H).
    exists r. split; [exact E|]. intros f n. rewrite H. unfold range_answers. cbn [kids leaf tn_children new_avl avl_root inorder tn_data].
    induction n as [|n IH]; [reflexivity|]. cbn [repeat repeats]. f_equal. exact IH.
Qed.
Print Assumptions C99_refuted.

Lemma node_keys P p : forall t n, ordered P t -> node_at t p n -> Forall (key_in P) p /\ found t p = p.
Proof.
  induction p as [|k p IH]; intros t n O A; [split; [constructor|reflexivity]|].
  destruct (node_at_cons t k p n A) as (c & Hin & Hc). destruct (kids_full P t k c O Hin) as (_ & Kk & Oc).
  destruct (IH c n Oc Hc) as [F E]. split; [constructor; assumption|]. cbn [found]. rewrite (proj2 (child_in P t k c O Kk) Hin), E. reflexivity.
Qed.
Lemma visible_all m l : (forall x, In x l -> length (fst x) <= m) -> visible m l = (l, false).
Proof.
  induction l as [|x l IH]; intros H; [reflexivity|]. cbn [visible].
  rewrite IH by (intros y Hy; apply H; right; exact Hy).
  assert (E : Nat.ltb m (length (fst x)) = false) by (apply Nat.ltb_ge, H; left; reflexivity).
  match goal with |- (if ?b && _ then _ else _) = _ => replace b with false by (symmetry; exact E) end. reflexivity.
Qed.
Lemma before_all e p : e <> [] -> before e true None p = pathb p e.
Proof. intros N. destruct e as [|k e]; [now destruct N|]. unfold before. cbn [negb andb]. now rewrite !orb_false_r. Qed.
(** If the range starts with the root or with the first child of the root, ends with a node, and no node before the end is
    deeper than the end, then the iterator shows the nodes of the range, and then says that there is no more. *)
Theorem C99_partial : forall (P : bytes -> Prop) (t n : tnode) (start : option ikey) (e : ikey),
  prefix_free P -> ordered P t -> regular t ->
  bound start = [] \/ (exists k c l, kids t = (k, c) :: l /\ bound start = [k]) ->
  node_at t (ikey_keys e) n -> ikey_keys e <> [] ->
  (forall p d, In (p, d) (nodes [] t) -> pathb p (ikey_keys e) = true -> length p <= length (ikey_keys e)) ->
  exists r, new_range_iterator t start (Some e) = Ok r /\
    forall f cs, range_run (S f) r cs =
      answers (filter (fun x => negb (pathb (fst x) (bound start)) && pathb (fst x) (ikey_keys e)) (nodes [] t)) false cs.
Proof.
  intros P t n start e HP O R Hs A N D. destruct (node_keys P _ t n O A) as [Fe Ee].
  assert (Ne : exists k c l, kids t = (k, c) :: l).
  { destruct (ikey_keys e) as [|k p]; [now destruct N|]. destruct (node_at_cons t k p n A) as (c & Hin & _).
    destruct (kids t) as [|[k' c'] l]; [destruct Hin|eauto]. }
  destruct Ne as (k0 & c0 & l0 & Ek).
  assert (Fk : forall k c, In (k, c) (kids t) -> keyb k k0 = false).
  { intros k c Hin. pose proof (kids_ascend P t O) as As. rewrite Ek in As, Hin. inversion As as [|? ? F _]; subst.
    destruct Hin as [Hin|Hin]; [injection Hin as <- _; apply keyb_irrefl|]. rewrite Forall_forall in F. specialize (F _ Hin). cbn [fst] in F.
    exact (proj2 (proj2 (keyb_not_same _ _ F))). }
  assert (Fs : Forall (key_in P) (bound start)).
  { destruct Hs as [-> |(k & c & l & Ek' & ->)]; [constructor|]. rewrite Ek in Ek'. injection Ek' as <- <- <-.
    constructor; [|constructor]. apply (kids_full P t k0 c0 O). rewrite Ek. now left. }
  pose proof (C99_range_exact P t start (Some e) HP O R Fs Fe) as X.
  assert (Y : match start with Some s => pathb (ikey_keys e) (ikey_keys s) | None => false end = false).
  { destruct start as [s|]; [|reflexivity]. cbn [bound] in Hs. destruct Hs as [Hs|(k & c & l & Ek' & Hs)].
    - rewrite Hs. now destruct (ikey_keys e).
    - rewrite Hs. rewrite Ek in Ek'. injection Ek' as <- <- <-. destruct (ikey_keys e) as [|x p]; [now destruct N|].
      destruct (node_at_cons t x p n A) as (c & Hin & _). cbn [pathb]. rewrite (Fk x c Hin). cbn [orb].
      destruct p; rewrite andb_comm; reflexivity. }
  assert (X' : exists r, new_range_iterator t start (Some e) = Ok r /\
    forall f cs, range_run (S f) r cs = range_answers t (bound start) (ikey_keys e) cs).
  { clear - X Y. destruct start as [s|]; [rewrite Y in X; exact X|exact X]. }
  destruct X' as (r & E & H). exists r. split; [exact E|]. intros f cs. rewrite H. cbn [bound].
  unfold range_answers. rewrite Ek, Ee, Nat.eqb_refl.
  destruct Hs as [Es|(k & c & l & Ek' & Es)]; rewrite Es.
  - unfold opening. cbn [found leads negb length skipn andb].
    rewrite (filter_ext _ (fun x => pathb (fst x) (ikey_keys e))) by (intros x; apply before_all, N).
    rewrite visible_all.
    + f_equal. apply filter_ext. intros [[|? ?] ?]; reflexivity.
    + intros [p d] Hin. apply filter_In in Hin. destruct Hin as [Hin Hb]. exact (D p d Hin Hb).
  - rewrite Ek in Ek'. injection Ek' as <- <- <-.
    assert (Ck : child t k0 = Some c0).
    { apply (child_in P t k0 c0 O); [apply (kids_full P t k0 c0 O)|]; rewrite Ek; now left. }
    unfold opening. cbn [found]. rewrite Ck. cbn [leads]. rewrite Ek, same_refl. cbn [negb andb leads length skipn].
    rewrite (filter_ext _ (fun x => pathb (fst x) (ikey_keys e))) by (intros x; apply before_all, N).
    rewrite visible_all.
    + f_equal. rewrite nodes_eq. cbn [skipn filter fst pathb negb andb].
      apply filter_ext_in. intros [p d] Hin. destruct (below_in _ _ _ Hin) as (k & c & q & Hk & Hp). cbn [fst app] in *. subst p.
      cbn [pathb]. rewrite (Fk k c Hk). destruct q; rewrite andb_false_r; reflexivity.
    + intros [p d] Hin. apply filter_In in Hin. destruct Hin as [Hin Hb]. apply (D p d); [|exact Hb].
      rewrite nodes_eq. right. rewrite nodes_eq in Hin. exact Hin.
Qed.
Print Assumptions C99_partial.
Example C99_partial_applies : exists r, new_range_iterator example (key1 ka) (key2 kb kc) = Ok r /\
  (forall f, range_run (S f) r (repeat CNext 5) = map (fun x => Said (ONext x))
     [Some ([ka], None); Some ([ka; kb], None); Some ([kb], None); Some ([kb; ka], None); None]).
Proof.
  destruct (C99_partial one_byte example (leaf kc None) (key1 ka) (KKey false [kb; kc] None 5)) as (r & E & H).
  - exact (C16_fixed_length 1).
  - exact example_ordered.
  - exact example_regular.
  - right. repeat eexists.
  - cbn. apply (at_child example [kb] node_b kc); [|cbn; auto]. apply (at_child example [] example kb); [constructor|cbn; auto].
  - discriminate.
  - cbn. intros p d Hin. repeat (destruct Hin as [Hin|Hin]; [injection Hin as <- <-; cbn; auto with arith|]). destruct Hin.
  - exists r. split; [exact E|]. intros f. rewrite H. vm_compute. reflexivity.
Qed.
