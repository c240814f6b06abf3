(** * Tries: C61, C62 and C63. *)
From Coq Require Import List NArith ZArith Bool Lia.
From Coq Require Import Strings.Byte.
From Verif Require Import Base BaseProofs EndianModel VarintModel VarintSpec VarintProofs CmpModel KeyModel KeyProofs ValueModel ValueProofs AVLModel TrieModel.
Import ListNotations.
Local Open Scope Z_scope.

(** ** Sets and lookups *)

(** The intended behaviour: a map from sequences of sub keys to values, an absent key reading as nil. *)
Definition content_of (k : ikey) : list bytes := map gcontent (ikey_keys k).
Definition spec_set (m : list bytes -> option value) (k : ikey) (d : option value) : list bytes -> option value :=
  fun x => if list_eq_dec (list_eq_dec Byte.byte_eq_dec) x (content_of k) then d else m x.
Fixpoint spec_run (m : list bytes -> option value) (ops : list trie_op) : list (option value) :=
  match ops with
  | [] => []
  | TSet k d :: ops' => m (content_of k) :: spec_run (spec_set m k d) ops'
  | TGet k :: ops' => m (content_of k) :: spec_run m ops'
  end.
Definition op_key (op : trie_op) : ikey := match op with TSet k _ => k | TGet k => k end.
(** An empty key: one without sub keys. *)
Definition key_empty (k : ikey) : Prop := ikey_keys k = [].
(** The keys that occur: a parsed key has a non-empty buffer when it has sub keys (KeyHistory). *)
Definition key_ok (k : ikey) : Prop := ikey_is_empty k = true <-> key_empty k.

Lemma constructed_key_ok b ks e est : key_ok (KKey b ks e est).
Proof. unfold key_ok, key_empty. destruct ks; simpl; split; congruence. Qed.

Lemma get_child_empty k d s : get_child (TNode k d new_avl) s = Panic.
Proof. reflexivity. Qed.
Lemma get_empty_trie d k : trie_get (TNode None d new_avl) k = if ikey_is_empty k then Ok d else
  match ikey_keys k with [] => Ok d | _ => Panic end.
Proof. unfold trie_get. destruct (ikey_is_empty k); [reflexivity|]. destruct (ikey_keys k); reflexivity. Qed.
Lemma set_empty_trie d k v : key_ok k ->
  trie_set (TNode None d new_avl) k v = if ikey_is_empty k then Ok (TNode None v new_avl, d) else Panic.
Proof.
  intros K. unfold trie_set. destruct (ikey_is_empty k) eqn:E; [reflexivity|].
  unfold key_ok, key_empty in K. destruct (ikey_keys k) as [|s ks] eqn:Ek; [|reflexivity].
  destruct K as [_ K]. rewrite (K eq_refl) in E. discriminate.
Qed.

(** Every trie built by calls that return is a bare root: no key with a sub key is ever stored. *)
Theorem C61_reachable_tries : forall ops t outs,
  Forall (fun op => key_ok (op_key op)) ops -> trie_run new_trie ops = Ok (t, outs) -> exists d, t = TNode None d new_avl.
Proof.
  assert (forall ops d t outs, Forall (fun op => key_ok (op_key op)) ops ->
            trie_run (TNode None d new_avl) ops = Ok (t, outs) -> exists d', t = TNode None d' new_avl) as G.
  { induction ops as [|op ops IH]; intros d t outs F H.
    - exists d. simpl in H. congruence.
    - inversion F as [|x l F1 F2]; subst. cbn [trie_run] in H. unfold trie_step in H. destruct op as [k v|k]; simpl op_key in F1.
      + rewrite (set_empty_trie _ _ _ F1) in H. destruct (ikey_is_empty k); cbn [rbind] in H; [|discriminate].
        destruct (trie_run (TNode None v new_avl) ops) as [[t' os]| |] eqn:E; cbn [rbind] in H; try discriminate.
        destruct (IH _ _ _ F2 E) as (d' & E'). exists d'. congruence.
      + rewrite get_empty_trie in H. unfold key_ok, key_empty in F1.
        assert (exists o, (if ikey_is_empty k then Ok d else match ikey_keys k with [] => Ok d | _ => Panic end) = Ok o) as (o & Eo).
        { destruct (ikey_is_empty k); [eauto|]. destruct (ikey_keys k); [eauto|discriminate]. }
        rewrite Eo in H. cbn [rbind] in H.
        destruct (trie_run (TNode None d new_avl) ops) as [[t' os]| |] eqn:E; cbn [rbind] in H; try discriminate.
        destruct (IH _ _ _ F2 E) as (d' & E'). exists d'. congruence. }
  intros ops t outs. exact (G ops None t outs).
Qed.
Print Assumptions C61_reachable_tries.
Example C61_reachable_tries_applies : forall v, exists t outs,
  Forall (fun op => key_ok (op_key op)) [TSet new_key (Some v); TGet KEmpty] /\
  trie_run new_trie [TSet new_key (Some v); TGet KEmpty] = Ok (t, outs) /\ outs = [None; Some v].
Proof. intros v. eexists. eexists. split; [repeat constructor; intros; reflexivity|]. split; reflexivity. Qed.

(** Exactly which histories return: those that use the empty key only; and they behave as intended. Any other one panics at the first
    Get or Set of a non-empty key. *)
Theorem C61_exact : forall ops, Forall (fun op => key_ok (op_key op)) ops ->
  (Forall (fun op => key_empty (op_key op)) ops -> exists t, trie_run new_trie ops = Ok (t, spec_run (fun _ => None) ops)) /\
  (~ Forall (fun op => key_empty (op_key op)) ops -> trie_run new_trie ops = Panic).
Proof.
  assert (forall ops m d, m [] = d -> Forall (fun op => key_ok (op_key op)) ops ->
    (Forall (fun op => key_empty (op_key op)) ops -> exists t, trie_run (TNode None d new_avl) ops = Ok (t, spec_run m ops)) /\
    (~ Forall (fun op => key_empty (op_key op)) ops -> trie_run (TNode None d new_avl) ops = Panic)) as G.
  { induction ops as [|op ops IH]; intros m d Hm F.
    - split; [eexists; reflexivity|]. intros N. destruct N. constructor.
    - inversion F as [|x l F1 F2]; subst x l. cbn [trie_run]. unfold trie_step.
      destruct op as [k v|k]; simpl op_key in F1; unfold key_ok in F1.
      + rewrite (set_empty_trie _ _ _ F1). destruct (ikey_is_empty k) eqn:E; cbn [rbind].
        * assert (key_empty k) as K by now apply F1. assert (content_of k = []) as C by (unfold content_of; now rewrite K).
          assert (spec_set m k v [] = v) as S by (unfold spec_set; rewrite C; now destruct (list_eq_dec _ _ _)).
          destruct (IH (spec_set m k v) v S F2) as (I1 & I2). cbn [spec_run]. split.
          -- intros A. inversion A as [|x l A1 A2]; subst. destruct (I1 A2) as (t & ->). cbn [rbind]. exists t. now rewrite C.
          -- intros A. rewrite I2; [reflexivity|]. intros B. apply A. constructor; assumption.
        * split; [|reflexivity]. intros A. inversion A as [|x l A1 A2]; subst. destruct F1 as [_ F1]. specialize (F1 A1). congruence.
      + rewrite get_empty_trie. destruct (ikey_is_empty k) eqn:E; cbn [rbind].
        * assert (key_empty k) as K by now apply F1. assert (content_of k = []) as C by (unfold content_of; now rewrite K).
          destruct (IH m d Hm F2) as (I1 & I2). cbn [spec_run]. split.
          -- intros A. inversion A as [|x l A1 A2]; subst. destruct (I1 A2) as (t & ->). cbn [rbind]. exists t. now rewrite C.
          -- intros A. rewrite I2; [reflexivity|]. intros B. apply A. constructor; assumption.
        * destruct (ikey_keys k) as [|s ks] eqn:Ek.
          -- destruct F1 as [_ F1]. unfold key_empty in F1. specialize (F1 Ek). congruence.
          -- split; [|reflexivity]. intros A. inversion A as [|x l A1 A2]; subst. simpl in A1. unfold key_empty in A1. congruence. }
  intros ops F. apply (G ops (fun _ => None) None eq_refl F).
Qed.
Print Assumptions C61_exact.
Definition empty_history (v1 v2 : value) : list trie_op := [TGet KEmpty; TSet new_key (Some v1); TGet KEmpty; TSet KEmpty (Some v2); TSet KEmpty None; TGet new_key].
Example C61_exact_applies : forall v1 v2,
  Forall (fun op => key_ok (op_key op)) (empty_history v1 v2) /\ Forall (fun op => key_empty (op_key op)) (empty_history v1 v2) /\
  spec_run (fun _ => None) (empty_history v1 v2) = [None; None; Some v1; Some v1; Some v2; None].
Proof.
  intros v1 v2. split; [repeat constructor; intros; reflexivity|]. split; [repeat constructor|]. reflexivity.
Qed.

(** The part of C61 that holds: values set for the empty key are found again, in every history of such calls. *)
Theorem C61_empty_key_partial : forall ops, Forall (fun op => key_ok (op_key op)) ops -> Forall (fun op => key_empty (op_key op)) ops ->
  exists t, trie_run new_trie ops = Ok (t, spec_run (fun _ => None) ops).
Proof. intros ops K E. exact (proj1 (C61_exact ops K) E). Qed.
Print Assumptions C61_empty_key_partial.
Example C61_empty_key_partial_applies : forall v1 v2,
  Forall (fun op => key_ok (op_key op)) (empty_history v1 v2) /\ Forall (fun op => key_empty (op_key op)) (empty_history v1 v2).
Proof. intros v1 v2. destruct (C61_exact_applies v1 v2) as (A & B & _). auto. Qed.

(** The first Get or Set of a non-empty key panics, so C61 is false. *)
Theorem C61_refuted : forall s ks b e est v,
  trie_get new_trie (KKey b (s :: ks) e est) = Panic /\ trie_set new_trie (KKey b (s :: ks) e est) v = Panic.
Proof. intros. split; reflexivity. Qed.
Print Assumptions C61_refuted.

(** ** Iterators and encoding *)

(** Key iterators and range iterators panic on every trie whose root comes from NewTrie, whatever it holds and whatever the arguments,
    except that KeyIterator of a key found absent would return an empty iterator. *)
Theorem C62_iterators_refuted : forall d c start stop,
  trie_iterator (TNode None d c) = Panic /\ trie_range_iterator (TNode None d c) start stop = Panic /\
  trie_key_iterator (TNode None d c) None = Panic /\
  (forall k, ikey_is_empty k = true -> trie_key_iterator (TNode None d c) (Some k) = Panic).
Proof.
  intros d c start stop. split; [reflexivity|]. split; [reflexivity|]. split; [reflexivity|].
  intros k E. unfold trie_key_iterator. rewrite E. reflexivity.
Qed.
Print Assumptions C62_iterators_refuted.

(** On reachable tries KeyIterator panics for every key. *)
Theorem C62_key_iterator_refuted : forall ops t outs k,
  Forall (fun op => key_ok (op_key op)) ops -> trie_run new_trie ops = Ok (t, outs) -> key_ok k ->
  trie_key_iterator t (Some k) = Panic.
Proof.
  intros ops t outs k F R K. destruct (C61_reachable_tries _ _ _ F R) as (d & ->). unfold trie_key_iterator.
  destruct (ikey_is_empty k) eqn:E; [reflexivity|]. rewrite get_empty_trie, E. unfold key_ok, key_empty in K.
  destruct (ikey_keys k); [|reflexivity]. destruct K as [_ K]. rewrite (K eq_refl) in E. discriminate.
Qed.
Print Assumptions C62_key_iterator_refuted.
Example C62_key_iterator_refuted_applies : exists v t outs,
  trie_run new_trie [TSet KEmpty (Some v)] = Ok (t, outs) /\ t <> new_trie /\ key_ok (new_simple_key (Some [x61])).
Proof.
  exists (VPrim (Some [x61])). eexists. eexists. split; [reflexivity|]. split; [discriminate|].
  unfold key_ok, key_empty. simpl. split; discriminate.
Qed.

(** Encode panics on every trie with a root from NewTrie, in particular on every reachable one. *)
Theorem C62_encode_refuted : forall d c, trie_encode (TNode None d c) = Panic.
Proof. reflexivity. Qed.
Print Assumptions C62_encode_refuted.

(** Parsed tries: Iterator and RangeIterator panic; KeyIterator panics for an empty key and otherwise returns an iterator over nothing. *)
Theorem C62_mapped_iterators_exact : forall k,
  mapped_iterator = Panic /\
  mapped_key_iterator None = Panic /\
  mapped_key_iterator (Some k) = (if ikey_is_empty k then Panic else Ok tt).
Proof.
  intros k. split; [reflexivity|]. split; [reflexivity|]. unfold mapped_key_iterator.
  destruct (ikey_is_empty k) eqn:E; [reflexivity|]. unfold mapped_trie_get. rewrite E. destruct (ikey_keys k); reflexivity.
Qed.
Print Assumptions C62_mapped_iterators_exact.

(** HasNext is the wrong way round: it says true exactly when nothing is left, for every state of a key iterator. *)
Definition nodes_left (it : kiter) : list (list gslice) :=
  match ki_curr it with Some p => [p] | None => [] end ++ concat (ki_paths it).
Lemma drop_finished_concat ps : concat (drop_finished ps) = concat ps.
Proof. induction ps as [|[|p q] ps IH]; simpl; auto. Qed.
Lemma drop_finished_shape ps : drop_finished ps = [] \/ exists p q ps', drop_finished ps = (p :: q) :: ps'.
Proof. induction ps as [|[|p q] ps IH]; simpl; [auto|assumption|]. right. exists p, q, ps. reflexivity. Qed.
Theorem C62_has_next_inverted : forall it, ki_has_next it = true <-> nodes_left it = [].
Proof.
  intros [c ps]. unfold ki_has_next, ki_advance, nodes_left. simpl. destruct c as [p|]; simpl.
  - split; discriminate.
  - rewrite <- (drop_finished_concat ps). destruct (drop_finished_shape ps) as [-> | (p & q & ps' & ->)]; simpl; split; congruence.
Qed.
Print Assumptions C62_has_next_inverted.
Example C62_has_next_inverted_applies :
  ki_has_next empty_kiter = true /\ ki_peek empty_kiter = Ok None /\
  ki_has_next (mk_kiter None [[]; [[None; Some [x61]]]]) = false.
Proof. repeat split. Qed.

(** A node that is left makes Peek (and Next) panic, since its full key starts with the nil key of the root. *)
Theorem C62_peek_exact : forall it, (forall p, In p (nodes_left it) -> exists q, p = None :: q) ->
  ki_peek it = match nodes_left it with [] => Ok None | _ => Panic end.
Proof.
  intros [c ps]. unfold ki_peek, ki_advance, nodes_left. simpl. destruct c as [p|]; simpl; intros H.
  - destruct (H p (or_introl eq_refl)) as (q & ->). reflexivity.
  - rewrite <- (drop_finished_concat ps) in H |- *. destruct (drop_finished_shape ps) as [E | (p & q & ps' & E)]; rewrite E in *; simpl in *.
    + reflexivity.
    + destruct (H p (or_introl eq_refl)) as (q' & ->). reflexivity.
Qed.
Print Assumptions C62_peek_exact.
Example C62_peek_exact_applies :
  let it := mk_kiter None [[]; [[None; Some [x61]]]] in
  (forall p, In p (nodes_left it) -> exists q, p = None :: q) /\ nodes_left it <> [].
Proof. simpl. split; [|discriminate]. intros p [<- | []]. eauto. Qed.

(** ** Parsing *)

(** A number at the start of [p ++ rest], taking the bytes [p] (missing at the end of input means 0, a number larger than the rest of the
    input is refused, C22); and a length-prefixed string likewise. *)
Definition num_at (p rest : bytes) (v : N) : Prop :=
  (p = [] /\ rest = [] /\ v = 0%N) \/
  uvarint_numeral p v /\ ~ (zlen p + Z.of_N v < 2 ^ 63 /\ zlen rest < Z.of_N v).
Definition str_at (p rest d : bytes) : Prop :=
  (p = [] /\ rest = [] /\ d = []) \/ lp_string d p.
(** The shape of a node that makes the parser panic: a non-zero flag, then a string too long for an int; or a non-empty node key, a parent
    offset that is 0 in 32 bits and a value, that is, any complete node below the root. *)
Definition bad_node (buf : bytes) : Prop :=
  exists f b1 v, buf = f ++ b1 /\ num_at f b1 v /\ v <> 0%N /\
    (huge_header b1 \/
     exists s b2 d, b1 = s ++ b2 /\ str_at s b2 d /\ d <> [] /\
       exists o b3 w, b2 = o ++ b3 /\ num_at o b3 w /\ (w mod 2 ^ 32 = 0)%N /\
         (huge_header b3 \/ exists p b4 e, b3 = p ++ b4 /\ str_at p b4 e)).

Lemma app_inj_length (a b c d : bytes) : length a = length c -> a ++ b = c ++ d -> a = c /\ b = d.
Proof.
  revert c. induction a as [|x a IH]; intros [|y c] L E; try discriminate; [auto|].
  simpl in L, E. assert (x = y) as -> by congruence. destruct (IH c ltac:(lia) ltac:(congruence)) as (-> & ->). auto.
Qed.
Lemma num_ok buf v n : decode_uvarint64 buf = Ok (v, n) <-> exists p rest, buf = p ++ rest /\ num_at p rest v /\ n = zlen p.
Proof.
  split.
  - intros H. destruct buf as [|b buf].
    + exists [], []. split; [reflexivity|]. inv H. split; [left; auto|reflexivity].
    + destruct (header_cases (b :: buf)) as [v' m E Hn|pre suf v' Eb U E].
      * destruct (bad_header_err (b :: buf) v' m) as (_ & F & _); [discriminate|assumption..|]. congruence.
      * rewrite Eb, (decode_uvarint64_header _ _ _ U) in H. exists pre, suf. split; [assumption|].
        destruct (Z.ltb_spec (zlen pre + Z.of_N v') (2 ^ 63)) as [A|A]; destruct (Z.ltb_spec (zlen suf) (Z.of_N v')) as [B|B];
          cbn [andb] in H; try discriminate; assert (v' = v /\ zlen pre = n) as (-> & <-) by (split; congruence);
          (split; [right; split; [assumption|lia]|reflexivity]).
  - intros (p & rest & -> & [(-> & -> & ->) | (U & N)] & ->); [reflexivity|].
    rewrite (decode_uvarint64_header _ _ _ U).
    destruct (Z.ltb_spec (zlen p + Z.of_N v) (2 ^ 63)) as [A|A]; destruct (Z.ltb_spec (zlen rest) (Z.of_N v)) as [B|B];
      try reflexivity. tauto.
Qed.
Lemma num_read p rest v : num_at p rest v -> decode_uvarint64 (p ++ rest) = Ok (v, zlen p).
Proof. intros H. apply num_ok. eauto. Qed.
Lemma str_ok buf d n : decode_varchar buf = Ok (d, n) <-> exists p rest, buf = p ++ rest /\ str_at p rest d /\ n = zlen p.
Proof.
  split.
  - intros H. destruct (varchar_inside _ _ _ H) as [(-> & -> & ->) | (pre & rest & -> & U & ->)].
    + exists [], []. split; [reflexivity|]. split; [left; auto|reflexivity].
    + exists (pre ++ d), rest. rewrite <- app_assoc. split; [reflexivity|]. split; [|reflexivity]. right.
      exists pre. split; [assumption|]. split; [reflexivity|].
      rewrite (decode_varchar_header _ _ _ U) in H. rewrite zlen_app.
      destruct (Z.leb_spec (2 ^ 63) (zlen pre + Z.of_N (N.of_nat (length d)))) as [A|A]; [discriminate|]. unfold zlen in *. lia.
  - intros (p & rest & -> & [(-> & -> & ->) | L] & ->); [reflexivity|].
    apply lp_string_decode in L. apply L.
Qed.
Lemma str_read p rest d : str_at p rest d -> decode_varchar (p ++ rest) = Ok (d, zlen p).
Proof. intros H. apply str_ok. eauto. Qed.
Lemma num_never_panics buf : decode_uvarint64 buf <> Panic.
Proof.
  destruct buf as [|b buf]; [discriminate|]. destruct (header_cases (b :: buf)) as [v' m E Hn|pre suf v' Eb U E].
  - destruct (bad_header_err (b :: buf) v' m) as (_ & F & _); [discriminate|assumption..|]. congruence.
  - rewrite Eb, (decode_uvarint64_header _ _ _ U). destruct (_ && _); discriminate.
Qed.
Lemma from3 (a b c : bytes) : go_from (a ++ b ++ c) (zlen a + zlen b) = Ok c.
Proof. rewrite app_assoc, <- zlen_app. apply go_from_app. Qed.
Lemma from4 (a b c d : bytes) : go_from (a ++ b ++ c ++ d) (zlen a + zlen b + zlen c) = Ok d.
Proof. rewrite 2 app_assoc, <- !zlen_app. apply go_from_app. Qed.
Lemma simple_value_cases b : (new_simple_value b = Panic /\ huge_header b) \/ new_simple_value b = Err \/
  (exists x, new_simple_value b = Ok x) /\ exists p b4 e, b = p ++ b4 /\ str_at p b4 e.
Proof.
  unfold new_simple_value. destruct (decode_varchar b) as [[d n]| |] eqn:E; cbn [rbind]; [|auto|].
  - right. right. apply str_ok in E. destruct E as (p & rest & -> & S & ->). split; [|eauto 6].
    rewrite go_upto_app. cbn [rbind]. eauto.
  - left. split; [reflexivity|]. apply varchar_panic_exact. assumption.
Qed.
Lemma not_huge_and_str p rest d : str_at p rest d -> ~ huge_header (p ++ rest).
Proof. intros S H. apply varchar_panic_exact in H. rewrite (str_read _ _ _ S) in H. discriminate. Qed.

Lemma node_decode_cases buf :
  (mapped_node_decode buf [0%N] = Panic /\ bad_node buf) \/
  (mapped_node_decode buf [0%N] = Err /\ ~ bad_node buf /\ ~ exists p rest, buf = p ++ rest /\ num_at p rest 0) \/
  (exists p rest, buf = p ++ rest /\ num_at p rest 0 /\ mapped_node_decode buf [0%N] = Ok (zlen p) /\ ~ bad_node buf).
Proof.
  assert (forall p rest v n, decode_uvarint64 buf = Ok (v, n) -> buf = p ++ rest -> forall w, num_at p rest w -> w = v) as UN.
  { intros p rest v n E Eb w N. apply num_read in N. rewrite <- Eb in N. congruence. }
  unfold mapped_node_decode. destruct (decode_uvarint64 buf) as [[v n]| |] eqn:E; cbn [rbind].
  2:{ right. left. split; [reflexivity|]. split.
      - intros (f & b1 & v & -> & N & _). rewrite (num_read _ _ _ N) in E. discriminate.
      - intros (p & rest & -> & N). rewrite (num_read _ _ _ N) in E. discriminate. }
  2:{ destruct (num_never_panics buf E). }
  destruct (N.eqb_spec v 0) as [Hv|Hv].
  - right. right. subst v. destruct (proj1 (num_ok _ _ _) E) as (p & rest & Eb & N & Hn). exists p, rest.
    split; [assumption|]. split; [assumption|]. split; [congruence|].
    intros (f & b1 & v & Eb' & N' & Hv & _). apply Hv. exact (UN _ _ _ _ eq_refl Eb' _ N').
  - assert (~ exists p rest, buf = p ++ rest /\ num_at p rest 0) as NZ.
    { intros (p & rest & Eb & N). apply Hv. symmetry. exact (UN _ _ _ _ eq_refl Eb _ N). }
    destruct (proj1 (num_ok _ _ _) E) as (f & b1 & Eb & N & Hn). subst n. rewrite Eb, go_from_app. cbn [rbind].
    assert (forall f' b1' v', buf = f' ++ b1' -> num_at f' b1' v' -> b1' = b1) as UF.
    { intros f' b1' v' Eb' N'. apply num_read in N'. rewrite <- Eb', E in N'.
      assert (zlen f = zlen f') as L by congruence. assert (length f = length f') as L' by (unfold zlen in L; lia).
      rewrite Eb in Eb'. symmetry. exact (proj2 (app_inj_length _ _ _ _ L' Eb')). }
    destruct (decode_varchar b1) as [[d n1]| |] eqn:E1; cbn [rbind].
    + destruct (proj1 (str_ok _ _ _) E1) as (s & b2 & Eb1 & S & Hn1). subst n1.
      assert (forall s' b2' d', b1 = s' ++ b2' -> str_at s' b2' d' -> d' = d /\ b2' = b2) as US.
      { intros s' b2' d' Eb' S'. apply str_read in S'. rewrite <- Eb', E1 in S'. split; [congruence|].
        assert (zlen s = zlen s') as L by congruence. assert (length s = length s') as L' by (unfold zlen in L; lia).
        rewrite Eb1 in Eb'. symmetry. exact (proj2 (app_inj_length _ _ _ _ L' Eb')). }
      assert (~ huge_header b1) as NH1 by (rewrite Eb1; exact (not_huge_and_str _ _ _ S)).
      destruct d as [|d0 d].
      * right. left. split; [reflexivity|]. split; [|rewrite <- Eb; assumption]. rewrite <- Eb.
        intros (f' & b1' & v' & Eb' & N' & _ & C). rewrite (UF _ _ _ Eb' N') in C. destruct C as [C | (s' & b2' & d' & Es & S' & Hd & _)]; [tauto|].
        apply Hd. exact (proj1 (US _ _ _ Es S')).
      * rewrite Eb1, from3. cbn [rbind]. rewrite <- Eb1, <- Eb.
        destruct (decode_uvarint64 b2) as [[w n2]| |] eqn:E2; cbn [rbind].
        -- destruct (proj1 (num_ok _ _ _) E2) as (o & b3 & Eb2 & O & Hn2). subst n2.
           assert (forall o' b3' w', b2 = o' ++ b3' -> num_at o' b3' w' -> w' = w /\ b3' = b3) as UO.
           { intros o' b3' w' Eb' O'. apply num_read in O'. rewrite <- Eb', E2 in O'. split; [congruence|].
             assert (zlen o = zlen o') as L by congruence. assert (length o = length o') as L' by (unfold zlen in L; lia).
             rewrite Eb2 in Eb'. symmetry. exact (proj2 (app_inj_length _ _ _ _ L' Eb')). }
           cbn [existsb]. rewrite orb_false_r. destruct (N.eqb_spec (w mod 2 ^ 32) 0) as [Hw|Hw].
           ++ rewrite Eb, Eb1, Eb2, from4. cbn [rbind]. rewrite <- Eb2, <- Eb1, <- Eb.
              assert (forall C : Prop, (huge_header b3 \/ exists p b4 e, b3 = p ++ b4 /\ str_at p b4 e) -> bad_node buf) as BN.
              { intros _ C. exists f, b1, v. split; [assumption|]. split; [assumption|]. split; [assumption|]. right.
                exists s, b2, (d0 :: d). split; [assumption|]. split; [assumption|]. split; [discriminate|].
                exists o, b3, w. auto. }
              destruct (simple_value_cases b3) as [(E3 & C) | [E3 | ((x & E3) & C)]]; rewrite E3; cbn [rbind].
              ** left. split; [reflexivity|]. apply (BN True). auto.
              ** right. left. split; [reflexivity|]. split; [|assumption].
                 intros (f' & b1' & v' & Eb' & N' & _ & C). rewrite (UF _ _ _ Eb' N') in C. destruct C as [C | (s' & b2' & d' & Es & S' & Hd & C)]; [tauto|].
                 rewrite (proj2 (US _ _ _ Es S')) in C. destruct C as (o' & b3' & w' & Eo & O' & _ & C).
                 rewrite (proj2 (UO _ _ _ Eo O')) in C. unfold new_simple_value in E3. destruct C as [C | (p & b4 & e & -> & P)].
                 --- apply varchar_panic_exact in C. rewrite C in E3. discriminate.
                 --- rewrite (str_read _ _ _ P) in E3. cbn [rbind] in E3. rewrite go_upto_app in E3. discriminate.
              ** left. split; [reflexivity|]. apply (BN True). auto.
           ++ right. left. split; [reflexivity|]. split; [|assumption].
              intros (f' & b1' & v' & Eb' & N' & _ & C). rewrite (UF _ _ _ Eb' N') in C. destruct C as [C | (s' & b2' & d' & Es & S' & Hd & C)]; [tauto|].
              rewrite (proj2 (US _ _ _ Es S')) in C. destruct C as (o' & b3' & w' & Eo & O' & Hw' & C).
              rewrite (proj1 (UO _ _ _ Eo O')) in Hw'. tauto.
        -- right. left. split; [reflexivity|]. split; [|assumption].
           intros (f' & b1' & v' & Eb' & N' & _ & C). rewrite (UF _ _ _ Eb' N') in C. destruct C as [C | (s' & b2' & d' & Es & S' & Hd & C)]; [tauto|].
           rewrite (proj2 (US _ _ _ Es S')) in C. destruct C as (o' & b3' & w' & Eo & O' & Hw' & C).
           rewrite Eo, (num_read _ _ _ O') in E2. discriminate.
        -- destruct (num_never_panics _ E2).
    + right. left. split; [reflexivity|]. rewrite <- Eb. split; [|assumption].
      intros (f' & b1' & v' & Eb' & N' & _ & C). rewrite (UF _ _ _ Eb' N') in C. destruct C as [C | (s' & b2' & d' & Es & S' & Hd & _)].
      * apply varchar_panic_exact in C. congruence.
      * rewrite Es, (str_read _ _ _ S') in E1. discriminate.
    + left. split; [reflexivity|]. rewrite <- Eb. exists f, b1, v. split; [assumption|]. split; [assumption|]. split; [assumption|].
      left. apply varchar_panic_exact. assumption.
Qed.

Lemma zero_unique p rest p' rest' v v' : p ++ rest = p' ++ rest' -> num_at p rest v -> num_at p' rest' v' -> p = p' /\ rest = rest'.
Proof.
  intros E N N'. apply num_read in N, N'. rewrite E, N' in N.
  assert (zlen p' = zlen p) as L by congruence. apply app_inj_length; [unfold zlen in L; lia|assumption].
Qed.

(** When NewMappedTrie panics: exactly when the root, or after an empty root the next node, has the shape [bad_node]. *)
Theorem C63_panic_exact : forall buf, new_mapped_trie buf = Panic <->
  bad_node buf \/ exists z rest, buf = z ++ rest /\ num_at z rest 0 /\ bad_node rest.
Proof.
  intros buf. unfold new_mapped_trie. destruct (node_decode_cases buf) as [(E & B) | [(E & B & Z) | (p & rest & Eb & N & E & B)]]; rewrite E; cbn [rbind].
  - tauto.
  - split; [discriminate|]. intros [C | (z & rest & Eb & N & _)]; [tauto|]. destruct Z. eauto.
  - rewrite Eb, go_from_app. cbn [rbind]. rewrite <- Eb.
    destruct (node_decode_cases rest) as [(E2 & B2) | [(E2 & B2 & Z2) | (p2 & rest2 & Eb2 & N2 & E2 & B2)]]; rewrite E2; cbn [rbind].
    + split; [|reflexivity]. intros _. right. eauto.
    + split; [discriminate|]. intros [C | (z & r & Eb' & N' & C)]; [tauto|]. rewrite Eb in Eb'.
      destruct (zero_unique _ _ _ _ _ _ Eb' N N') as (_ & ->). tauto.
    + split; [discriminate|]. intros [C | (z & r & Eb' & N' & C)]; [tauto|]. rewrite Eb in Eb'.
      destruct (zero_unique _ _ _ _ _ _ Eb' N N') as (_ & ->). tauto.
Qed.
Print Assumptions C63_panic_exact.
(** A node with key "a" and nothing after it. *)
Example C63_panic_exact_applies : bad_node [x01; x01; x61].
Proof.
  exists [x01], [x01; x61], 1%N. split; [reflexivity|]. split; [|split; [discriminate|right]].
  - right. split; [split; [exact (leb_last x01 eq_refl)|split; [simpl; lia|reflexivity]]|]. vm_compute. intros [_ H]. discriminate.
  - exists [x01; x61], [], [x61]. split; [reflexivity|]. split; [|split; [discriminate|]].
    + right. exists [x01]. split; [|split; reflexivity]. split; [exact (leb_last x01 eq_refl)|split; [simpl; lia|reflexivity]].
    + exists [], [], 0%N. split; [reflexivity|]. split; [left; auto|]. split; [reflexivity|]. right. exists [], [], []. split; [reflexivity|left; auto].
Qed.

(** What it accepts: two zeros (the end of input counts as zero); everything else is refused or panics. It reports their length. *)
Theorem C63_accepts_exact : forall buf n, new_mapped_trie buf = Ok n <->
  exists z1 z2 rest, buf = z1 ++ z2 ++ rest /\ num_at z1 (z2 ++ rest) 0 /\ num_at z2 rest 0 /\ n = zlen (z1 ++ z2).
Proof.
  intros buf n. unfold new_mapped_trie. destruct (node_decode_cases buf) as [(E & B) | [(E & B & Z) | (p & rest & Eb & N & E & B)]]; rewrite E; cbn [rbind].
  - split; [discriminate|]. intros (z1 & z2 & rest & Eb & N1 & N2 & _). destruct B as (f & b1 & v & Eb' & Nv & Hv & _).
    apply num_read in N1, Nv. rewrite <- Eb in N1. rewrite <- Eb' in Nv. congruence.
  - split; [discriminate|]. intros (z1 & z2 & rest & Eb & N1 & N2 & _). destruct Z. eauto.
  - rewrite Eb, go_from_app. cbn [rbind].
    destruct (node_decode_cases rest) as [(E2 & B2) | [(E2 & B2 & Z2) | (p2 & rest2 & Eb2 & N2 & E2 & B2)]]; rewrite E2; cbn [rbind].
    + split; [discriminate|]. intros (z1 & z2 & r & Eb' & N1 & N2 & _).
      destruct (zero_unique _ _ _ _ _ _ Eb' N N1) as (_ & Er). destruct B2 as (f & b1 & v & Eb2 & Nv & Hv & _).
      apply num_read in N2, Nv. rewrite <- Er in N2. rewrite <- Eb2 in Nv. congruence.
    + split; [discriminate|]. intros (z1 & z2 & r & Eb' & N1 & N2 & _).
      destruct (zero_unique _ _ _ _ _ _ Eb' N N1) as (_ & Er). destruct Z2. eauto.
    + split.
      * intros H. exists p, p2, rest2. rewrite <- Eb2. split; [reflexivity|]. split; [assumption|]. split; [assumption|].
        rewrite zlen_app. congruence.
      * intros (z1 & z2 & r & Eb' & N1 & N2' & ->).
        destruct (zero_unique _ _ _ _ _ _ Eb' N N1) as (-> & Er). rewrite Er in Eb2.
        destruct (zero_unique _ _ _ _ _ _ Eb2 N2' N2) as (-> & _). now rewrite zlen_app.
Qed.
Print Assumptions C63_accepts_exact.
Example C63_accepts_exact_applies :
  new_mapped_trie [x80; x00; x00; x7f] = Ok 3 /\ new_mapped_trie [] = Ok 0 /\ new_mapped_trie [x00] = Ok 1 /\
  new_mapped_trie [x00; x01; x00] = Err.
Proof. repeat split. Qed.

(** A trie with any entry panics the parser, so C63 is false. *)
Theorem C63_refuted : new_mapped_trie [x01; x01; x61; x00; x00; x00; x00] = Panic /\ new_mapped_trie [x00; x01; x01; x61; x00; x00; x00; x00] = Panic.
Proof. split; reflexivity. Qed.
Print Assumptions C63_refuted.

(** The part of C63 that holds: no panic on input that starts with two zeros, in any spelling. *)
Theorem C63_dummies_partial : forall z1 z2 rest, num_at z1 (z2 ++ rest) 0 -> num_at z2 rest 0 ->
  new_mapped_trie (z1 ++ z2 ++ rest) = Ok (zlen z1 + zlen z2).
Proof.
  intros z1 z2 rest N1 N2. apply C63_accepts_exact. exists z1, z2, rest. rewrite zlen_app. auto.
Qed.
Print Assumptions C63_dummies_partial.
Example C63_dummies_partial_applies : num_at [x80; x00] ([x00] ++ [x7f]) 0 /\ num_at [x00] [x7f] 0.
Proof.
  split; right; (split; [|vm_compute; intros [_ H]; discriminate]).
  - split; [|split; [simpl; lia|reflexivity]]. exact (leb_more x80 [x00] 0 ltac:(discriminate) (leb_last x00 eq_refl)).
  - split; [|split; [simpl; lia|reflexivity]]. exact (leb_last x00 eq_refl).
Qed.
