(** * Final theorems about sorted maps in shared memory (C85 - C88). *)
From Coq Require Import List ZArith Bool Lia Arith Strings.Byte.
From Verif Require Import Base BaseProofs CmpModel CmpSpec CmpProofs AVLModel MapSpec AVLSpec MapProofs AVLProofs AVLHistory AVLProps
  AVLPtrModel AVLPtrProofs AVLPtrOps AVLPtrRemove AVLPtrMono AVLPtrSpec AVLPtrSys AVLPtrHistory AVLPtrCalm AVLPtrRangeHist AVLPtrPanic.
Import ListNotations.
Local Open Scope Z_scope.

(** ** C85: maps in shared memory behave as independent maps *)
Theorem C85_linked_maps_history : forall {K V : Type} equalb compare (D : K -> Prop) eqv lt (ops : list (pop K V)),
  total_keys D eqv lt equalb compare -> Forall (keys_in D) ops ->
  exists n0 s os, (forall n, (n0 <= n)%nat -> p_run equalb compare n sys0 ops = Some (s, os)) /\ length os = length ops /\
    forall j op o, nth_error ops j = Some op -> nth_error os j = Some o -> map_answer eqv (firstn j ops) op o.
Proof.
  intros K V equalb compare D eqv lt ops TK F. destruct (history equalb compare D eqv lt TK ops F) as (n0 & s & os & ts & gs & H & B & HA).
  exists n0, s, os. split; [exact H|]. split; [symmetry; exact (bi_len _ _ _ _ _ _ _ _ B)|]. intros j op o H1 H2. apply (HA j op o H1 H2).
Qed.
Print Assumptions C85_linked_maps_history.

(** The same for the byte-slice keys of the library, of a prefix-free set such as the keys of one length. *)
Theorem C85_byte_slices : forall {V : Type} (P : bytes -> Prop) (ops : list (pop gslice V)),
  prefix_free P -> Forall (keys_in (key_in P)) ops ->
  exists n0 s os, (forall n, (n0 <= n)%nat -> p_run bytes_equal bytes_compare n sys0 ops = Some (s, os)) /\ length os = length ops /\
    forall j op o, nth_error ops j = Some op -> nth_error os j = Some o -> map_answer eq (firstn j ops) op o.
Proof. intros V P ops HP F. exact (C85_linked_maps_history _ _ _ _ _ ops (prefix_free_keys P HP) F). Qed.
Print Assumptions C85_byte_slices.

(** In memory: what can be read below the root of a map are its entries in order, and their number is its size. *)
Theorem C85_memory : forall {K V : Type} equalb compare (D : K -> Prop) eqv lt (ops : list (pop K V)),
  total_keys D eqv lt equalb compare -> Forall (keys_in D) ops ->
  forall n s os, p_run equalb compare n sys0 ops = Some (s, os) ->
  length (s_trees s) = maps ops /\
  forall m p z, nth_error (s_trees s) m = Some (p, z) ->
    exists l, reads (s_heap s) p l /\ lists_entries eqv (hist m ops) l /\ ascending lt l /\ z = Z.of_nat (length l).
Proof.
  intros K V equalb compare D eqv lt ops TK F n s os H.
  destruct (history equalb compare D eqv lt TK ops F) as (n0 & s' & os' & ts & gs & H' & B & _).
  apply (run_mono _ _ n (Nat.max n n0)) in H; [|lia]. rewrite H' in H by lia. inv H.
  split; [exact (bi_maps _ _ _ _ _ _ _ _ B)|]. intros m p z Em.
  destruct (sinv_get _ _ _ _ _ _ (bi_mem _ _ _ _ _ _ _ _ B) Em) as (t & fp & Et & R & _).
  pose proof (bi_map _ _ _ _ _ _ _ _ B m p z t fp Em Et) as Hinv. exists (inorder t). split; [eapply rep_reads; eauto|].
  split; [exact (avl_inv_lists equalb compare D eqv lt TK (hist m ops) (mk_avl t z) Hinv)|].
  destruct Hinv as (_ & Ha & _ & Hz & _). cbn [avl_root avl_size] in *. split; [exact Ha|]. exact Hz.
Qed.
Print Assumptions C85_memory.

Lemma any_key {V} (ops : list (pop Z V)) : Forall (keys_in (fun _ => True)) ops.
Proof.
  apply Forall_forall. intros [|m k v|m k|m k|m|m st en|i|i|i] _; cbn; try exact I; [destruct k|destruct k|destruct st, en]; auto.
Qed.

(** Two maps, interleaved calls; Remove rotates in the second. *)
Definition two_maps : list (pop Z Z) :=
  [PNew; PNew; PPut 0 (Some 1) 10; PPut 1 (Some 1) 11; PPut 1 (Some 2) 12; PPut 1 (Some 3) 13; PPut 0 (Some 1) 20; PPut 1 (Some 4) 14;
   PRemove 1 (Some 1); PGet 0 1; PGet 1 1; PSize 1; PPut 0 None 0; PGet 2 1].
Example C85_applies :
  Forall (keys_in (fun _ => True)) two_maps /\
  option_map snd (p_run z_equal z_compare 10 sys0 two_maps) =
    Some [Ok PODone; Ok PODone; Ok (POEntry None); Ok (POEntry None); Ok (POEntry None); Ok (POEntry None); Ok (POEntry (Some (1, 10)));
          Ok (POEntry None); Ok (POEntry (Some (1, 11))); Ok (POEntry (Some (1, 20))); Ok (POEntry None); Ok (POInt 3); Panic; Err].
Proof. split; [repeat constructor|vm_compute; reflexivity]. Qed.

(** ** C86: a panicking call leaves the map as it was *)
(** Byte slices: Compare panics only when the argument is a proper prefix of the receiver. *)
Lemma bytes_one_sided : one_sided_keys (key_in (fun _ => True)) eq (slice_lt byte_lt) bytes_equal bytes_compare.
Proof.
  constructor; intros.
  - exists (equal_byte_slice a b). unfold bytes_equal. rewrite cbs_equal_wrap. split; [reflexivity|]. apply equal_byte_slice_exact.
  - unfold bytes_compare. rewrite cbs_compare_wrap. destruct H as (la & -> & _). destruct H0 as (lb & -> & _).
    destruct (byte_compare_exact (Some la) (Some lb)) as (L & E & G & P). unfold compare_byte_slice.
    destruct (compare_slice (prim_cmp byte_ltb) (Some la) (Some lb)) as [c| |] eqn:Ec.
    + left. exists c. split; [reflexivity|].
      assert (NP : ~ slice_proper_prefix (Some lb) (Some la)) by (intros X; apply P in X; discriminate).
      destruct (byte_compare_defined _ _ NP) as (c' & Hc & H1 & _ & H3). rewrite Ec in Hc. inv Hc. split; [exact H1|]. rewrite <- H3. lia.
    + exfalso. assert (NP : ~ slice_proper_prefix (Some lb) (Some la)) by (intros X; apply P in X; discriminate).
      destruct (byte_compare_defined _ _ NP) as (c' & Hc & _). congruence.
    + right. split; [reflexivity|]. destruct (proj1 P eq_refl) as (p & l & Hp & Hl & x & xs & Hx). inv Hp. inv Hl.
      constructor. clear. induction p as [|y p IH]; cbn [app]; [apply lex_nil|apply lex_tail; exact IH].
  - reflexivity.
  - now symmetry.
  - congruence.
  - subst. apply slice_lt_irrefl. exact byte_lt_irrefl.
  - inversion H; subst; inversion H0; subst; constructor; eauto using lex_lt_trans'.
  - now subst.
  - now subst.
  - apply slice_lt_total. exact byte_lt_total.
Qed.

(** Any calls on maps with non-nil byte slices as keys, the client recovering from panics: the calls that panicked could as well
    not have been made. Each call that returned gave the answer that is right after the calls that returned before it, and a
    call whose key is not a proper prefix of a key in the map returns. *)
Theorem C86_byte_slices : forall {V : Type} (ops : list (pop gslice V)),
  Forall (keys_in (fun k => k <> None)) ops -> Forall map_call ops ->
  exists n0 s os, (forall n, (n0 <= n)%nat -> p_run bytes_equal bytes_compare n sys0 ops = Some (s, os) /\
      p_run bytes_equal bytes_compare n sys0 (kept ops os) = Some (s, filter returned os)) /\ length os = length ops /\
    forall j op o, nth_error ops j = Some op -> nth_error os j = Some o ->
      let before := kept (firstn j ops) (firstn j os) in
      (returned o = true -> map_answer eq before op o) /\
      match op with
      | PPut m (Some k) _ | PRemove m (Some k) | PGet m k =>
          (m < maps before)%nat -> (forall k' v', held eq before m k' v' -> ~ slice_proper_prefix k k') -> returned o = true
      | _ => True
      end.
Proof.
  intros V ops F M.
  assert (F' : Forall (keys_in (key_in (fun _ => True))) ops).
  { eapply Forall_impl; [|exact F]. intros op. clear. assert (A : forall k : gslice, k <> None -> key_in (fun _ => True) k).
    { intros [l|] H; [exists l; auto|congruence]. }
    destruct op as [|m k v|m k|m k|m|m st en|i|i|i]; cbn [keys_in]; auto.
    - destruct k; auto.
    - destruct k; auto.
    - intros [H1 H2]. destruct st, en; auto. }
  destruct (panic_history bytes_equal bytes_compare _ _ _ bytes_one_sided ops F' M) as (n0 & s & os & ts & H & _ & L & B & HA).
  exists n0, s, os. split; [exact H|]. split; [auto|]. intros j op o H1 H2 before. destruct (HA j op o H1 H2) as (HA1 & HA2).
  split; [exact HA1|]. fold before in HA2. assert (KI : forall m k' v', held eq before m k' v' -> exists l, k' = Some l).
  { intros m k' v' Hh. assert (FB : Forall (keys_in (key_in (fun _ => True))) before).
    { unfold before, kept. apply Forall_forall. intros x Hx. apply in_map_iff in Hx. destruct Hx as ([x0 y0] & <- & Hx).
      apply filter_In in Hx. destruct Hx as (Hx & _). apply in_combine_l in Hx. rewrite Forall_forall in F'. apply F'.
      rewrite <- (firstn_skipn j ops). apply in_or_app. now left. }
    clear - Hh FB. destruct Hh as (h1 & h2 & Hh & _).
    assert (HH : forall made, In (MPut k' v') (hist_from made m before) -> exists l, k' = Some l).
    { clear Hh. induction FB as [|x l Hx _ IH]; intros made; cbn [hist_from]; [contradiction|]. intros Hin. apply in_app_or in Hin.
      destruct Hin as [Hin|Hin]; [|eauto]. destruct (m <? made)%nat; [|contradiction].
      destruct x as [|m0 k v|m0 k|m0 k|m0|m0 st en|i|i|i]; cbn [call_on] in Hin; try contradiction.
      - destruct k as [k|]; [|contradiction]. destruct (m0 =? m)%nat; [|contradiction]. destruct Hin as [Hin|[]]. inv Hin.
        cbn [keys_in] in Hx. destruct Hx as (l0 & -> & _). eauto.
      - destruct k as [k|]; [|contradiction]. destruct (m0 =? m)%nat; [|contradiction]. destruct Hin as [Hin|[]]. discriminate.
      - destruct (m0 =? m)%nat; [|contradiction]. destruct Hin as [Hin|[]]. discriminate. }
    apply (HH O). unfold hist in Hh. rewrite Hh. apply in_or_app. right. now left. }
  assert (CMP : forall m k, (forall k' v', held eq before m k' v' -> ~ slice_proper_prefix k k') ->
    forall k' v', held eq before m k' v' -> exists c, bytes_compare k' k = Ok c).
  { intros m k Hn k' v' Hh. destruct (KI _ _ _ Hh) as (l & ->). destruct (byte_compare_defined _ _ (Hn _ _ Hh)) as (c & Hc & _).
    exists c. unfold bytes_compare. rewrite cbs_compare_wrap. exact Hc. }
  destruct op as [|m k v|m k|m k|m|m st en|i|i|i]; auto.
  - destruct k as [k|]; [|exact I]. intros Hm Hn. apply HA2. split; [exact Hm|exact (CMP m k Hn)].
  - destruct k as [k|]; [|exact I]. intros Hm Hn. apply HA2. split; [exact Hm|exact (CMP m k Hn)].
  - intros Hm Hn. apply HA2. split; [exact Hm|exact (CMP m k Hn)].
Qed.
Print Assumptions C86_byte_slices.

(** A history with four panics: the last key is a proper prefix of the one at the root. *)
Definition with_panics : list (pop gslice Z) :=
  [PNew; PPut 0 (Some (Some [x61; x62])) 1; PPut 0 (Some (Some [x61])) 2; PGet 0 (Some [x61]); PRemove 0 (Some (Some [x61]));
   PPut 0 None 3; PPut 0 (Some (Some [x61; x62; x63])) 4; PRemove 0 (Some (Some [x61; x62])); PGet 0 (Some [x61; x62; x63]); PSize 0].
Example C86_applies :
  Forall (keys_in (fun k => k <> None)) with_panics /\ Forall map_call with_panics /\
  option_map snd (p_run bytes_equal bytes_compare 10 sys0 with_panics) =
    Some [Ok PODone; Ok (POEntry None); Panic; Panic; Panic; Panic; Ok (POEntry None); Ok (POEntry (Some (Some [x61; x62], 1)));
          Ok (POEntry (Some (Some [x61; x62; x63], 4))); Ok (POInt 1)].
Proof.
  split; [|split].
  - repeat constructor; cbn [keys_in]; discriminate.
  - repeat constructor.
  - vm_compute. reflexivity.
Qed.

(** Keys of any kind whose Compare panics only when the receiver is the larger one. *)
Theorem C86_one_sided_keys : forall {K V : Type} equalb compare (D : K -> Prop) eqv lt (ops : list (pop K V)),
  one_sided_keys D eqv lt equalb compare -> Forall (keys_in D) ops -> Forall map_call ops ->
  exists n0 s os, (forall n, (n0 <= n)%nat -> p_run equalb compare n sys0 ops = Some (s, os) /\
      p_run equalb compare n sys0 (kept ops os) = Some (s, filter returned os)) /\ length os = length ops /\
    forall j op o, nth_error ops j = Some op -> nth_error os j = Some o ->
      (returned o = true -> map_answer eqv (kept (firstn j ops) (firstn j os)) op o) /\
      (comparable eqv compare (kept (firstn j ops) (firstn j os)) op -> returned o = true).
Proof.
  intros K V equalb compare D eqv lt ops OK F M.
  destruct (panic_history equalb compare D eqv lt OK ops F M) as (n0 & s & os & ts & H & _ & L & _ & HA). exists n0, s, os. auto.
Qed.
Print Assumptions C86_one_sided_keys.

(** Keys with any Equal and Compare, in any state that calls can reach: the calls on maps come to an end, and one that does not
    return changes nothing; only Remove may have replaced one entry by a copy of the one before it. *)
Theorem C86_any_keys : forall {K V : Type} equalb compare n (ops : list (pop K V)) s os op,
  p_run equalb compare n sys0 ops = Some (s, os) ->
  (map_call op -> exists n' s' o, p_step equalb compare n' s op = Some (s', o)) /\
  (forall n' s' o, p_step equalb compare n' s op = Some (s', o) -> returned o = false -> survives equalb s s' op).
Proof.
  intros K V equalb compare n ops s os op H.
  assert (S0 : sinv (s_heap (@sys0 K V)) (s_trees sys0) []) by exact (bi_mem _ _ _ _ _ _ _ _ (binv0 (fun _ => True) (fun _ _ => True) (fun _ _ => True))).
  destruct (any_run _ _ _ _ _ _ _ _ S0 H) as (ts & S). split.
  - intros M. destruct (any_step equalb compare s ts op S M) as (s' & o & _ & (n' & Hs) & _). exists n', s', o. apply Hs. constructor.
  - intros n' s' o Hs. exact (proj2 (any_step_at equalb compare n' s ts op s' o S Hs)).
Qed.
Print Assumptions C86_any_keys.

(** The copy does happen, with a Compare that panics on one pair of keys only: Remove 5 panics, 5 is gone and 3 is there twice. *)
Definition odd_compare (a b : Z) : res Z := if (a =? 2) && (b =? 3) then Panic else z_compare a b.
Definition odd_history : list (pop Z Z) :=
  PNew :: map (fun k => PPut 0 (Some k) (10 * k)) [3; 2; 1; 5; 6; 7] ++
  [PGet 0 5; PRemove 0 (Some 5); PGet 0 5; PSize 0; PIter 0 None None; PNext 0; PNext 0; PNext 0; PNext 0; PNext 0; PNext 0].
Theorem C86_damage_happens :
  option_map (fun r => skipn 7 (snd r)) (p_run z_equal odd_compare 10 sys0 odd_history) =
    Some [Ok (POEntry (Some (5, 50))); Panic; Ok (POEntry None); Ok (POInt 6); Ok PODone;
          Ok (POEntry (Some (1, 10))); Ok (POEntry (Some (2, 20))); Ok (POEntry (Some (3, 30))); Ok (POEntry (Some (3, 30)));
          Ok (POEntry (Some (6, 60))); Ok (POEntry (Some (7, 70)))].
Proof. vm_compute. reflexivity. Qed.
Print Assumptions C86_damage_happens.

(** ** C87: an iterator survives modification of its map *)
Theorem C87_iterator_survives : forall {K V : Type} equalb compare (D : K -> Prop) eqv lt (ops : list (pop K V)),
  total_keys D eqv lt equalb compare -> Forall (keys_in D) ops ->
  exists n0 s os, (forall n, (n0 <= n)%nat -> p_run equalb compare n sys0 ops = Some (s, os)) /\ length os = length ops /\
    forall j op o, nth_error ops j = Some op -> nth_error os j = Some o -> iter_answer eqv lt (firstn j ops) (firstn j os) op o.
Proof.
  intros K V equalb compare D eqv lt ops TK F. destruct (history equalb compare D eqv lt TK ops F) as (n0 & s & os & ts & gs & H & B & HA).
  exists n0, s, os. split; [exact H|]. split; [symmetry; exact (bi_len _ _ _ _ _ _ _ _ B)|]. intros j op o H1 H2. apply (HA j op o H1 H2).
Qed.
Print Assumptions C87_iterator_survives.

(** Two iterators, with Put and Remove between their calls. *)
Definition busy : list (pop Z Z) :=
  PNew :: map (fun k => PPut 0 (Some k) (10 * k)) [4; 2; 6; 1; 3; 5; 7] ++
  [PIter 0 None None; PNext 0; PRemove 0 (Some 2); PNext 0; PIter 0 (Some 3) (Some 6); PPut 0 (Some 4) 44; PRemove 0 (Some 3);
   PHasNext 1; PNext 1; PNext 0; PNext 1; PRemove 0 (Some 7); PNext 0; PIter 0 (Some 2) (Some 1); PNext 2].
Example C87_applies :
  Forall (keys_in (fun _ => True)) busy /\
  option_map (fun r => skipn 8 (snd r)) (p_run z_equal z_compare 10 sys0 busy) =
    Some [Ok PODone; Ok (POEntry (Some (1, 10))); Ok (POEntry (Some (2, 20))); Ok (POEntry (Some (1, 10))); Ok PODone;
          Ok (POEntry (Some (4, 40))); Ok (POEntry (Some (3, 30))); Ok (POBool true); Ok (POEntry (Some (1, 10)));
          Ok (POEntry (Some (4, 44))); Ok (POEntry (Some (4, 44))); Ok (POEntry (Some (7, 70))); Ok (POEntry (Some (5, 50))); Panic; Err].
Proof. split; [apply any_key|vm_compute; reflexivity]. Qed.

(** ** C88: iteration while the map is modified *)
(** False: an entry that was there all the time is not shown, one is shown twice, and removing what was shown ends the iteration early.
    With a start, an entry before it can be shown. *)
Definition puts (ks : list Z) : list (pop Z Z) := map (fun k => PPut 0 (Some k) (10 * k)) ks.
Definition lost : list (pop Z Z) := PNew :: puts [1; 2] ++ [PIter 0 None None; PNext 0; PPut 0 (Some 3) 30; PNext 0].
Theorem C88_lost_refuted :
  held eq lost 0 2 20 /\ Forall (keys_in (fun _ => True)) lost /\
  option_map (fun r => skipn 3 (snd r)) (p_run z_equal z_compare 10 sys0 lost) =
    Some [Ok PODone; Ok (POEntry (Some (1, 10))); Ok (POEntry None); Ok (POEntry None)].
Proof.
  split; [|split; [apply any_key|vm_compute; reflexivity]].
  exists [MPut 1 10], [MPut 3 30]. split; [reflexivity|]. repeat constructor. cbn. lia.
Qed.
Print Assumptions C88_lost_refuted.
Theorem C88_twice_refuted :
  option_map (fun r => skipn 5 (snd r))
    (p_run z_equal z_compare 10 sys0 (PNew :: puts [2; 1; 3; 4] ++ [PIter 0 None None; PNext 0; PRemove 0 (Some 2); PNext 0; PNext 0])) =
    Some [Ok PODone; Ok (POEntry (Some (1, 10))); Ok (POEntry (Some (2, 20))); Ok (POEntry (Some (1, 10))); Ok (POEntry None)].
Proof. vm_compute. reflexivity. Qed.
Print Assumptions C88_twice_refuted.
Theorem C88_drain_refuted :
  option_map (fun r => skipn 8 (snd r))
    (p_run z_equal z_compare 10 sys0 (PNew :: puts [4; 2; 6; 1; 3; 5; 7] ++ PIter 0 None None ::
       flat_map (fun k => [PNext 0; PRemove 0 (Some k)]) [1; 2; 3; 4; 5] ++ [PNext 0; PSize 0])) =
    Some (Ok PODone :: flat_map (fun k => [Ok (POEntry (Some (k, 10 * k))); Ok (POEntry (Some (k, 10 * k)))]) [1; 2; 3; 4; 5] ++
          [Ok (POEntry None); Ok (POInt 2)]).
Proof. vm_compute. reflexivity. Qed.
Print Assumptions C88_drain_refuted.

(** An iterator from 3 on shows 1. *)
Theorem C88_range_refuted :
  option_map (fun r => skipn 5 (snd r))
    (p_run z_equal z_compare 10 sys0 (PNew :: puts [3; 1; 4; 5] ++ [PIter 0 (Some 3) None; PRemove 0 (Some 3); PNext 0])) =
    Some [Ok PODone; Ok (POEntry (Some (3, 30))); Ok (POEntry (Some (1, 10)))].
Proof. vm_compute. reflexivity. Qed.
Print Assumptions C88_range_refuted.

(** What holds: while the set of keys stays the same, an iterator over the whole map shows the entries in order, each with the
    value it has at that moment; the k-th call of Next shows the k-th one, and HasNext tells whether there is a k-th one.
    Not covered: calls that add or remove keys. *)
Theorem C88_same_keys_partial : forall {K V : Type} equalb compare (D : K -> Prop) eqv lt (ops : list (pop K V)),
  total_keys D eqv lt equalb compare -> Forall (keys_in D) ops ->
  exists n0 s os, (forall n, (n0 <= n)%nat -> p_run equalb compare n sys0 ops = Some (s, os)) /\ length os = length ops /\
    forall j op o i m c, nth_error ops j = Some op -> nth_error os j = Some o ->
      nth_error (iters (firstn j ops) (firstn j os)) i = Some (m, c) -> nth_error ops c = Some (PIter m None None) ->
      calm eqv c m (firstn j ops) ->
      exists l, lists_entries eqv (hist m (firstn j ops)) l /\ ascending lt l /\
        (op = PNext i \/ op = PPeek i -> o = Ok (POEntry (nth_error l (nexts i c (firstn j ops))))) /\
        (op = PHasNext i -> o = Ok (POBool (nexts i c (firstn j ops) <? length l)%nat)).
Proof.
  intros K V equalb compare D eqv lt ops TK F.
  destruct (calm_history equalb compare D eqv lt TK ops F) as (n0 & s & os & ts & gs & H & B & _ & HA).
  exists n0, s, os. split; [exact H|]. split; [symmetry; exact (bi_len _ _ _ _ _ _ _ _ B)|]. exact HA.
Qed.
Print Assumptions C88_same_keys_partial.

(** The same for iterators with a start or an end: they show the entries below the end in order, all of them if some stored key
    is not above the start and none if all are above it (the same rule as in C13). Not covered: calls that add or remove keys. *)
Theorem C88_bounds_partial : forall {K V : Type} equalb compare (D : K -> Prop) eqv lt (ops : list (pop K V)),
  total_keys D eqv lt equalb compare -> Forall (keys_in D) ops ->
  exists n0 s os, (forall n, (n0 <= n)%nat -> p_run equalb compare n sys0 ops = Some (s, os)) /\ length os = length ops /\
    forall j op o i m c st en, nth_error ops j = Some op -> nth_error os j = Some o ->
      nth_error (iters (firstn j ops) (firstn j os)) i = Some (m, c) -> nth_error ops c = Some (PIter m st en) ->
      calm eqv c m (firstn j ops) ->
      exists l, ascending lt l /\
        (forall k v, In (k, v) l <-> held eqv (firstn j ops) m k v /\ (forall b, en = Some b -> lt k b) /\
           (forall a, st = Some a -> exists k' v', held eqv (firstn j ops) m k' v' /\ ~ lt a k')) /\
        (op = PNext i \/ op = PPeek i -> o = Ok (POEntry (nth_error l (nexts i c (firstn j ops))))) /\
        (op = PHasNext i -> o = Ok (POBool (nexts i c (firstn j ops) <? length l)%nat)).
Proof.
  intros K V equalb compare D eqv lt ops TK F.
  destruct (range_history equalb compare D eqv lt TK ops F) as (n0 & s & os & ts & gs & H & B & _ & HA).
  exists n0, s, os. split; [exact H|]. split; [symmetry; exact (bi_len _ _ _ _ _ _ _ _ B)|]. exact HA.
Qed.
Print Assumptions C88_bounds_partial.

(** An iterator from 2 to 4, with values replaced on the way; one that starts below every key shows nothing. *)
Definition bounded_walk : list (pop Z Z) :=
  PNew :: puts [2; 1; 3; 4] ++ [PIter 0 (Some 2) (Some 4); PNext 0; PPut 0 (Some 3) 99; PNext 0; PNext 0; PHasNext 0; PNext 0;
                                PIter 0 (Some 0) None; PHasNext 1; PNext 1].
Example C88_bounds_applies :
  Forall (keys_in (fun _ => True)) bounded_walk /\ nth_error bounded_walk 5 = Some (PIter 0 (Some 2) (Some 4)) /\ calm eq 5 0 bounded_walk /\
  option_map (fun r => skipn 5 (snd r)) (p_run z_equal z_compare 10 sys0 bounded_walk) =
    Some [Ok PODone; Ok (POEntry (Some (1, 10))); Ok (POEntry (Some (3, 30))); Ok (POEntry (Some (2, 20))); Ok (POEntry (Some (3, 99)));
          Ok (POBool false); Ok (POEntry None); Ok PODone; Ok (POBool false); Ok (POEntry None)].
Proof.
  split; [apply any_key|]. split; [reflexivity|]. split; [|vm_compute; reflexivity].
  intros j op Hj H. do 15 try (destruct j as [|j]; [try lia; injection H as <-; try exact I|]).
  - intros _. exists 3, 30. split; [reflexivity|]. exists [MPut 2 20; MPut 1 10], [MPut 4 40]. split; [reflexivity|]. repeat constructor; cbn; lia.
  - destruct j; discriminate.
Qed.

(** Values replaced during the iteration, a key removed that was not there, another map changed. *)
Definition quiet_walk : list (pop Z Z) :=
  PNew :: puts [2; 1; 3] ++ [PNew; PIter 0 None None; PNext 0; PPut 0 (Some 2) 99; PRemove 0 (Some 9); PPut 1 (Some 5) 5; PHasNext 0; PNext 0;
                             PNext 0; PHasNext 0; PNext 0].
Example C88_applies :
  Forall (keys_in (fun _ => True)) quiet_walk /\ nth_error (iters (firstn 14 quiet_walk) (repeat (Ok PODone) 14)) 0 = Some (0, 5)%nat /\
  nth_error quiet_walk 5 = Some (PIter 0 None None) /\ calm eq 5 0 quiet_walk /\
  option_map (fun r => skipn 6 (snd r)) (p_run z_equal z_compare 10 sys0 quiet_walk) =
    Some [Ok (POEntry (Some (1, 10))); Ok (POEntry (Some (2, 20))); Ok (POEntry None); Ok (POEntry None); Ok (POBool true);
          Ok (POEntry (Some (2, 99))); Ok (POEntry (Some (3, 30))); Ok (POBool false); Ok (POEntry None)].
Proof.
  split; [apply any_key|]. split; [reflexivity|]. split; [reflexivity|]. split; [|vm_compute; reflexivity].
  intros j op Hj H. do 15 try (destruct j as [|j]; [try lia; injection H as <-; try exact I|]).
  - intros _. exists 2, 20. split; [reflexivity|]. exists [], [MPut 1 10; MPut 3 30]. split; [reflexivity|]. repeat constructor; cbn; lia.
  - intros _ k' v' <- (h1 & h2 & E & _). unfold hist in E. cbn in E.
    assert (X : In (MPut 9 v') [MPut 2 20; MPut 1 10; MPut 3 30; MPut 2 99]) by (rewrite E; apply in_or_app; right; now left).
    cbn in X. repeat destruct X as [X|X]; try discriminate; contradiction.
  - discriminate.
  - destruct j; discriminate.
Qed.
