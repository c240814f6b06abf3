(** * Trie nodes in shared memory: the children of a node, and the invariant of reachable nodes. *)
From Coq Require Import List NArith ZArith Bool Lia Arith.
From Coq Require Import Strings.Byte.
From Verif Require Import Base BaseProofs EndianModel VarintModel VarintSpec VarintProofs CmpModel CmpSpec CmpProofs KeyModel ValueModel
  AVLModel MapSpec AVLSpec AVLProofs AVLHistory AVLProps TrieModel TrieObjModel TrieObjSpec.
Import ListNotations.

(** ** Lists *)
Lemma set_nth_split {A} (l : list A) i x : i < length l -> set_nth l i x = firstn i l ++ x :: skipn (S i) l.
Proof.
  revert i. induction l as [|y l IH]; intros [|i] H; cbn [length] in H; try lia; [reflexivity|].
  cbn [set_nth firstn skipn app]. rewrite IH by lia. reflexivity.
Qed.
Lemma set_nth_length {A} (l : list A) i x : length (set_nth l i x) = length l.
Proof. revert i. induction l as [|y l IH]; intros [|i]; cbn [set_nth length]; auto. Qed.
Lemma set_nth_same {A} (l : list A) i x : i < length l -> nth_error (set_nth l i x) i = Some x.
Proof. revert i. induction l as [|y l IH]; intros [|i] H; cbn [length] in H; try lia; [reflexivity|]. apply IH. lia. Qed.
Lemma set_nth_other {A} (l : list A) i j x : i <> j -> nth_error (set_nth l i x) j = nth_error l j.
Proof. revert i j. induction l as [|y l IH]; intros [|i] [|j] H; cbn [set_nth nth_error]; auto; congruence. Qed.
Lemma set_nth_map {A B} (f : A -> B) (l : list A) i x : map f (set_nth l i x) = set_nth (map f l) i (f x).
Proof. revert i. induction l as [|y l IH]; intros [|i]; cbn [set_nth map]; congruence. Qed.
Lemma nth_lt {A} (l : list A) i x : nth_error l i = Some x -> i < length l.
Proof. intros H. apply nth_error_Some. congruence. Qed.
Lemma lt_nth {A} (l : list A) i : i < length l -> exists x, nth_error l i = Some x.
Proof. intros H. apply nth_error_Some in H. destruct (nth_error l i); [eauto|congruence]. Qed.

(** ** Children *)
Notation entries m := (inorder (avl_root m)).

Section Kids.
  Context {V : Type} (P : bytes -> Prop) (PF : prefix_free P).
  Notation lt := (slice_lt byte_lt).

  Definition kids_ok (m : avl gslice V) : Prop :=
    in_dom (key_in P) (entries m) /\ ascending lt (entries m) /\ bal (avl_root m) /\ avl_size m = zlen (entries m).

  Let TK := prefix_free_keys P PF.

  Lemma kids_ok_new : kids_ok new_avl.
  Proof using Type. clear. unfold kids_ok, new_avl. cbn. repeat split; constructor. Qed.

  Lemma lt_ne (a b : gslice) : lt a b -> a <> b.
  Proof using Type. clear. intros H ->. exact (slice_lt_irrefl byte_lt byte_lt_irrefl _ H). Qed.

  Lemma middle_ne (l1 l2 : list (gslice * V)) k e :
    Forall (fun e => lt (fst e) k) l1 -> Forall (fun e => lt k (fst e)) l2 -> In e (l1 ++ l2) -> fst e <> k.
  Proof using Type.
    clear. intros F1 F2 H. rewrite Forall_forall in F1, F2. apply in_app_iff in H. destruct H as [H|H].
    - apply lt_ne. auto.
    - intros E. apply (lt_ne k (fst e)); auto.
  Qed.

  Lemma kids_get m k : kids_ok m -> key_in P k ->
    exists o, avl_get ck_equal ck_compare m k = Ok o /\
      match o with
      | Some (k', v) => k' = k /\ In (k, v) (entries m)
      | None => forall v, ~ In (k, v) (entries m)
      end.
  Proof.
    intros (Hd & Ha & _ & _) Dk.
    destruct (getR_ok bytes_equal bytes_compare (key_in P) eq lt TK k _ Dk Hd Ha) as (o & E & H).
    exists o. split; [exact E|]. destruct o as [[k' v]|]; cbn [get_result] in H.
    - destruct H as [<- H]. auto.
    - intros v Hv. rewrite Forall_forall in H. apply (H _ Hv). reflexivity.
  Qed.

  Lemma kids_put_ok m k v : kids_ok m -> key_in P k ->
    exists m' o, avl_put ck_equal ck_compare m (Some k) v = Ok (m', o) /\ kids_ok m' /\
      forall e, In e (entries m') <-> e = (k, v) \/ (In e (entries m) /\ fst e <> k).
  Proof.
    intros (Hd & Ha & Hb & Hs) Dk.
    destruct (putR_ok bytes_equal bytes_compare (key_in P) eq lt TK k v _ Dk Hd Ha Hb) as (t' & o & done & E & Hc & Bt & _).
    change ck_equal with bytes_equal. change ck_compare with bytes_compare. rewrite avl_put_root, E. cbn [rbind].
    do 2 eexists. split; [reflexivity|]. unfold kids_ok. cbn [avl_root avl_size].
    destruct Hc as (l1 & l2 & E' & Hc). rewrite E'. destruct o as [[k0 v0]|].
    - destruct Hc as (-> & Eb). rewrite Eb in *. apply dom_middle in Hd. destruct Hd as [_ Hd].
      apply ascending_middle in Ha. destruct Ha as (Ha & F1 & F2). split.
      + repeat split; [apply dom_middle; auto|apply ascending_insert; assumption|exact Bt|]. rewrite Hs, !zlen_middle. reflexivity.
      + intros e. rewrite !in_app_iff. cbn [In]. pose proof (middle_ne l1 l2 k e F1 F2) as N. rewrite in_app_iff in N.
        split; [intros [H|[<-|H]]; auto|intros [->|[[H|[<-|H]] H']]; auto]. cbn in H'. congruence.
    - destruct Hc as (Eb & F1 & F2). rewrite Eb in *. split.
      + repeat split; [apply dom_middle; auto|apply ascending_insert; assumption|exact Bt|]. rewrite Hs, !zlen_middle. reflexivity.
      + intros e. rewrite !in_app_iff. cbn [In]. pose proof (middle_ne l1 l2 k e F1 F2) as N. rewrite in_app_iff in N.
        split; [intros [H|[<-|H]]; auto|intros [->|[[H|H] H']]; auto].
  Qed.

  Lemma kids_remove_ok m k : kids_ok m -> key_in P k ->
    exists m' o, avl_remove ck_equal ck_compare m (Some k) = Ok (m', o) /\ kids_ok m' /\
      forall e, In e (entries m') <-> In e (entries m) /\ fst e <> k.
  Proof.
    intros (Hd & Ha & Hb & Hs) Dk.
    destruct (removeR_ok bytes_equal bytes_compare (key_in P) eq lt TK k _ Dk Hd Ha Hb) as (t' & o & done & E & Hc & Bt & _).
    change ck_equal with bytes_equal. change ck_compare with bytes_compare. unfold avl_remove. rewrite E. cbn [rbind].
    do 2 eexists. split; [reflexivity|]. unfold kids_ok. cbn [avl_root avl_size].
    destruct o as [[k0 v0]|]; cbn [remove_contents] in Hc.
    - destruct Hc as (-> & l1 & l2 & Eb & E'). rewrite E' in *. rewrite Eb in *. apply dom_middle in Hd. destruct Hd as [_ Hd].
      apply ascending_middle in Ha. destruct Ha as (Ha & F1 & F2). split.
      + repeat split; try assumption. rewrite Hs, !zlen_middle. lia.
      + intros e. rewrite !in_app_iff. cbn [In]. pose proof (middle_ne l1 l2 k e F1 F2) as N. rewrite in_app_iff in N.
        split; [intros [H|H]; auto|intros [[H|[<-|H]] H']; auto]. cbn in H'. congruence.
    - destruct Hc as (E' & Hn). rewrite E' in *. split; [repeat split; assumption|].
      intros e. rewrite Forall_forall in Hn. split; [intros H; split; [exact H|exact (Hn _ H)]|tauto].
  Qed.

  (** Ascending lists with the same members are equal. *)
  Lemma ascending_unique (l l' : list (gslice * V)) : ascending lt l -> ascending lt l' ->
    (forall e, In e l <-> In e l') -> l = l'.
  Proof using Type.
    clear. unfold ascending.
    assert (as_lt : forall a b : gslice, lt a b -> lt b a -> False).
    { intros a b H1 H2. apply (slice_lt_irrefl byte_lt byte_lt_irrefl a).
      inversion H1; subst; inversion H2; subst; constructor; eauto using lex_lt_trans'. }
    revert l'. induction l as [|x l IH]; intros [|y l'] H1 H2 M.
    - reflexivity.
    - exfalso. apply (M y). now left.
    - exfalso. apply (M x). now left.
    - apply fop_cons in H1. apply fop_cons in H2. destruct H1 as [F1 H1], H2 as [F2 H2]. rewrite Forall_forall in F1, F2.
      assert (x = y) as ->.
      { destruct (proj1 (M x) (or_introl eq_refl)) as [->|Hx]; [reflexivity|].
        destruct (proj2 (M y) (or_introl eq_refl)) as [->|Hy]; [reflexivity|].
        exfalso. exact (as_lt _ _ (F1 _ Hy) (F2 _ Hx)). }
      f_equal. apply IH; [exact H1|exact H2|]. intros e. split; intros He.
      + destruct (proj1 (M e) (or_intror He)) as [<-|]; [|assumption]. exfalso. exact (lt_ne _ _ (F1 _ He) eq_refl).
      + destruct (proj2 (M e) (or_intror He)) as [<-|]; [|assumption]. exfalso. exact (lt_ne _ _ (F2 _ He) eq_refl).
  Qed.

  (** A key has one entry. *)
  Lemma entry_unique (l : list (gslice * V)) k v w : ascending lt l -> In (k, v) l -> In (k, w) l -> v = w.
  Proof using Type.
    clear. unfold ascending. induction l as [|x l IH]; intros H; [intros []|]. apply fop_cons in H. destruct H as [F H].
    rewrite Forall_forall in F. intros [->|H1] [E|H2].
    - congruence.
    - exfalso. exact (lt_ne _ _ (F _ H2) eq_refl).
    - subst x. exfalso. exact (lt_ne _ _ (F _ H1) eq_refl).
    - auto.
  Qed.
End Kids.

Lemma put_entries_ok P (PF : prefix_free P) l : forall m done, kids_ok P m -> entries m = done ->
  in_dom (key_in P) (done ++ l) -> ascending (slice_lt byte_lt) (done ++ l) ->
  exists m', put_entries m l = Ok m' /\ kids_ok P m' /\ entries m' = done ++ l.
Proof.
  induction l as [|[k c] l IH]; intros m done K E Hd Ha.
  - exists m. rewrite app_nil_r. auto.
  - assert (Dk : key_in P k) by (apply dom_middle in Hd; tauto).
    destruct (kids_put_ok P PF m k c K Dk) as (m' & o & E1 & K' & M). cbn [put_entries]. rewrite E1. cbn [rbind].
    assert (E2 : entries m' = done ++ [(k, c)]).
    { apply ascending_unique.
      - apply K'.
      - change ((k, c) :: l) with ([(k, c)] ++ l) in Ha. rewrite app_assoc in Ha. apply fop_app in Ha. apply Ha.
      - intros e. rewrite M, E, in_app_iff. cbn [In].
        apply ascending_middle in Ha. destruct Ha as (_ & F1 & _). rewrite Forall_forall in F1.
        split; [intros [->|[H _]]; auto|intros [H|[<-|[]]]; auto]. right. split; [exact H|]. apply lt_ne. exact (F1 _ H). }
    destruct (IH m' _ K' E2) as (m'' & E3 & K'' & E4).
    + now rewrite <- app_assoc.
    + now rewrite <- app_assoc.
    + exists m''. rewrite E3, E4, <- app_assoc. auto.
Qed.

(** ** The invariant *)
Definition node_ok (P : bytes -> Prop) (a : nat) (x : node) : Prop :=
  kids_ok P (nd_kids x) /\ (nd_off x < 2 ^ 32)%N /\
  match nd_parent x with None => nd_key x = None | Some p => p < a end.
Definition inv (P : bytes -> Prop) (h : nodes) : Prop :=
  forall a x, nth_error h a = Some x -> node_ok P a x /\ forall k c, In (k, Some c) (entries (nd_kids x)) -> c < length h.

Lemma inv_set P h a x : inv P h -> node_ok P a x ->
  (forall k c, In (k, Some c) (entries (nd_kids x)) -> c < length h) -> inv P (set_nth h a x).
Proof.
  intros I N K b y E. rewrite set_nth_length. destruct (Nat.eq_dec a b) as [->|Hn].
  - pose proof (nth_lt _ _ _ E) as L. rewrite set_nth_length in L. rewrite set_nth_same in E by exact L. inv E. auto.
  - rewrite set_nth_other in E by exact Hn. apply I, E.
Qed.
Lemma inv_app P h x : inv P h -> node_ok P (length h) x ->
  (forall k c, In (k, Some c) (entries (nd_kids x)) -> c < length h) -> inv P (h ++ [x]).
Proof.
  intros I N K b y E. rewrite app_length. cbn [length]. destruct (Nat.lt_ge_cases b (length h)) as [L|L].
  - rewrite nth_error_app1 in E by exact L. destruct (I _ _ E) as [A B]. split; [exact A|]. intros k c H. specialize (B k c H). lia.
  - rewrite nth_error_app2 in E by exact L. destruct (b - length h) as [|n] eqn:D; cbn in E.
    + inv E. replace b with (length h) by lia. split; [exact N|]. intros k c H. specialize (K k c H). lia.
    + destruct n; discriminate.
Qed.

Lemma view_node h a : nth_error (views h) a = option_map view (nth_error h a).
Proof. unfold views. apply nth_error_map. Qed.
Lemma views_length h : length (views h) = length h.
Proof. unfold views. apply map_length. Qed.
Lemma is_node_view h a x : nth_error h a = Some x -> is_node (views h) a (view x).
Proof. intros E. unfold is_node. rewrite view_node, E. reflexivity. Qed.
Lemma is_node_inv h a x : is_node (views h) a x -> exists y, nth_error h a = Some y /\ x = view y.
Proof. unfold is_node. rewrite view_node. destruct (nth_error h a); [|discriminate]. intros H. inv H. eauto. Qed.
Lemma exists_node h a : exists_at (views h) a -> exists x, nth_error h a = Some x.
Proof. unfold exists_at. rewrite views_length. apply lt_nth. Qed.
Lemma becomes_set h a x : a < length h -> becomes (views h) a (view x) (views (set_nth h a x)).
Proof. intros L. unfold becomes, views. rewrite set_nth_map, set_nth_split by (now rewrite map_length). reflexivity. Qed.

Lemma kid_ok P (PF : prefix_free P) a x k : node_ok P a x -> key_in P k ->
  (exists c, kid x k = Ok c /\ In (k, Some c) (entries (nd_kids x))) \/
  (kid x k = Panic /\ forall c, ~ In (k, Some c) (entries (nd_kids x))).
Proof.
  intros (K & _) Dk. unfold kid. destruct (kids_get P PF _ _ K Dk) as (o & -> & H). cbn [rbind].
  destruct o as [[k' [c|]]|].
  - left. exists c. split; [reflexivity|apply H].
  - right. split; [reflexivity|]. intros c Hc. destruct H as [_ H].
    pose proof (entry_unique _ _ _ _ (proj1 (proj2 K)) H Hc). discriminate.
  - right. split; [reflexivity|]. intros c. apply H.
Qed.

(** FullKey never returns: the path starts with the nil key of a root. *)
Lemma key_path_ok P h : inv P h -> forall f a below, a < f -> a < length h ->
  exists p, key_path f h a below = Ok (None :: p).
Proof.
  intros I. induction f as [|f IH]; intros a below Hf L; [lia|]. cbn [key_path].
  destruct (lt_nth h a L) as (x & E). rewrite E. destruct (I _ _ E) as [(_ & _ & Hp) _].
  destruct (nd_parent x) as [p|] eqn:Ep.
  - apply IH; lia.
  - rewrite Hp. eauto.
Qed.
Lemma full_key_panics p : full_key (None :: p) = Panic.
Proof. reflexivity. Qed.

Lemma live_ok h (c : option nat) : match c with Some c => exists_at (views h) c | None => True end -> live h c = true.
Proof. destruct c as [c|]; [|reflexivity]. unfold exists_at, live. rewrite views_length. apply Nat.ltb_lt. Qed.

Lemma node_encode_ok h x p y v : nd_parent x = Some p -> nth_error h p = Some y -> nd_data x = Some v ->
  in_memory (view x) -> avl_size (nd_kids x) = zlen (entries (nd_kids x)) -> (nd_off y < 2 ^ 32)%N ->
  match value_encode v with
  | Ok _ => exists b, node_encode h x = Ok b /\
      node_layout (match nd_key x with Some k => k | None => [] end) (nd_off y) v (length (entries (nd_kids x))) b
  | Err => node_encode h x = Err
  | Panic => node_encode h x = Panic
  end.
Proof.
  intros Ep Ey Ed [M1 M2] Es Ho. cbn [view a_key a_kids] in M1, M2. unfold node_encode. rewrite Ep, Ey, Ed.
  set (k := match nd_key x with Some k => k | None => [] end) in *.
  assert (Ek : gcontent (nd_key x) = k) by (unfold k, gcontent; destruct (nd_key x); reflexivity). rewrite Ek.
  assert (Lk : (N.of_nat (length k) < 2 ^ 62)%N) by (unfold k; destruct (nd_key x); exact M1).
  destruct (varchar_layout k) as (lk & -> & Uk); [unfold zlen; lia|]. cbn [rbind].
  unfold encode_uvarint64. rewrite !N.mod_small.
  2: { rewrite Es. unfold zlen. lia. }
  2: lia.
  destruct (put_uvarint_10 (nd_off y)) as (lo & -> & Uo); [lia|]. cbn [rbind].
  destruct (value_encode v) as [d| |] eqn:Ev; cbn [rbind]; try reflexivity.
  rewrite Es. replace (Z.to_N (zlen (entries (nd_kids x)))) with (N.of_nat (length (entries (nd_kids x)))) by (unfold zlen; lia).
  destruct (put_uvarint_10 (N.of_nat (length (entries (nd_kids x))))) as (ln & -> & Un); [lia|]. cbn [rbind].
  eexists. split; [reflexivity|]. exists lk, lo, d, ln. rewrite <- app_assoc. auto.
Qed.

Ltac node_at L x E := destruct (exists_node _ _ L) as (x & E); pose proof (is_node_view _ _ _ E).

Lemma node_step P (PF : prefix_free P) h c : inv P h -> legal P (views h) c ->
  (match c with TrGet _ _ | TrSet _ _ _ => False | _ => True end) ->
  does (views h) c (views (fst (tstep h c))) (snd (tstep h c)) /\ inv P (fst (tstep h c)).
Proof.
  intros I L T. destruct c; cbn [legal] in L; try contradiction; cbn [does tstep]; unfold on_node.
  - rewrite (live_ok h p L). cbn [fst snd]. split.
    + rewrite views_length. unfold views. rewrite map_app. cbn [map]. destruct p; auto.
    + apply inv_app; [exact I| |].
      * destruct p as [p|]; unfold node_ok, new_node; cbn; split; try apply kids_ok_new; split; try reflexivity; try lia.
        unfold exists_at in L. now rewrite views_length in L.
      * destruct p; intros ? ? [].
  - node_at L x E. rewrite E. split; [|exact I]. exists (view x). auto.
  - node_at L x E. rewrite E. split; [|exact I]. exists (view x). auto.
  - node_at L x E. rewrite E. split; [|exact I]. cbn [fst snd]. split; [reflexivity|].
    destruct (key_path_ok P h I (S a) a []) as (p & ->); [lia|exact (nth_lt _ _ _ E)|]. cbn [rbind]. now rewrite full_key_panics.
  - node_at L x E. rewrite E. split; [|exact I]. exists (view x). split; [assumption|]. split; [reflexivity|]. cbn [snd view a_kids].
    destruct (I _ _ E) as [((_ & _ & _ & ->) & _) _]. reflexivity.
  - destruct L as [L Dk]. node_at L x E. rewrite E. split; [|exact I]. exists (view x). split; [assumption|]. split; [reflexivity|].
    cbn [fst snd view a_kids]. destruct (kid_ok P PF a x k (proj1 (I _ _ E)) Dk) as [(c & -> & H1)|(-> & H1)]; cbn [rbind]; eauto.
  - destruct L as (L & Dk & Lc). rewrite (live_ok h c Lc). node_at L x E. rewrite E. unfold store, put_kid.
    destruct (I _ _ E) as [(K & Ho & Hp) Hc].
    destruct (kids_put_ok P PF (nd_kids x) k c K Dk) as (m' & o & -> & K' & M). cbn [rbind fst snd]. split.
    + exists (view x), (entries m'). split; [assumption|]. split; [split; [apply K'|exact M]|]. split; [|reflexivity].
      apply (becomes_set h a (with_kids x m')). exact (nth_lt _ _ _ E).
    + apply inv_set; [exact I|repeat split; try assumption; apply K'|]. cbn [with_kids nd_kids]. intros k0 c0 H0. apply M in H0.
      destruct H0 as [H0|[H0 _]]; [|eauto]. inv H0. unfold exists_at in Lc. now rewrite views_length in Lc.
  - destruct L as (L & Dk). node_at L x E. rewrite E. unfold store, remove_kid.
    destruct (I _ _ E) as [(K & Ho & Hp) Hc].
    destruct (kids_remove_ok P PF (nd_kids x) k K Dk) as (m' & o & -> & K' & M). cbn [rbind fst snd]. split.
    + exists (view x), (entries m'). split; [assumption|]. split; [split; [apply K'|exact M]|]. split; [|reflexivity].
      apply (becomes_set h a (with_kids x m')). exact (nth_lt _ _ _ E).
    + apply inv_set; [exact I|repeat split; try assumption; apply K'|]. cbn [with_kids nd_kids]. intros k0 c0 H0. apply M in H0.
      destruct H0 as [H0 _]. eauto.
  - node_at L x E. rewrite E. split; [|exact I]. exists (view x). auto.
  - node_at L x E. rewrite E. cbn [fst snd]. split.
    + exists (view x). split; [assumption|]. split; [|reflexivity]. apply (becomes_set h a (with_data x d)). exact (nth_lt _ _ _ E).
    + destruct (I _ _ E) as [N Hc]. apply inv_set; assumption.
  - node_at L x E. rewrite E. split; [|exact I]. exists (view x). auto.
  - node_at L x E. rewrite E. cbn [fst snd]. split.
    + exists (view x). split; [assumption|]. split; [|reflexivity]. apply (becomes_set h a (with_off x (o mod 2 ^ 32)%N)). exact (nth_lt _ _ _ E).
    + destruct (I _ _ E) as [(K & Ho & Hp) Hc]. apply inv_set; [exact I| |assumption]. repeat split; try assumption; try apply K.
      cbn [with_off nd_off]. apply N.mod_lt. discriminate.
  - destruct L as (x' & L & M). destruct (is_node_inv _ _ _ L) as (x & E & ->). rewrite E.
    destruct (I _ _ E) as [N Hc]. pose proof N as ((_ & _ & _ & Es) & Ho & Hp). unfold store.
    assert (R : forall b, becomes (views h) a (view (with_buf x (Some b))) (views (set_nth h a (with_buf x (Some b)))))
      by (intros b; apply becomes_set; exact (nth_lt _ _ _ E)).
    assert (Enc : exists lk, encode_varchar (gcontent (nd_key x)) = Ok lk).
    { destruct M as [M1 _]. cbn [view a_key] in M1. destruct (varchar_layout (gcontent (nd_key x))) as (lk & -> & _); [|eauto].
      unfold zlen, gcontent. destruct (nd_key x); cbn [length] in *; lia. }
    destruct (nd_parent x) as [p|] eqn:Ep; cbn [view a_parent a_data].
    + assert (Ly : p < length h) by (pose proof (nth_lt _ _ _ E); lia). destruct (lt_nth h p Ly) as (y & Ey).
      destruct (nd_data x) as [v|] eqn:Ed.
      * pose proof (node_encode_ok h x p y v Ep Ey Ed M Es (proj1 (proj2 (proj1 (I _ _ Ey))))) as W.
        destruct (value_encode v) as [d| |] eqn:Ev.
        -- destruct W as (b & -> & W). cbn [rbind fst snd]. split.
           ++ exists (view x). split; [exact L|]. cbn [view a_parent a_data]. rewrite Ep, Ed. exists (view y).
              split; [now apply is_node_view|]. rewrite Ev. exists b. split; [exact W|]. split; [|reflexivity].
              specialize (R b). unfold view in R. cbn [with_buf nd_parent nd_data] in R. rewrite Ep, Ed in R. exact R.
           ++ apply inv_set; assumption.
        -- rewrite W. cbn [rbind fst snd]. split; [|exact I]. exists (view x). split; [exact L|]. cbn [view a_parent a_data].
           rewrite Ep, Ed. exists (view y). split; [now apply is_node_view|]. rewrite Ev. auto.
        -- rewrite W. cbn [rbind fst snd]. split; [|exact I]. exists (view x). split; [exact L|]. cbn [view a_parent a_data].
           rewrite Ep, Ed. exists (view y). split; [now apply is_node_view|]. rewrite Ev. auto.
      * assert (W : node_encode h x = Panic).
        { unfold node_encode. destruct Enc as (lk & ->). cbn [rbind]. rewrite Ep, Ey, Ed.
          destruct (I _ _ Ey) as [(_ & Hy & _) _]. unfold encode_uvarint64. rewrite N.mod_small by lia.
          destruct (put_uvarint_10 (nd_off y)) as (lo & -> & _); [lia|]. reflexivity. }
        rewrite W. cbn [rbind fst snd]. split; [|exact I]. exists (view x). split; [exact L|]. cbn [view a_parent a_data].
        rewrite Ep, Ed. auto.
    + assert (W : node_encode h x = Panic).
      { unfold node_encode. destruct Enc as (lk & ->). cbn [rbind]. rewrite Ep. reflexivity. }
      rewrite W. cbn [rbind fst snd]. split; [|exact I]. exists (view x). split; [exact L|]. cbn [view a_parent a_data].
      rewrite Ep. auto.
  - node_at L x E. rewrite E. split; [|exact I]. exists (view x). auto.
  - node_at L x E. rewrite E. split; [|exact I]. exists (view x). auto.
  - node_at L x E. rewrite E. destruct (I _ _ E) as [(K & Ho & Hp) Hc]. unfold node_copy.
    assert (E0 : nd_kids (new_node (nd_parent x) (nd_key x) (nd_data x)) = new_avl) by (unfold new_node; destruct (nd_parent x); reflexivity).
    rewrite E0. destruct (put_entries_ok P PF (entries (nd_kids x)) new_avl []) as (m & -> & K' & Em);
      [apply kids_ok_new|reflexivity|apply K|apply K|]. cbn [rbind app] in *. cbn [fst snd].
    assert (Ev : view (with_kids (new_node (nd_parent x) (nd_key x) (nd_data x)) m) =
                 mk_anode (nd_parent x) (nd_key x) (nd_data x) (entries (nd_kids x)) None 0).
    { unfold view, with_kids, new_node. destruct (nd_parent x) eqn:Ep; cbn; rewrite Em; [reflexivity|]. now rewrite Hp. }
    split.
    + exists (view x). split; [assumption|]. rewrite views_length. unfold views at 1. rewrite map_app. cbn [map]. rewrite Ev. auto.
    + apply inv_app; [exact I| |].
      * unfold node_ok, with_kids, new_node. destruct (nd_parent x) as [p|] eqn:Ep; cbn; repeat split; try apply K'; try lia.
        pose proof (nth_lt _ _ _ E). lia.
      * cbn [with_kids nd_kids]. rewrite Em. exact Hc.
Qed.
