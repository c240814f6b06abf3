(** * The children of a trie node under any sub keys, also when one is a prefix of another. *)
From Coq Require Import List NArith ZArith Bool Lia Arith.
From Coq Require Import Strings.Byte.
From Verif Require Import Base BaseProofs EndianModel VarintModel VarintSpec VarintProofs CmpModel CmpSpec CmpProofs KeyModel ValueModel
  AVLModel MapSpec AVLSpec AVLProofs AVLHistory AVLProps AVLPtrSpec AVLPtrPanic AVLPtrProps TrieModel TrieObjModel TrieObjSpec TrieObjProofs.
Import ListNotations.

(** All byte strings; a key from [any] is a slice that is not nil. *)
Definition any (_ : bytes) : Prop := True.
Notation lt := (slice_lt byte_lt).

(** ** Calls on trees return or panic *)
Lemma ne_bind {A B} (r : res A) (f : A -> res B) : r <> Err -> (forall a, r = Ok a -> f a <> Err) -> rbind r f <> Err.
Proof. intros H1 H2. destruct r; cbn [rbind]; [apply H2; reflexivity|congruence|discriminate]. Qed.
Ltac ne := repeat first [discriminate | assumption | apply ne_bind; [|intros] | match goal with |- (if ?b then _ else _) <> _ => destruct b end
  | match goal with |- (let (_, _) := ?p in _) <> _ => destruct p end | match goal with |- (match ?p with pair _ _ => _ end) <> _ => destruct p end].
Section NoErr.
  Context {K V : Type} (equalb : K -> K -> res bool) (compare : K -> K -> res Z).
  Context (NE : forall a b, equalb a b <> Err) (NC : forall a b, compare a b <> Err).
  Notation tree := (tree K V).
  Lemma ne_get_link (n : tree) d : get_link n d <> Err. Proof using Type. destruct n; discriminate. Qed.
  Lemma ne_set_link (n : tree) d c : set_link n d c <> Err. Proof using Type. destruct n; discriminate. Qed.
  Lemma ne_get_balance (n : tree) : get_balance n <> Err. Proof using Type. destruct n; discriminate. Qed.
  Lemma ne_set_balance (n : tree) b : set_balance n b <> Err. Proof using Type. destruct n; discriminate. Qed.
  Hint Resolve ne_get_link ne_set_link ne_get_balance ne_set_balance : ne.
  Ltac nes := repeat first [discriminate | solve [auto with ne] | apply ne_bind; [|intros] | match goal with |- (if ?b then _ else _) <> _ => destruct b end
    | match goal with |- (let (_, _) := ?p in _) <> _ => destruct p end | match goal with |- (match ?p with pair _ _ => _ end) <> _ => destruct p end].
  Lemma ne_single (n : tree) d : single n d <> Err. Proof using Type. unfold single. nes. Qed.
  Hint Resolve ne_single : ne.
  Lemma ne_double (n : tree) d : double n d <> Err. Proof using Type. unfold double. nes. Qed.
  Lemma ne_adjust (n : tree) d b : adjust_balance n d b <> Err. Proof using Type. unfold adjust_balance. nes. Qed.
  Hint Resolve ne_double ne_adjust : ne.
  Lemma ne_put_balance (n : tree) d : put_balance n d <> Err. Proof using Type. unfold put_balance. nes. Qed.
  Lemma ne_remove_balance (n : tree) d : remove_balance n d <> Err. Proof using Type. unfold remove_balance. nes. Qed.
  Lemma ne_direction a b : direction compare a b <> Err. Proof using NC. unfold direction. nes. Qed.
  Hint Resolve ne_put_balance ne_remove_balance ne_direction : ne.
  Lemma ne_putR k v (t : tree) : putR equalb compare k v t <> Err.
  Proof using NE NC. induction t; cbn [putR]; nes. Qed.
  Lemma ne_getR k (t : tree) : getR equalb compare k t <> Err.
  Proof using NE NC. induction t; cbn [getR]; nes. Qed.
  Lemma ne_removeR (t : tree) : forall k, removeR equalb compare k t <> Err.
  Proof using NE NC.
    induction t as [|rk rv rb l IHl r IHr]; intros k; [discriminate|]. rewrite removeR_node.
    assert (C : forall k' v' d o c x, remove_finish k' v' rb l r d o c x <> Err) by (intros; unfold remove_finish; nes).
    apply ne_bind; [apply NE|intros e _]. destruct e.
    - destruct l as [|lk lv lb ll lr]; [discriminate|]. destruct r as [|rk' rv' rb' rl rr]; [discriminate|].
      destruct (heir lk lv lr) as [hk hv]. nes.
    - nes.
  Qed.
End NoErr.

Lemma ne_equal a b : bytes_equal a b <> Err.
Proof. unfold bytes_equal. rewrite cbs_equal_wrap. discriminate. Qed.
Lemma compare_or_clash k k' : key_in any k' -> key_in any k ->
  bytes_compare k' k = fill bytes_compare k' k \/ slice_proper_prefix k k'.
Proof.
  intros (l' & -> & _) (l & -> & _). unfold fill, bytes_compare. rewrite cbs_compare_wrap.
  destruct (byte_compare_exact (Some l') (Some l)) as (_ & _ & _ & P). unfold compare_byte_slice.
  destruct (compare_slice (prim_cmp byte_ltb) (Some l') (Some l)) as [c| |] eqn:E; [now left| |].
  - exfalso. assert (NP : ~ slice_proper_prefix (Some l) (Some l')) by (intros X; apply P in X; congruence).
    destruct (byte_compare_defined _ _ NP) as (c' & Hc & _). congruence.
  - right. now apply P.
Qed.
Lemma ne_compare a b : bytes_compare a b <> Err.
Proof.
  unfold bytes_compare. rewrite cbs_compare_wrap. destruct a as [a|]; [|discriminate].
  destruct (byte_compare_exact (Some a) b) as (_ & _ & _ & P). unfold compare_byte_slice. intros E.
  assert (NP : ~ slice_proper_prefix b (Some a)) by (intros X; apply P in X; congruence).
  destruct (byte_compare_defined _ _ NP) as (c' & Hc & _). congruence.
Qed.

(** A key clashes with an entry when it is a proper prefix of its key. *)
Definition clashes {V} (k : gslice) (l : list (gslice * V)) : Prop := exists k' v, In (k', v) l /\ slice_proper_prefix k k'.
Lemma agree_or_clash {V} k (l : list (gslice * V)) : in_dom (key_in any) l -> key_in any k -> agrees bytes_compare k l \/ clashes k l.
Proof.
  intros Hd Dk. unfold in_dom in Hd. induction l as [|[k' v] l IH]; [left; constructor|].
  inversion Hd as [|? ? D' Hd']; subst. cbn [fst] in D'. destruct (compare_or_clash k k' D' Dk) as [E|E].
  - destruct (IH Hd') as [A|(k2 & v2 & I2 & C)]; [left; constructor; assumption|]. right. exists k2, v2. split; [now right|exact C].
  - right. exists k', v. split; [now left|exact E].
Qed.

(** ** Children under any keys that are not nil *)
Section Kids.
  Context {V : Type}.
  Let FK := fill_keys _ _ _ _ _ bytes_one_sided.
  Notation FC := (fill bytes_compare).

  Lemma kids_get_any (m : avl gslice V) k : kids_ok any m -> key_in any k ->
    (exists o, avl_get ck_equal ck_compare m k = Ok o /\
      match o with
      | Some (k', v) => k' = k /\ In (k, v) (entries m)
      | None => forall v, ~ In (k, v) (entries m)
      end) \/
    (avl_get ck_equal ck_compare m k = Panic /\ clashes k (entries m)).
  Proof.
    intros (Hd & Ha & _ & _) Dk.
    destruct (getR_ok bytes_equal FC (key_in any) eq lt FK k _ Dk Hd Ha) as (o & E & H).
    assert (S : match o with Some (k', v) => k' = k /\ In (k, v) (entries m) | None => forall v, ~ In (k, v) (entries m) end).
    { destruct o as [[k' v]|]; cbn [get_result] in H.
      - destruct H as [<- H]. auto.
      - intros v Hv. rewrite Forall_forall in H. apply (H _ Hv). reflexivity. }
    change ck_equal with bytes_equal. change ck_compare with bytes_compare. unfold avl_get.
    destruct (getR bytes_equal bytes_compare k (avl_root m)) as [o'| |] eqn:G.
    - pose proof (getR_le bytes_equal bytes_compare FC (fill_le bytes_compare) k _ _ G) as G'. rewrite E in G'. inv G'. left. exists o'. auto.
    - destruct (ne_getR bytes_equal bytes_compare ne_equal ne_compare k _ G).
    - right. split; [reflexivity|]. destruct (agree_or_clash k (entries m) Hd Dk) as [A|A]; [|exact A].
      rewrite (getR_agree bytes_equal bytes_compare k _ A) in G. congruence.
  Qed.

  Lemma kids_put_any (m : avl gslice V) k v : kids_ok any m -> key_in any k ->
    (exists m' o, avl_put ck_equal ck_compare m (Some k) v = Ok (m', o) /\ kids_ok any m' /\
      forall e, In e (entries m') <-> e = (k, v) \/ (In e (entries m) /\ fst e <> k)) \/
    (avl_put ck_equal ck_compare m (Some k) v = Panic /\ clashes k (entries m)).
  Proof.
    intros (Hd & Ha & Hb & Hs) Dk. pose proof (agree_or_clash k (entries m) Hd Dk) as AC.
    destruct (putR_ok bytes_equal FC (key_in any) eq lt FK k v _ Dk Hd Ha Hb) as (t' & o & done & E & Hc & Bt & _).
    change ck_equal with bytes_equal. change ck_compare with bytes_compare. rewrite avl_put_root.
    destruct (putR bytes_equal bytes_compare k v (avl_root m)) as [y| |] eqn:G; cbn [rbind].
    2: destruct (ne_putR bytes_equal bytes_compare ne_equal ne_compare k v _ G).
    2: { right. split; [reflexivity|]. destruct AC as [A|A]; [|exact A].
         rewrite (putR_agree bytes_equal bytes_compare k v _ A) in G. congruence. }
    pose proof (putR_le bytes_equal bytes_compare FC (fill_le bytes_compare) k v _ _ G) as G'. rewrite E in G'. inv G'. left.
    do 2 eexists. split; [reflexivity|]. unfold kids_ok. cbn [avl_root avl_size].
    destruct Hc as (l1 & l2 & E' & Hc). rewrite E'. destruct o as [[k0 v0]|].
    - destruct Hc as (-> & Eb). rewrite Eb in *. apply dom_middle in Hd. destruct Hd as [_ Hd].
      apply ascending_middle in Ha. destruct Ha as (Ha & F1 & F2). split.
      + repeat split; [apply dom_middle; auto|apply ascending_insert; assumption|exact Bt|]. rewrite Hs, !zlen_middle. reflexivity.
      + intros e. rewrite !in_app_iff. cbn [In]. pose proof (middle_ne l1 l2 k e F1 F2) as N. rewrite in_app_iff in N.
        split; [intros [H|[<-|H]]; auto|intros [->|[[H|[<-|H]] H']]; auto]. cbn in H'. congruence.
    - destruct Hc as (Eb & F1 & F2). rewrite Eb in *. split.
      + repeat split; [apply dom_middle; auto|apply ascending_insert; assumption|exact Bt|]. rewrite Hs, !zlen_middle. reflexivity.
      + intros e. rewrite !in_app_iff. cbn [In]. pose proof (middle_ne l1 l2 k e F1 F2) as N. rewrite in_app_iff in N.
        split; [intros [H|[<-|H]]; auto|intros [->|[[H|H] H']]; auto].
  Qed.

  Lemma kids_remove_any (m : avl gslice V) k : kids_ok any m -> key_in any k ->
    (exists m' o, avl_remove ck_equal ck_compare m (Some k) = Ok (m', o) /\ kids_ok any m' /\
      forall e, In e (entries m') <-> In e (entries m) /\ fst e <> k) \/
    (avl_remove ck_equal ck_compare m (Some k) = Panic /\ clashes k (entries m)).
  Proof.
    intros (Hd & Ha & Hb & Hs) Dk. pose proof (agree_or_clash k (entries m) Hd Dk) as AC.
    destruct (removeR_ok bytes_equal FC (key_in any) eq lt FK k _ Dk Hd Ha Hb) as (t' & o & done & E & Hc & Bt & _).
    change ck_equal with bytes_equal. change ck_compare with bytes_compare. unfold avl_remove.
    destruct (removeR bytes_equal bytes_compare k (avl_root m)) as [y| |] eqn:G; cbn [rbind].
    2: destruct (ne_removeR bytes_equal bytes_compare ne_equal ne_compare _ k G).
    2: { right. split; [reflexivity|]. destruct AC as [A|A]; [|exact A].
         rewrite (removeR_agree bytes_equal bytes_compare _ _ _ bytes_one_sided _ k Hd Ha A) in G. congruence. }
    pose proof (removeR_le bytes_equal bytes_compare FC (fill_le bytes_compare) _ k _ G) as G'. rewrite E in G'. inv G'. left.
    do 2 eexists. split; [reflexivity|]. unfold kids_ok. cbn [avl_root avl_size].
    destruct o as [[k0 v0]|]; cbn [remove_contents] in Hc.
    - destruct Hc as (-> & l1 & l2 & Eb & E'). rewrite E' in *. rewrite Eb in *. apply dom_middle in Hd. destruct Hd as [_ Hd].
      apply ascending_middle in Ha. destruct Ha as (Ha & F1 & F2). split.
      + repeat split; try assumption. rewrite Hs, !zlen_middle. lia.
      + intros e. rewrite !in_app_iff. cbn [In]. pose proof (middle_ne l1 l2 k e F1 F2) as N. rewrite in_app_iff in N.
        split; [intros [H|H]; auto|intros [[H|[<-|H]] H']; auto]. cbn in H'. congruence.
    - destruct Hc as (E' & Hn). rewrite E' in *. split; [repeat split; assumption|].
      intros e. rewrite Forall_forall in Hn. split; [intros H; split; [exact H|exact (Hn _ H)]|tauto].
  Qed.
End Kids.

(** A key after all keys of a node clashes with none of them. *)
Lemma prefix_not_larger (p q : bytes) : ~ lex_lt byte_lt (p ++ q) p.
Proof.
  induction p as [|x p IH]; cbn [app]; intros H; inversion H; subst; [|auto].
  match goal with H : byte_lt _ _ |- _ => exact (byte_lt_irrefl _ H) end.
Qed.
Lemma larger_no_clash {V} k (l : list (gslice * V)) : Forall (fun e => lt (fst e) k) l -> ~ clashes k l.
Proof.
  intros F (k' & v & H & P). rewrite Forall_forall in F. specialize (F _ H). cbn [fst] in F.
  destruct P as (p & q & -> & -> & x & xs & ->). inversion F as [|? ? L]; subst. exact (prefix_not_larger _ _ L).
Qed.

Lemma put_entries_any l : forall m done, kids_ok any m -> entries m = done ->
  in_dom (key_in any) (done ++ l) -> ascending lt (done ++ l) ->
  exists m', put_entries m l = Ok m' /\ kids_ok any m' /\ entries m' = done ++ l.
Proof.
  induction l as [|[k c] l IH]; intros m done K E Hd Ha.
  - exists m. rewrite app_nil_r. auto.
  - assert (Dk : key_in any k) by (apply dom_middle in Hd; tauto).
    pose proof Ha as Ha'. apply ascending_middle in Ha'. destruct Ha' as (_ & F1 & _).
    destruct (kids_put_any m k c K Dk) as [(m' & o & E1 & K' & M)|(_ & C)].
    2: { rewrite E in C. destruct (larger_no_clash k done F1 C). }
    rewrite Forall_forall in F1. cbn [put_entries]. rewrite E1. cbn [rbind].
    assert (E2 : entries m' = done ++ [(k, c)]).
    { apply ascending_unique.
      - apply K'.
      - change ((k, c) :: l) with ([(k, c)] ++ l) in Ha. rewrite app_assoc in Ha. apply fop_app in Ha. apply Ha.
      - intros e. rewrite M, E, in_app_iff. cbn [In].
        split; [intros [->|[H _]]; auto|intros [H|[<-|[]]]; auto]. right. split; [exact H|]. apply lt_ne. exact (F1 _ H). }
    destruct (IH m' _ K' E2) as (m'' & E3 & K'' & E4).
    + now rewrite <- app_assoc.
    + now rewrite <- app_assoc.
    + exists m''. rewrite E3, E4, <- app_assoc. auto.
Qed.

Lemma kid_any a x k : node_ok any a x -> key_in any k ->
  (exists c, kid x k = Ok c /\ In (k, Some c) (entries (nd_kids x))) \/
  (kid x k = Panic /\ ((forall c, ~ In (k, Some c) (entries (nd_kids x))) \/ clashes k (entries (nd_kids x)))).
Proof.
  intros (K & _) Dk. unfold kid. destruct (kids_get_any _ _ K Dk) as [(o & -> & H)|(-> & C)]; cbn [rbind]; [|auto].
  destruct o as [[k' [c|]]|].
  - left. exists c. split; [reflexivity|apply H].
  - right. split; [reflexivity|]. left. intros c Hc. destruct H as [_ H].
    pose proof (entry_unique _ _ _ _ (proj1 (proj2 K)) H Hc). discriminate.
  - right. split; [reflexivity|]. left. intros c. apply H.
Qed.


Lemma key_in_any P k : key_in P k -> key_in any k.
Proof. intros (l & -> & _). exists l. split; [reflexivity|exact I]. Qed.
Lemma kids_any {V} P (m : avl gslice V) : kids_ok P m -> kids_ok any m.
Proof.
  intros (Hd & R). split; [|exact R]. unfold in_dom in *. eapply Forall_impl; [|exact Hd]. intros e. apply key_in_any.
Qed.

(** Remove of a key that Get finds returns. *)
Lemma removeR_found {V} k e (t : tree gslice V) : in_dom (key_in any) (inorder t) -> ascending lt (inorder t) ->
  getR bytes_equal bytes_compare k t = Ok (Some e) ->
  removeR bytes_equal bytes_compare k t = removeR bytes_equal (fill bytes_compare) k t.
Proof.
  induction t as [|k' v b l IHl r IHr]; intros Hd Ha G; [reflexivity|]. rewrite !removeR_node. cbn [getR] in G.
  apply dom_node in Hd. destruct Hd as (Dk & Dl & Dr). apply asc_node in Ha. destruct Ha as (Al & Ar & _ & _).
  destruct (bytes_equal k' k) as [[|]| |]; cbn [rbind] in *; try reflexivity.
  - destruct l as [|lk lv lb ll lr]; [reflexivity|]. destruct r as [|rk rv rb rl rr]; [reflexivity|].
    destruct (heir lk lv lr) as [hk hv] eqn:Eh.
    destruct (agrees_heir bytes_equal bytes_compare _ _ _ bytes_one_sided lk lv lb ll lr hk hv Dl Al Eh) as (Dh & Hh).
    assert (E : bytes_compare hk hk = fill bytes_compare hk hk).
    { apply (not_panic_le _ _ _ _ _ bytes_one_sided); auto. }
    rewrite (direction_agree bytes_compare _ _ E).
    rewrite (direction_eq bytes_equal (fill bytes_compare) _ _ _ (fill_keys _ _ _ _ _ bytes_one_sided) hk hk Dh Dh eq_refl).
    cbn [rbind]. rewrite (removeR_agree bytes_equal bytes_compare _ _ _ bytes_one_sided _ hk Dl Al Hh). reflexivity.
  - apply rbind_ok in G. destruct G as (d & E & G). rewrite E, (direction_le bytes_compare (fill bytes_compare) (fill_le bytes_compare) _ _ _ E).
    cbn [rbind]. destruct d; [rewrite (IHr Dr Ar G)|rewrite (IHl Dl Al G)]; reflexivity.
Qed.
Lemma remove_found {V} P (m : avl gslice V) k e : kids_ok P m -> key_in P k -> avl_get ck_equal ck_compare m k = Ok (Some e) ->
  exists m' o, avl_remove ck_equal ck_compare m (Some k) = Ok (m', o) /\ kids_ok P m' /\
    forall e, In e (entries m') <-> In e (entries m) /\ fst e <> k.
Proof.
  intros K Dk G. destruct (kids_remove_any m k (kids_any P m K) (key_in_any P k Dk)) as [(m' & o & E & K' & M)|(E & _)].
  - exists m', o. split; [exact E|]. split; [|exact M]. destruct K' as (_ & R). split; [|exact R]. destruct K as (Hd & _).
    unfold in_dom in *. rewrite Forall_forall in *. intros x Hx. apply Hd. apply M in Hx. apply Hx.
  - exfalso. apply kids_any in K. apply key_in_any in Dk. destruct K as (Hd & Ha & Hb & _).
    destruct (removeR_ok bytes_equal (fill bytes_compare) (key_in any) eq lt (fill_keys _ _ _ _ _ bytes_one_sided) k _ Dk Hd Ha Hb) as (t' & o & done & E' & _).
    rewrite <- (removeR_found k e _ Hd Ha G) in E'.
    change ck_equal with bytes_equal in E. change ck_compare with bytes_compare in E. unfold avl_remove in E. rewrite E' in E. discriminate.
Qed.
Lemma kid_found x k c : kid x k = Ok c -> exists k', avl_get ck_equal ck_compare (nd_kids x) k = Ok (Some (k', Some c)).
Proof.
  unfold kid. intros H. apply rbind_ok in H. destruct H as (r & E & H). destruct r as [[k' [c'|]]|]; inv H. eauto.
Qed.
