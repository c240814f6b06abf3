(** * Sorted maps whose keys are keys of the library (EmptyKey, MappedKey and Key mixed): C105.
    The tree calls [Equal] and [Compare] of the stored key with the key of the call as argument
    (/repo/src/collection/avl.go:319-500, /repo/src/util/key_util.go:89-121, 258-320, 467-520). *)
From Coq Require Import List NArith ZArith Bool Lia Arith.
From Coq Require Import Strings.Byte.
From Verif Require Import Base BaseProofs CmpModel CmpSpec CmpProofs KeyModel KeySpec KeyProofs KeyProps AVLModel MapSpec AVLSpec MapProofs AVLProofs AVLHistory AVLProps
  AVLPtrModel AVLPtrSpec AVLPtrProofs AVLPtrHistory AVLPtrPanic AVLPtrProps.
Import ListNotations.

Definition key_equal (a b : ikey) : res bool := ikey_equal a (OKey b).
Definition key_compare (a b : ikey) : res Z := ikey_compare a (OKey b).
(** Keys are the same, or one comes before the other, by their sub keys only. *)
Definition same_key (a b : ikey) : Prop := ikey_keys a = ikey_keys b.
Definition key_before (a b : ikey) : Prop := key_lt (ikey_keys a) (ikey_keys b).
(** The keys can be told apart before one of them, or a sub key of one of them, ends. *)
Definition apart (a b : ikey) : Prop := ~ cmp_panics (ikey_keys a) (ikey_keys b).

Lemma key_lt_irrefl a : ~ key_lt a a.
Proof. apply lex_irrefl. intros x. apply slice_lt_irrefl. exact byte_lt_irrefl. Qed.
Lemma key_lt_trans a b c : key_lt a b -> key_lt b c -> key_lt a c.
Proof. apply lex_trans. intros x y z. apply slice_lt_trans. exact byte_lt_trans. Qed.
Lemma key_lt_total a b : key_lt a b \/ a = b \/ key_lt b a.
Proof. apply lex_total. intros x y. apply slice_lt_total. exact byte_lt_total. Qed.

(** Compare panics on some pairs, and then only when the receiver is the larger key. *)
Lemma panics_larger a b : cmp_panics a b -> key_lt b a.
Proof.
  intros (common & x & ks & -> & [->|(y & ts & -> & Hp)]); unfold key_lt.
  - induction common as [|z l IH]; cbn [app]; constructor; exact IH.
  - induction common as [|z l IH]; cbn [app]; [|now constructor]. constructor. destruct Hp as (p & l & -> & -> & z & zs & ->).
    constructor. apply proper_prefix_lt. exists z, zs. reflexivity.
Qed.

Theorem C105_keys_one_sided : one_sided_keys (fun _ => True) same_key key_before key_equal key_compare.
Proof.
  constructor; unfold same_key, key_before; intros.
  - apply ikey_equal_exact.
  - destruct (C33_compare_exact a b) as (L & E & G & P). unfold key_compare.
    pose proof (cmp_keys_values (ikey_keys a) (ikey_keys b)) as V. rewrite <- ikey_compare_cmp in V.
    destruct V as [V|[V|[V|V]]].
    + left. exists (-1)%Z. split; [exact V|]. apply L in V. split; split; try lia; auto.
      intros W. destruct (key_lt_irrefl _ (key_lt_trans _ _ _ V W)).
    + left. exists 0%Z. split; [exact V|]. apply E in V. rewrite V. split; split; try lia; intros W; destruct (key_lt_irrefl _ W).
    + left. exists 1%Z. split; [exact V|]. apply G in V. destruct V as (V & _). split; split; try lia; auto.
      intros W. destruct (key_lt_irrefl _ (key_lt_trans _ _ _ V W)).
    + right. split; [exact V|]. apply panics_larger, P, V.
  - reflexivity.
  - now symmetry.
  - congruence.
  - rewrite H. apply key_lt_irrefl.
  - eapply key_lt_trans; eauto.
  - now rewrite H.
  - now rewrite <- H0.
  - apply key_lt_total.
Qed.
Print Assumptions C105_keys_one_sided.

(** Any calls on maps of any keys, the client recovering from panics: the calls that panicked could as well not have been made; each call that
    returned gave the answer that is right after those that returned before it; and a call returns if every key held by its map is apart from its key. *)
Theorem C105_calls_exact : forall {V : Type} (ops : list (pop ikey V)), Forall map_call ops ->
  exists n0 s os, (forall n, (n0 <= n)%nat -> p_run key_equal key_compare n sys0 ops = Some (s, os) /\
      p_run key_equal key_compare n sys0 (kept ops os) = Some (s, filter returned os)) /\ length os = length ops /\
    forall j op o, nth_error ops j = Some op -> nth_error os j = Some o ->
      let before := kept (firstn j ops) (firstn j os) in
      (returned o = true -> map_answer same_key before op o) /\
      match op with
      | PPut m (Some k) _ | PRemove m (Some k) | PGet m k =>
          (m < maps before)%nat -> (forall k' v', held same_key before m k' v' -> apart k' k) -> returned o = true
      | _ => True
      end.
Proof.
  intros V ops M.
  assert (F : Forall (keys_in (fun _ : ikey => True)) ops) by (apply Forall_forall; intros [|? [] ?|? []|? ?|?|? [] []|?|?|?] _; cbn; auto).
  destruct (C86_one_sided_keys key_equal key_compare _ _ _ ops C105_keys_one_sided F M) as (n0 & s & os & H & L & HA).
  exists n0, s, os. split; [exact H|]. split; [exact L|]. intros j op o H1 H2 before. destruct (HA j op o H1 H2) as (HA1 & HA2).
  split; [exact HA1|]. fold before in HA2.
  assert (C : forall m k, (forall k' v', held same_key before m k' v' -> apart k' k) ->
    forall k' v', held same_key before m k' v' -> exists c, key_compare k' k = Ok c).
  { intros m k Ha k' v' Hh. destruct (C33_compare_partial k' k (Ha _ _ Hh)) as (c & Hc & _). eauto. }
  destruct op as [|m k v|m k|m k|m|m st en|i|i|i]; auto.
  - destruct k as [k|]; [|exact I]. intros Hm Hn. apply HA2. split; [exact Hm|exact (C m k Hn)].
  - destruct k as [k|]; [|exact I]. intros Hm Hn. apply HA2. split; [exact Hm|exact (C m k Hn)].
  - intros Hm Hn. apply HA2. split; [exact Hm|exact (C m k Hn)].
Qed.
Print Assumptions C105_calls_exact.

(** A constructed key and a parsed one. *)
Definition key_of (l : list bytes) : ikey := KKey false (map Some l) None 1.
Definition parsed_of (l : list bytes) : ikey := KMapped (map Some l) [].
Definition a_b : list bytes := [[x61]; [x62]].
Definition a_c : list bytes := [[x61]; [x63]].
Definition b_a : list bytes := [[x62]; [x61]].
Definition mixed_calls : list (pop ikey nat) :=
  [PNew; PPut 0 (Some (key_of a_b)) 1%nat; PPut 0 (Some (parsed_of b_a)) 2%nat; PGet 0 (key_of [[x61]]); PGet 0 (parsed_of a_b);
   PPut 0 (Some (key_of b_a)) 3%nat; PGet 0 (key_of b_a); PSize 0].
Example C105_calls_exact_applies :
  Forall map_call mixed_calls /\
  option_map snd (p_run key_equal key_compare 10 sys0 mixed_calls) =
    Some [Ok PODone; Ok (POEntry None); Ok (POEntry None); Panic; Ok (POEntry (Some (key_of a_b, 1%nat)));
          Ok (POEntry (Some (parsed_of b_a, 2%nat))); Ok (POEntry (Some (key_of b_a, 3%nat))); Ok (POInt 2)].
Proof. split; [repeat constructor|vm_compute; reflexivity]. Qed.

(** Keys that are pairwise apart form a map without panics, whatever the kinds of the key objects. *)
Definition all_apart (D : ikey -> Prop) : Prop := forall a b, D a -> D b -> apart a b.
Lemma apart_total D : all_apart D -> total_keys D same_key key_before key_equal key_compare.
Proof.
  intros H. pose proof C105_keys_one_sided as O. constructor.
  - intros a b _ _. exact (ok_equal _ _ _ _ _ O a b Logic.I Logic.I).
  - intros a b Ha Hb. destruct (ok_compare _ _ _ _ _ O a b Logic.I Logic.I) as [C|(C & _)]; [exact C|].
    destruct (C33_compare_partial a b (H a b Ha Hb)) as (c & Hc & _). unfold key_compare in C. congruence.
  - intros a _. exact (ok_refl _ _ _ _ _ O a Logic.I).
  - exact (ok_sym _ _ _ _ _ O).
  - exact (ok_trans _ _ _ _ _ O).
  - exact (ok_irrefl _ _ _ _ _ O).
  - exact (ok_lt_trans _ _ _ _ _ O).
  - exact (ok_lt_l _ _ _ _ _ O).
  - exact (ok_lt_r _ _ _ _ _ O).
  - intros a b _ _. exact (ok_total _ _ _ _ _ O a b Logic.I Logic.I).
Qed.

Theorem C105_history_partial : forall {V : Type} (D : ikey -> Prop) (ops : list (mop ikey (option V))),
  all_apart D -> Forall (fun op => D (op_key op)) ops ->
  exists t vs es, sm_run key_equal key_compare new_avl ops = Ok (t, vs) /\ answers same_key [] ops es /\
    vs = map (fun e => match e with Some (_, v) => v | None => None end) es.
Proof. intros V D ops H F. exact (C08_sorted_map_history key_equal key_compare D same_key key_before ops (apart_total D H) F). Qed.
Print Assumptions C105_history_partial.

(** Iteration shows them once each in the order of their sub keys. *)
Theorem C105_iteration_partial : forall {V : Type} (D : ikey -> Prop) (ops : list (mop ikey V)),
  all_apart D -> Forall (fun op => D (op_key op)) ops ->
  exists t os l, avl_run key_equal key_compare new_avl ops = Ok (t, os) /\
    lists_entries same_key ops l /\ ascending key_before l /\
    (let? i := new_iter key_compare (avl_root t) None None in asserted_run key_compare i (drain_calls (length l))) = Ok (drain_shows l).
Proof. intros V D ops H F. exact (C11_iteration_in_order key_equal key_compare D same_key key_before ops (apart_total D H) F). Qed.
Print Assumptions C105_iteration_partial.

(** Such keys are those of one shape: the same number of sub keys, and sub keys at the same place of the same length. *)
Definition shape (ns : list nat) (k : ikey) : Prop := Forall2 (fun n (s : gslice) => exists l : bytes, s = Some l /\ length l = n) ns (ikey_keys k).
Lemma Forall2_len {A B} (R : A -> B -> Prop) l l' : Forall2 R l l' -> length l = length l'.
Proof. induction 1; cbn [length]; congruence. Qed.
Lemma shape_apart ns : all_apart (shape ns).
Proof.
  intros a b Ha Hb (common & x & ks & E & H). unfold shape in *. rewrite E in Ha.
  apply Forall2_app_inv_r in Ha. destruct Ha as (n1 & n2 & Ha1 & Ha2 & ->). inversion Ha2 as [|n s ns' ? Hx Ha3]; subst.
  destruct H as [Ec|(y & ts & Et & Hp)].
  - rewrite Ec in Hb. apply Forall2_len in Hb. apply Forall2_len in Ha1. rewrite app_length in Hb. cbn [length] in Hb. lia.
  - rewrite Et in Hb. apply Forall2_app_inv_r in Hb. destruct Hb as (m1 & m2 & Hb1 & Hb2 & En).
    assert (L : length n1 = length m1) by (apply Forall2_len in Hb1; apply Forall2_len in Ha1; congruence).
    assert (W : n :: ns' = m2).
    { apply (f_equal (skipn (length n1))) in En. rewrite skipn_app, skipn_all, Nat.sub_diag in En.
      rewrite L, skipn_app, skipn_all, Nat.sub_diag in En. exact En. }
    subst m2.
    inversion Hb2 as [|? ? ? ? Hy Hb3]; subst. destruct Hx as (lx & -> & Lx). destruct Hy as (ly & -> & Ly).
    destruct Hp as (p & l & E1 & E2 & z & zs & E3). injection E1 as <-. injection E2 as <-. rewrite E3, app_length in Lx. cbn [length] in Lx. unfold bytes in *. lia.
Qed.
Example C105_partial_applies :
  all_apart (shape [1; 1]) /\
  Forall (fun op => shape [1; 1] (op_key op)) [MPut (key_of a_c) 1%nat; MPut (parsed_of b_a) 2%nat; MPut (key_of a_b) 3%nat; MRemove (parsed_of a_c)] /\
  exists t os, avl_run key_equal key_compare new_avl [MPut (key_of a_c) 1%nat; MPut (parsed_of b_a) 2%nat; MPut (key_of a_b) 3%nat; MRemove (parsed_of a_c)] = Ok (t, os) /\
    os = [None; None; None; Some (key_of a_c, 1%nat)] /\ inorder (avl_root t) = [(key_of a_b, 3%nat); (parsed_of b_a, 2%nat)].
Proof.
  split; [apply shape_apart|]. split.
  - repeat constructor; eexists; split; reflexivity.
  - do 2 eexists. split; [vm_compute; reflexivity|]. split; [reflexivity|vm_compute; reflexivity].
Qed.

(** Without that condition the map is none: the key of a parent, of which the map holds a child, panics in Get, Put and Remove, and so does the
    empty key once anything is held. *)
Theorem C105_refuted : forall v : nat,
  let t := [MPut (key_of a_b) v] in
  avl_run key_equal key_compare new_avl (t ++ [MGet (key_of [[x61]])]) = Panic /\
  avl_run key_equal key_compare new_avl (t ++ [MPut (key_of [[x61]]) v]) = Panic /\
  avl_run key_equal key_compare new_avl (t ++ [MRemove (key_of [[x61]])]) = Panic /\
  avl_run key_equal key_compare new_avl (t ++ [MGet KEmpty]) = Panic /\
  (exists r, avl_run key_equal key_compare new_avl [MPut (key_of [[x61]]) v; MPut (key_of a_b) v; MGet (key_of [[x61]])] = Ok r) /\
  avl_run key_equal key_compare new_avl [MPut (key_of [[x61]]) v; MPut (key_of a_b) v; MPut (key_of a_c) v; MGet (key_of [[x61]])] = Panic.
Proof.
  intros v. cbn zeta. split; [reflexivity|]. split; [reflexivity|]. split; [reflexivity|]. split; [reflexivity|].
  split; [eexists; vm_compute; reflexivity|vm_compute; reflexivity].
Qed.
Print Assumptions C105_refuted.
