(** * Proofs about range iterators over tries: the constructor and the start of a range *)
From Coq Require Import List NArith ZArith Bool Lia.
From Coq Require Import Strings.Byte.
From Verif Require Import Base CmpSpec CmpModel CmpProofs KeyModel ValueModel AVLModel AVLSpec AVLIter AVLProofs AVLProps TrieModel TrieIterModel TrieIterSpec TrieIterProofs TrieIterOrder TrieIterRange.
Import ListNotations.
Local Open Scope nat_scope.

(** ** Children of a node *)

Lemma find_same l k : In k (map fst l) -> ascends l -> full k -> Forall (fun kc : gslice * tnode => full (fst kc)) l ->
  exists c, find (fun kc => same (fst kc) k) l = Some (k, c) /\ In (k, c) l.
Proof.
  induction l as [|[k0 c0] l IH]; cbn [map find fst]; intros Hin A Fk F; [destruct Hin|]. inversion A as [|? ? A1 A2]; subst.
  destruct (same k0 k) eqn:Es.
  - apply same_eq in Es; [|exact (Forall_inv F)|exact Fk]. subst k0. exists c0. split; [reflexivity|now left].
  - destruct Hin as [->|Hin]; [rewrite same_refl in Es; discriminate|]. destruct (IH Hin A2 Fk (Forall_inv_tail F)) as (c & H1 & H2).
    exists c. split; [exact H1|now right].
Qed.
Lemma ascends_unique l k (c c' : tnode) : ascends l -> In (k, c) l -> In (k, c') l -> c = c'.
Proof.
  induction l as [|[k0 c0] l IH]; intros A H1 H2; [destruct H1|]. inversion A as [|? ? A1 A2]; subst. rewrite Forall_forall in A1.
  destruct H1 as [H1|H1], H2 as [H2|H2]; [congruence| | |eauto]; exfalso.
  - injection H1 as <- <-. specialize (A1 _ H2). cbn in A1. rewrite keyb_irrefl in A1. discriminate.
  - injection H2 as <- <-. specialize (A1 _ H1). cbn in A1. rewrite keyb_irrefl in A1. discriminate.
Qed.

Section Start.
  Context (P : bytes -> Prop) (HP : prefix_free P).

  Lemma kids_dom n : ordered P n -> in_dom (key_in P) (kids n).
  Proof using Type. intros O. apply Forall_forall. intros [k c] Hin. exact (proj1 (proj2 (kids_full P n k c O Hin))). Qed.
  Lemma kids_all_full n : ordered P n -> Forall (fun kc : gslice * tnode => full (fst kc)) (kids n).
  Proof using Type. intros O. apply Forall_forall. intros [k c] Hin. exact (proj1 (kids_full P n k c O Hin)). Qed.

  Lemma child_in n k c : ordered P n -> key_in P k -> (child n k = Some c <-> In (k, c) (kids n)).
  Proof using Type.
    intros O Kk. unfold child. split.
    - destruct (find (fun kc => same (fst kc) k) (kids n)) as [[k0 c0]|] eqn:Ef; [|discriminate]. cbn. intros H. injection H as <-.
      apply find_some in Ef. destruct Ef as [Hin Es]. cbn in Es. apply same_eq in Es; [|exact (proj1 (kids_full P n k0 c0 O Hin))|eapply key_in_full; eassumption].
      now subst.
    - intros Hin. destruct (find_same (kids n) k) as (c' & -> & Hin').
      + apply in_map_iff. exists (k, c). auto.
      + exact (kids_ascend P n O).
      + eapply key_in_full; eassumption.
      + exact (kids_all_full n O).
      + cbn. f_equal. eapply ascends_unique; [exact (kids_ascend P n O)|exact Hin'|exact Hin].
  Qed.
  Lemma find_child_ok n k : ordered P n -> key_in P k -> find_child n k = Ok (child n k).
  Proof using HP.
    intros O Kk. unfold find_child, smap_get, avl_get. pose proof (prefix_free_keys P HP) as TK.
    destruct (getR_ok ck_equal ck_compare (key_in P) eq (slice_lt byte_lt) TK k (avl_root (tn_children n)) Kk) as (o & -> & Hg).
    { exact (kids_dom n O). }
    { exact (proj1 (ordered_kids P n O)). }
    cbn [rbind]. f_equal. destruct o as [[k0 c]|]; cbn in *.
    - destruct Hg as [-> Hin]. symmetry. apply child_in; assumption.
    - destruct (child n k) as [c|] eqn:Ec; [|reflexivity]. exfalso. apply (child_in n k c O Kk) in Ec.
      rewrite Forall_forall in Hg. exact (Hg _ Ec eq_refl).
  Qed.

  (** RangeIterator(start, nil) delivers all children, or none if they all are after the start. *)
  Definition from (s : gslice) (l : list (gslice * tnode)) : list (gslice * tnode) :=
    match l with (k, _) :: _ => if keyb s k then [] else l | [] => [] end.
  Lemma m_range_acts n s : ordered P n -> key_in P s -> exists i, m_range n s = Ok i /\ acts i (from s (kids n)).
  Proof using HP.
    intros O Ks. pose proof (prefix_free_keys P HP) as TK.
    assert (Hb : forall a b, key_in P a -> key_in P b -> (keyb a b = true <-> slice_lt byte_lt a b)).
    { intros a b Ha Hb. apply keyb_lt; eapply key_in_full; eassumption. }
    pose proof (new_iter_range ck_compare ck_equal (key_in P) eq (slice_lt byte_lt) TK keyb Hb (avl_root (tn_children n)) (Some s) None
      (kids_dom n O) (proj1 (ordered_kids P n O)) Ks I) as X. cbn beta iota in X. destruct X as (i & E & H). exists i. split; [exact E|].
    exists (range_state (V := tnode) (key_in P) (slice_lt byte_lt) keyb). split.
    - intros j l Hj. exact (range_advance ck_compare ck_equal (key_in P) eq (slice_lt byte_lt) TK keyb Hb j l Hj).
    - replace (from s (kids n)) with (range_list (V := tnode) keyb (Some s) None (kids n)); [exact H|].
      assert (Fl : forall l : list (gslice * tnode), filter (before_end keyb None) l = l) by (induction l as [|x l IH]; cbn; congruence).
      unfold range_list, from. destruct (kids n) as [|[k c] l]; [reflexivity|]. now rewrite Fl.
  Qed.

  (** ** Bounds *)

  Lemma find_nodes_ok keys : forall n, ordered P n -> regular n -> Forall (key_in P) keys ->
    exists l, find_nodes n keys = Ok (l, match skipn (length (found n keys)) keys with [] => None | x :: _ => x end) /\
      map tn_key l = found n keys /\ found n (found n keys) = found n keys.
  Proof using HP.
    induction keys as [|k keys IH]; intros n O R F.
    - exists []. repeat split.
    - cbn [find_nodes found]. rewrite (find_child_ok n k O (Forall_inv F)). cbn [rbind]. destruct (child n k) as [c|] eqn:Ec.
      + pose proof Ec as Hin. apply (child_in n k c O (Forall_inv F)) in Hin. destruct (kids_full P n k c O Hin) as (_ & _ & Oc).
        destruct (regular_kids n R [] k c Hin) as [Ek Rc]. destruct (IH c Oc Rc (Forall_inv_tail F)) as (l & -> & H1 & H2).
        cbn [rbind]. exists (c :: l). cbn [length skipn map]. rewrite H1, Ek. cbn [found]. rewrite Ec, H2. auto.
      + exists []. repeat split.
  Qed.
  Lemma found_firstn keys : forall n, found n keys = firstn (length (found n keys)) keys.
  Proof using Type. clear. induction keys as [|k keys IH]; intros n; [reflexivity|]. cbn [found]. destruct (child n k); [|reflexivity]. cbn. f_equal. apply IH. Qed.
  Lemma found_in keys n : Forall (key_in P) keys -> Forall (key_in P) (found n keys).
  Proof using Type.
    intros F. rewrite found_firstn. rewrite Forall_forall in *. intros x Hx. apply F.
    rewrite <- (firstn_skipn (length (found n keys)) keys). apply in_or_app. now left.
  Qed.

  Lemma nth_error_skipn (l : list gslice) n : nth_error l n = match skipn n l with [] => None | x :: _ => Some x end.
  Proof using Type. clear. revert n. induction l as [|x l IH]; intros [|n]; cbn; auto. Qed.
  Lemma skipn_cons (l : list gslice) n x r : skipn n l = x :: r -> skipn (S n) l = r.
  Proof using Type. clear. revert n. induction l as [|y l IH]; intros [|n] H; cbn in *; try discriminate; [congruence|]. apply (IH n H). Qed.
  Lemma compare_subkeys_ok ks : forall t idx total, Forall (key_in P) ks -> Forall (key_in P) (ikey_keys t) ->
    idx <= length (ikey_keys t) -> total = idx + length ks ->
    match compare_subkeys ks t idx total with
    | Ok c => (0 <? c)%Z = pathb (skipn idx (ikey_keys t)) ks
    | Err => False
    | Panic => pathb (skipn idx (ikey_keys t)) ks = true
    end.
  Proof using HP.
    induction ks as [|k ks IH]; intros t idx total F Ft Hi Ht; cbn [compare_subkeys].
    - destruct (Nat.ltb_spec total (length (ikey_keys t))); cbn; now destruct (skipn idx (ikey_keys t)).
    - replace (Nat.ltb (length (ikey_keys t)) idx) with false by (symmetry; apply Nat.ltb_ge; lia).
      assert (Hs : sub_key_at t idx = match skipn idx (ikey_keys t) with [] => Panic | x :: _ => Ok x end).
      { unfold sub_key_at. rewrite nth_error_skipn. destruct t; cbn [ikey_keys]; [destruct idx; reflexivity|..]; now destruct (skipn idx _). }
      rewrite Hs. destruct (skipn idx (ikey_keys t)) as [|x r] eqn:Er; cbn [rbind]; [reflexivity|].
      assert (Kx : key_in P x).
      { rewrite Forall_forall in Ft. apply Ft. rewrite <- (firstn_skipn idx (ikey_keys t)), Er. apply in_or_app. right. now left. }
      destruct (compare_key P k x HP (Forall_inv F) Kx) as (c & -> & C1 & C2 & C3). cbn [rbind]. rewrite C3. cbn [pathb].
      assert (Sy : same x k = same k x) by (unfold same; apply andb_comm).
      destruct (same k x) eqn:Es.
      + rewrite Sy. cbn [andb]. assert (Kn : keyb x k = false) by (unfold same in Es; apply andb_true_iff in Es; destruct Es as [_ Es]; now apply negb_true_iff in Es).
        rewrite Kn. cbn [orb].
        assert (Li : S idx <= length (ikey_keys t)).
        { apply (f_equal (@length gslice)) in Er. rewrite skipn_length in Er. cbn in Er. lia. }
        specialize (IH t (S idx) total (Forall_inv_tail F) Ft Li). cbn [length] in Ht. rewrite (skipn_cons _ _ _ _ Er) in IH. apply IH. lia.
      + rewrite C2, Sy. cbn [andb]. now rewrite orb_false_r.
  Qed.
  Lemma ikey_compare_ok s e : Forall (key_in P) (ikey_keys s) -> Forall (key_in P) (ikey_keys e) ->
    match ikey_compare s (OKey e) with
    | Ok c => (0 <? c)%Z = pathb (ikey_keys e) (ikey_keys s)
    | Err => False
    | Panic => pathb (ikey_keys e) (ikey_keys s) = true
    end.
  Proof using HP.
    intros Fs Fe. unfold ikey_compare. destruct s as [|ks b|en ks b es].
    - cbn [ikey_keys]. destruct (ikey_keys e); reflexivity.
    - exact (compare_subkeys_ok ks e 0 _ Fs Fe (Nat.le_0_l _) eq_refl).
    - exact (compare_subkeys_ok ks e 0 _ Fs Fe (Nat.le_0_l _) eq_refl).
  Qed.

  (** ** checkStart *)

  Definition from_opt (up : option gslice) (l : list (gslice * tnode)) : list (gslice * tnode) :=
    match up with None => l | Some u => from u l end.
  Fixpoint final (n : tnode) (p : path) (ks : path) (sc : gslice) (ls : list todo) : list todo :=
    match ks, kids n with
    | s :: ks', (_, c) :: l =>
        match ks', sc with
        | [], None => (p, kids n) :: ls
        | [], Some _ => (p ++ [s], from sc (kids c)) :: (p, l) :: ls
        | _ :: _, _ => final c (p ++ [s]) ks' sc ((p, l) :: ls)
        end
    | _, _ => ls
    end.

  Lemma first_kid n k c k0 c0 l : ordered P n -> In (k, c) (kids n) -> kids n = (k0, c0) :: l ->
    (same k0 k = true /\ k0 = k /\ c0 = c) \/ (same k0 k = false /\ keyb k0 k = true).
  Proof using Type.
    intros O Hin E. pose proof (kids_ascend P n O) as A. rewrite E in *. inversion A as [|? ? A1 A2]; subst. destruct Hin as [H|H].
    - injection H as -> ->. left. rewrite same_refl. auto.
    - right. rewrite Forall_forall in A1. specialize (A1 _ H). cbn in A1. split; [|exact A1]. apply (keyb_not_same _ _ A1).
  Qed.

  Lemma start_rounds_ok ss : forall n up p i ps ls sc, ss <> [] -> ordered P n -> regular n -> Forall (key_in P) (map tn_key ss) ->
    found n (map tn_key ss) = map tn_key ss -> acts i (from_opt up (kids n)) -> stands ps ls -> (sc <> None -> key_in P sc) ->
    if leads n up (map tn_key ss)
    then exists ps', start_rounds ss sc ((p, i) :: ps) = Ok ps' /\ stands ps' (final n p (map tn_key ss) sc ls)
    else start_rounds ss sc ((p, i) :: ps) = Panic.
  Proof using HP.
    induction ss as [|s ss IH]; intros n up p i ps ls sc Nn O R F Hf A St Ksc; [congruence|]. clear Nn.
    cbn [map found] in Hf. destruct (child n (tn_key s)) as [c|] eqn:Ec; [|discriminate]. injection Hf as Hf.
    pose proof (Forall_inv F) as Ks. cbn beta in Ks. apply (child_in n _ c O Ks) in Ec.
    destruct (kids n) as [|[k0 c0] l] eqn:En; [destruct Ec|]. rewrite <- En in *.
    destruct (kids_full P n _ c O Ec) as (_ & _ & Oc). destruct (regular_kids n R [] _ c Ec) as [Ek Rc].
    cbn [map leads start_rounds]. rewrite En. rewrite En in A. cbn [from_opt] in A.
    (* the iterator at this level *)
    destruct up as [u|]; cbn [from_opt from] in A; [destruct (keyb u k0) eqn:Eu|].
    { (* it has nothing *)
      rewrite (acts_peek_nil i A). cbn [rbind].
      destruct (first_kid n _ c k0 c0 l O Ec En) as [(Hs & E1 & E2)|(Hs & _)]; rewrite Hs; [|reflexivity].
      subst k0. rewrite Eu. reflexivity. }
    all: destruct (acts_peek i _ _ _ A) as (i1 & -> & A1); cbn [rbind].
    all: assert (K0 : key_in P k0 /\ tn_key c0 = k0) by
      (assert (H0 : In (k0, c0) (kids n)) by (rewrite En; now left); destruct (kids_full P n _ _ O H0) as (_ & X & _); destruct (regular_kids n R [] _ _ H0); auto).
    all: destruct K0 as [K0 Ek0]; rewrite Ek0; destruct (compare_key P k0 (tn_key s) HP K0 Ks) as (z & -> & Z1 & Z2 & Z3); cbn [rbind]; rewrite Z1, Z3.
    all: destruct (first_kid n _ c k0 c0 l O Ec En) as [(Hs & E1 & E2)|(Hs & Hl)]; rewrite Hs; cbn [andb]; [|rewrite Hl; reflexivity].
    all: clear Ek0; subst k0 c0; rewrite keyb_irrefl; rewrite ?Eu; cbn [negb andb].
    all: destruct (acts_next i1 _ _ _ A1) as (i2 & En2 & A2).
    all: destruct ss as [|s2 ss].
    1,3: cbn [leads map final]; rewrite En; destruct sc as [b|].
    1,3: rewrite En2; cbn [rbind]; destruct (m_range_acts c (Some b) Oc) as (j & -> & Aj); [apply Ksc; discriminate|]; cbn [rbind]; rewrite Ek;
      eexists; (split; [reflexivity|]); constructor; [split; [reflexivity|exact Aj]|]; constructor; [split; [reflexivity|exact A2]|exact St].
    1,2: eexists; (split; [reflexivity|]); constructor; [split; [reflexivity|cbn; rewrite ?En; exact A1]|exact St].
    all: rewrite En2; cbn [rbind]; destruct (m_range_acts c (tn_key s) Oc Ks) as (j & -> & Aj); cbn [rbind];
      specialize (IH c (Some (tn_key s)) (p ++ [tn_key s]) j ((p, i2) :: ps) ((p, l) :: ls) sc); rewrite Ek;
      assert (X : if leads c (Some (tn_key s)) (map tn_key (s2 :: ss)) then
          exists ps', start_rounds (s2 :: ss) sc ((p ++ [tn_key s], j) :: (p, i2) :: ps) = Ok ps' /\
            stands ps' (final c (p ++ [tn_key s]) (map tn_key (s2 :: ss)) sc ((p, l) :: ls))
        else start_rounds (s2 :: ss) sc ((p ++ [tn_key s], j) :: (p, i2) :: ps) = Panic)
      by (apply IH; [discriminate|exact Oc|exact Rc|exact (Forall_inv_tail F)|exact Hf|exact Aj|constructor; auto|exact Ksc]);
      cbn [final map]; rewrite En; exact X.
  Qed.

  (** ** The stack after checkStart *)

  Lemma good_kids n : ordered P n -> regular n -> good P (kids n).
  Proof using Type.
    intros O R. split; [exact (kids_ascend P n O)|]. apply Forall_forall. intros [k c] Hin. cbn [fst snd].
    destruct (kids_full P n k c O Hin) as (_ & Y1 & Y2). destruct (regular_kids n R [] k c Hin) as [Z1 Z2]. auto.
  Qed.
  Lemma good_tail x l : good P (x :: l) -> good P l.
  Proof using Type. intros [A F]. split; [inversion A; assumption|exact (Forall_inv_tail F)]. Qed.
  Lemma good_from s l : good P l -> good P (from s l).
  Proof using Type. intros G. unfold from. destruct l as [|[k c] l]; [exact G|]. destruct (keyb s k); [|exact G]. split; constructor. Qed.

  Lemma lead_step n up s ks : ordered P n -> regular n -> Forall (key_in P) (s :: ks) -> found n (s :: ks) = s :: ks -> leads n up (s :: ks) = true ->
    exists c l, kids n = (s, c) :: l /\ child n s = Some c /\ ordered P c /\ regular c /\ found c ks = ks /\ leads c (Some s) ks = true /\
      Forall (fun kc => keyb s (fst kc) = true) l.
  Proof using Type.
    intros O R F Hf L. cbn [found] in Hf. destruct (child n s) as [c|] eqn:Ec; [|discriminate]. injection Hf as Hf.
    pose proof Ec as Hin. apply (child_in n s c O (Forall_inv F)) in Hin. destruct (kids_full P n s c O Hin) as (_ & _ & Oc).
    destruct (regular_kids n R [] s c Hin) as [_ Rc]. cbn [leads] in L. destruct (kids n) as [|[k0 c0] l] eqn:En; [discriminate|].
    destruct (first_kid n s c k0 c0 l O) as [(Hs & -> & ->)|(Hs & _)]; [rewrite En; exact Hin|exact En| |rewrite Hs in L; discriminate].
    apply andb_true_iff in L. destruct L as [_ L]. exists c, l. split; [reflexivity|]. split; [reflexivity|]. split; [exact Oc|]. split; [exact Rc|]. split; [exact Hf|]. split; [exact L|].
    pose proof (kids_ascend P n O) as A. rewrite En in A. inversion A; assumption.
  Qed.

  Lemma final_none ks : forall n up p ls, ks <> [] -> ordered P n -> regular n -> Forall (key_in P) ks -> found n ks = ks ->
    leads n up ks = true -> chain P p ls ->
    exists pre n' ls1, final n p ks None ls = (p ++ removelast ks, kids n') :: ls1 /\ nodes p n ++ pend ls = pre ++ pend (final n p ks None ls) /\
      length pre = length ks /\ chain P (p ++ removelast ks) ls1 /\ good P (kids n') /\ kids n' <> [].
  Proof using Type.
    induction ks as [|s ks IH]; intros n up p ls Nn O R F Hf L C; [congruence|]. clear Nn.
    destruct (lead_step n up s ks O R F Hf L) as (c & l & En & Ec & Oc & Rc & Hf' & L' & Fl). destruct ks as [|s2 ks].
    - cbn [final removelast]. rewrite En. exists [(p, tn_data n)], n, ls. rewrite app_nil_r, En. split; [reflexivity|]. split.
      + rewrite nodes_eq, En. reflexivity.
      + split; [reflexivity|]. split; [exact C|]. split; [|discriminate]. rewrite <- En. now apply good_kids.
    - assert (X : chain P (p ++ [s]) ((p, l) :: ls)).
      { cbn [chain]. split; [exists s; split; [reflexivity|]; split; [exact (Forall_inv F)|exact Fl]|]. split; [|exact C].
        apply (good_tail (s, c)). rewrite <- En. now apply good_kids. }
      assert (Nn : s2 :: ks <> []) by discriminate.
      destruct (IH c (Some s) (p ++ [s]) ((p, l) :: ls) Nn Oc Rc (Forall_inv_tail F) Hf' L' X) as (pre & n' & ls1 & H1 & H2 & H3 & H4 & H5).
      exists ((p, tn_data n) :: pre), n', ls1.
      assert (Ef : final n p (s :: s2 :: ks) None ls = final c (p ++ [s]) (s2 :: ks) None ((p, l) :: ls)).
      { cbn [final]. rewrite En. reflexivity. }
      assert (Er : p ++ removelast (s :: s2 :: ks) = (p ++ [s]) ++ removelast (s2 :: ks)) by (rewrite <- app_assoc; reflexivity).
      rewrite Ef, Er. split; [exact H1|]. split; [|split; [cbn [length] in *; lia|split; [exact H4|exact H5]]].
      cbn [app]. rewrite <- H2. rewrite (nodes_eq p n), En. unfold pend, below. cbn [flat_map fst snd app]. now rewrite <- !app_assoc.
  Qed.

  Lemma final_some ks b : forall n up p ls, ks <> [] -> ordered P n -> regular n -> Forall (key_in P) ks -> found n ks = ks ->
    leads n up ks = true -> chain P p ls ->
    exists pre c ls1, final n p ks (Some b) ls = (p ++ ks, from (Some b) (kids c)) :: ls1 /\
      nodes p n ++ pend ls = pre ++ nodes (p ++ ks) c ++ pend ls1 /\ length pre = length ks /\ chain P (p ++ ks) ls1 /\
      Forall (fun x => exists r, p ++ ks = fst x ++ r) pre /\ sub n ks = Some c /\ ordered P c /\ regular c.
  Proof using Type.
    induction ks as [|s ks IH]; intros n up p ls Nn O R F Hf L C; [congruence|]. clear Nn.
    destruct (lead_step n up s ks O R F Hf L) as (c & l & En & Ec & Oc & Rc & Hf' & L' & Fl).
    assert (X : chain P (p ++ [s]) ((p, l) :: ls)).
    { cbn [chain]. split; [exists s; split; [reflexivity|]; split; [exact (Forall_inv F)|exact Fl]|]. split; [|exact C].
      apply (good_tail (s, c)). rewrite <- En. now apply good_kids. }
    assert (Nd : nodes p n ++ pend ls = (p, tn_data n) :: nodes (p ++ [s]) c ++ pend ((p, l) :: ls)).
    { rewrite (nodes_eq p n), En. unfold pend, below. cbn [flat_map fst snd app]. now rewrite <- !app_assoc. }
    destruct ks as [|s2 ks].
    - exists [(p, tn_data n)], c, ((p, l) :: ls). cbn [final sub]. rewrite En, Ec. split; [reflexivity|]. split; [exact Nd|].
      split; [reflexivity|]. split; [exact X|]. split; [|auto]. constructor; [|constructor]. exists [s]. reflexivity.
    - assert (Nn : s2 :: ks <> []) by discriminate.
      destruct (IH c (Some s) (p ++ [s]) ((p, l) :: ls) Nn Oc Rc (Forall_inv_tail F) Hf' L' X) as (pre & c' & ls1 & H1 & H2 & H3 & H4 & H5 & H6 & H7).
      exists ((p, tn_data n) :: pre), c', ls1.
      assert (Ef : final n p (s :: s2 :: ks) (Some b) ls = final c (p ++ [s]) (s2 :: ks) (Some b) ((p, l) :: ls)).
      { cbn [final]. rewrite En. reflexivity. }
      assert (Er : p ++ s :: s2 :: ks = (p ++ [s]) ++ s2 :: ks) by (rewrite <- app_assoc; reflexivity).
      rewrite Ef, Er. split; [exact H1|]. split; [rewrite Nd, H2; reflexivity|]. split; [cbn [length] in *; lia|]. split; [exact H4|].
      split; [|split; [cbn [sub]; rewrite Ec; exact H6|exact H7]].
      constructor; [|exact H5]. exists (s :: s2 :: ks). rewrite <- Er. reflexivity.
  Qed.

  (** What is below a level of the stack comes after its key. *)
  Lemma after_more q r y : pathb q y = true -> under q y = false -> pathb (q ++ r) y = true /\ under (q ++ r) y = false.
  Proof using Type.
    clear. revert y. induction q as [|x q IH]; intros [|z y] H1 H2; cbn in *; try discriminate; auto.
    apply orb_true_iff in H1. destruct (keyb x z) eqn:K.
    - destruct (keyb_not_same _ _ K) as (-> & _). cbn. auto.
    - destruct H1 as [H1|H1]; [discriminate|]. apply andb_true_iff in H1. destruct H1 as [S1 S2]. rewrite S1 in *. cbn in *. now apply IH.
  Qed.
  Lemma chain_after ls : forall q y, chain P q ls -> In y (pend ls) -> pathb q (fst y) = true /\ under q (fst y) = false.
  Proof using Type.
    induction ls as [|[q0 l0] ls IH]; intros q y C Hy; [destruct Hy|]. cbn [chain] in C. destruct C as ((x & -> & _ & Fx) & _ & C).
    unfold pend in Hy. cbn [flat_map fst snd] in Hy. apply in_app_iff in Hy. destruct Hy as [Hy|Hy].
    - destruct (below_in q0 l0 y Hy) as (k & c & r & Hin & ->). rewrite pathb_app, under_app. cbn [pathb under].
      rewrite Forall_forall in Fx. specialize (Fx _ Hin). cbn [fst] in Fx. destruct (keyb_not_same _ _ Fx) as (-> & _). rewrite Fx. auto.
    - destruct (IH q0 y C Hy) as [H1 H2]. now apply after_more.
  Qed.
  Lemma chain_bottom ls : forall q, chain P q ls -> ls <> [] -> bottom (nth 0 q None) ls.
  Proof using Type.
    induction ls as [|[q0 l0] ls IH]; intros q C N; [congruence|]. cbn [chain] in C. destruct C as ((x & -> & _ & Fx) & _ & C).
    cbn [bottom]. destruct ls as [|y ls].
    - cbn [chain] in C. subst q0. exact Fx.
    - assert (Lc : length q0 = length (y :: ls)) by (eapply chain_length; exact C). replace (nth 0 (q0 ++ [x]) None) with (nth 0 q0 None).
      + apply IH; [exact C|discriminate].
      + symmetry. apply app_nth1. rewrite Lc. cbn. lia.
  Qed.
  Lemma filter_after (pre : list shown) (q : path) (c : tnode) (rest : list shown) : Forall (fun x => exists r, q = fst x ++ r) pre ->
    (forall y, In y rest -> pathb q (fst y) = true /\ under q (fst y) = false) ->
    filter (fun y : shown => pathb q (fst y) && negb (under q (fst y))) (pre ++ nodes q c ++ rest) = rest.
  Proof using Type.
    clear. intros F H. rewrite !filter_app.
    assert (X : forall l : list shown, (forall y, In y l -> pathb q (fst y) && negb (under q (fst y)) = false) ->
      filter (fun y : shown => pathb q (fst y) && negb (under q (fst y))) l = []).
    { induction l as [|y l IH]; intros Hl; [reflexivity|]. cbn. rewrite (Hl y (or_introl eq_refl)). apply IH. intros z Hz. apply Hl. now right. }
    rewrite (X pre), (X (nodes q c)).
    - cbn [app]. induction rest as [|y rest IH]; [reflexivity|]. cbn. destruct (H y (or_introl eq_refl)) as [-> ->]. cbn. f_equal.
      apply IH. intros z Hz. apply H. now right.
    - intros [y d] Hy. apply nodes_in in Hy. destruct Hy as (r & c' & -> & _ & _). cbn [fst]. rewrite under_ext. apply andb_false_r.
    - intros y Hy. rewrite Forall_forall in F. destruct (F y Hy) as (r & ->). rewrite pathb_ext. reflexivity.
  Qed.

  (** ** All calls *)

  Lemma run_started f r r1 cs : check_start r = Ok r1 -> ri_started r1 = true -> range_run f r cs = range_run f r1 cs.
  Proof using Type.
    clear. intros H1 H2. assert (H3 : check_start r1 = Ok r1) by (unfold check_start; rewrite H2; reflexivity).
    destruct cs as [|c cs]; [reflexivity|]. cbn [range_run]. replace (range_step f r c) with (range_step f r1 c); [reflexivity|].
    unfold range_step, range_has_next, range_peek, range_next. rewrite H1, H3. reflexivity.
  Qed.
  Lemma run_crash f r cs : check_start r = Panic -> range_run f r cs = match cs with [] => [] | _ => [Crash] end.
  Proof using Type.
    clear. intros H. destruct cs as [|c cs]; [reflexivity|]. cbn [range_run].
    destruct c; cbn [range_step]; unfold range_has_next, range_peek, range_next; rewrite H; reflexivity.
  Qed.

  (** A root without children. *)
  Lemma run_childless f cs : forall r, ri_is_root r = true -> ri_starts r = [] -> ri_ends r = [] -> ri_matches r = [] -> ri_paths r = [] ->
    child_size (ri_root r) = 0%Z -> range_run f r cs = repeats ([], tn_data (ri_root r)) cs.
  Proof using Type.
    clear. induction cs as [|c cs IH]; intros r H1 H2 H3 H4 H5 H6; [reflexivity|].
    assert (Es : exists b, check_start r = Ok (if b : bool then set_started r else r)).
    { unfold check_start. destruct (ri_started r); [exists false; reflexivity|]. exists true. rewrite H2, H1, H6. cbn.
      destruct (ri_start_child r); reflexivity. }
    destruct Es as (b & Es). set (r1 := if b then set_started r else r) in *.
    assert (R1 : ri_is_root r1 = true /\ ri_starts r1 = [] /\ ri_ends r1 = [] /\ ri_matches r1 = [] /\ ri_paths r1 = [] /\
      child_size (ri_root r1) = 0%Z /\ ri_root r1 = ri_root r) by (subst r1; destruct b; repeat split; assumption).
    clearbody r1. destruct R1 as (G1 & G2 & G3 & G4 & G5 & G6 & G7).
    assert (Ec : check_end r1 = Ok r1) by (unfold check_end; rewrite G3, G4; reflexivity).
    assert (Z : (child_size (ri_root r1) =? 0)%Z = true) by (rewrite G6; reflexivity).
    cbn [range_run]. destruct c; cbn [range_step repeats]; unfold range_has_next, range_peek, range_next; rewrite Es; cbn [rbind];
      rewrite Ec; cbn [rbind mbind]; rewrite G1; cbn [orb]; rewrite ?G5, ?G2, ?Z; cbn [rbind option_map rmap fst snd]; rewrite ?Ec;
      cbn [rbind option_map rmap fst snd]; rewrite (IH r1 G1 G2 G3 G4 G5 G6), G7; reflexivity.
  Qed.

  Lemma missing_key t start x r : Forall (key_in P) start -> skipn (length (found t start)) start = x :: r -> key_in P x.
  Proof using Type.
    intros Fs H. rewrite Forall_forall in Fs. apply Fs. rewrite <- (firstn_skipn (length (found t start)) start), H.
    apply in_or_app. right. now left.
  Qed.

  Section Tree.
    Context (t : tnode) (O : ordered P t) (R : regular t).
    Context (end_ : path) (Fe : Forall (key_in P) end_).
    Context (es : list tnode) (ec : gslice) (He : map tn_key es = found t end_)
      (Hec : ec = match skipn (length (found t end_)) end_ with [] => None | x :: _ => x end).

    Let E := found t end_.
    Let complete := Nat.eqb (length E) (length end_).
    Lemma complete_ec : complete = match ec with None => true | Some _ => false end.
    Proof.
      unfold complete, E. rewrite Hec. pose proof (found_firstn end_ t) as Hf. apply (f_equal (@length gslice)) in Hf. rewrite firstn_length in Hf.
      destruct (skipn (length (found t end_)) end_) as [|x r] eqn:Es; apply (f_equal (@length gslice)) in Es as El; rewrite skipn_length in El; cbn [length] in El.
      - apply Nat.eqb_eq. lia.
      - assert (Kx : key_in P x).
        { rewrite Forall_forall in Fe. apply Fe. rewrite <- (firstn_skipn (length (found t end_)) end_), Es. apply in_or_app. right. now left. }
        destruct Kx as (b & -> & _). apply Nat.eqb_neq. lia.
    Qed.
    Lemma found_end_in : Forall (key_in P) E.
    Proof. apply found_in, Fe. Qed.
    Lemma matches_trues : map (fun _ : tnode => false) es = trues E 0.
    Proof.
      unfold trues. cbn [repeat app]. unfold E. rewrite <- He, map_length, Nat.sub_0_r. clear. induction es as [|e l IH]; cbn; congruence.
    Qed.

    (** The state in which the iterator is after checkStart. *)
    Lemma run_from f cs free r ls : (forall s, free = Some s -> key_in P s) -> rstate P es ec E complete free r 0 ls ->
      range_run (S f) r cs = answers (fst (left_to E complete free ls)) (snd (left_to E complete free ls)) cs.
    Proof. intros Ff H. eapply range_run_ok; eauto using found_end_in, complete_ec. Qed.

    Lemma run_root f cs : kids t <> [] -> forall sc, (sc = None) -> forall b,
      range_run (S f) (RIter t true [] sc es ec [] b (map (fun _ => false) es)) cs =
      (let (a, stuck) := visible (length E) (filter (fun x => before E complete None (fst x)) (nodes [] t)) in answers a stuck cs).
    Proof.
      intros Hk sc -> . assert (Ff : forall s : gslice, None = Some s -> key_in P s) by discriminate.
      assert (Hv : visible (length E) (filter (fun x : shown => before E complete None (fst x)) (nodes [] t)) =
        (([], tn_data t) :: fst (left_to E complete None [([], kids t)]), snd (left_to E complete None [([], kids t)]))).
      { rewrite nodes_eq. cbn [filter fst]. replace (before E complete None []) with true by (unfold before; destruct E; reflexivity).
        cbn [visible fst length Nat.ltb Nat.leb andb]. unfold left_to, Wl. cbn [hung pend flat_map fst snd]. rewrite app_nil_r.
        destruct (kids t) as [|x l]; [congruence|].
        replace (hung E [([], x :: l)]) with false by reflexivity.
        destruct (visible (length E) (filter (fun x0 : shown => before E complete None (fst x0)) (below [] (x :: l)))); reflexivity. }
      rewrite Hv. cbn [fst snd].
      induction cs as [|c cs IH]; intros b; [reflexivity|]. cbn [range_run].
      set (r := RIter t true [] None es ec [] b (map (fun _ => false) es)).
      set (r1 := RIter t true [] None es ec [] true (map (fun _ => false) es)).
      assert (Es : check_start r = Ok r1) by (unfold check_start, r, r1; cbn; destruct b; reflexivity).
      assert (Ec : check_end r1 = Ok r1) by (unfold check_end, r1; cbn; rewrite map_length, Nat.eqb_refl; cbn; destruct es; reflexivity).
      assert (Sz : (child_size t =? 0)%Z = false) by (rewrite (size_kids t R); destruct (kids t); [congruence|reflexivity]).
      destruct c; cbn [range_step answers]; unfold range_has_next, range_peek, range_next; rewrite Es; cbn [rbind]; rewrite Ec; cbn [rbind mbind].
      - change (ri_is_root r1) with true. cbn [orb]. f_equal. exact (IH true).
      - change (ri_is_root r1) with true. cbn [ri_paths ri_starts r1 option_map rmap rbind fst snd hd_error]. f_equal. exact (IH true).
      - change (ri_is_root r1) with true. cbn [ri_paths ri_starts ri_root r1]. rewrite Sz. destruct (iter_acts t) as (j & -> & A). cbn [rbind].
        match goal with |- context [check_end ?x] => set (r2 := x) end.
        assert (H2 : rstate P es ec E complete None r2 0 [([], kids t)]).
        { unfold rstate, r2, leave_root, r1. cbn [ri_is_root ri_started ri_ends ri_end_child ri_matches ri_paths].
          repeat (split; [reflexivity|]). split; [apply matches_trues|]. split; [constructor; [split; [reflexivity|exact A]|constructor]|].
          cbn [inv]. split; [now apply good_kids|]. split; [reflexivity|]. split.
          { left. unfold reached. cbn. repeat split; try lia. }
          split; [|discriminate]. intros s _ N. congruence. }
        destruct (check_end_ok P HP es ec E He found_end_in complete complete_ec None Ff r2 0 _ H2) as (r3 & cnt3 & ls3 & -> & H3 & Hp & Hh & _).
        cbn [rbind option_map rmap fst snd hd_error tl]. f_equal.
        assert (El : left_to E complete None ls3 = left_to E complete None [([], kids t)]) by (unfold left_to; rewrite Hp, Hh; reflexivity).
        rewrite <- El. eapply range_run_ok; eauto using found_end_in, complete_ec.
    Qed.

    Context (start : path) (Fs : Forall (key_in P) start).
    Context (ss : list tnode) (sc : gslice) (Hs : map tn_key ss = found t start) (Hff : found t (found t start) = found t start)
      (Hsc : sc = match skipn (length (found t start)) start with [] => None | x :: _ => x end).
    Let r0 := RIter t true ss sc es ec [] false (map (fun _ => false) es).

    Lemma childless_found k : kids t = [] -> found t k = [].
    Proof using Type. intros H. destruct k as [|x k]; [reflexivity|]. cbn [found]. unfold child. rewrite H. reflexivity. Qed.
    Lemma reached_start free q : (q <> [] -> free = Some (nth 0 q None)) -> reached E complete free 0 q.
    Proof.
      intros H. unfold reached. split; [lia|]. split; [lia|]. split; [reflexivity|]. split.
      - intros _ L. right. split; [reflexivity|]. exists (nth 0 q None). split; [|reflexivity]. apply H. destruct q; [cbn in L; lia|discriminate].
      - intros H1 H2. lia.
    Qed.
    Lemma answers_pair (x : list shown * bool) cs : answers (fst x) (snd x) cs = let (a, b) := x in answers a b cs.
    Proof using Type. now destruct x. Qed.
    Lemma skipn_pre {A} (pre rest : list A) n : length pre = n -> skipn n (pre ++ rest) = rest.
    Proof using Type. clear. intros <-. rewrite skipn_app, skipn_all, Nat.sub_diag. reflexivity. Qed.

    Lemma run_all f cs : range_run (S f) r0 cs = range_answers t start end_ cs.
    Proof.
      unfold range_answers. destruct (kids t) as [|x0 l0] eqn:Ek.
      { apply run_childless; try reflexivity.
        - cbn. rewrite (childless_found start Ek) in Hs. now destruct ss.
        - cbn. rewrite (childless_found end_ Ek) in He. now destruct es.
        - cbn. rewrite (childless_found end_ Ek) in He. now destruct es.
        - cbn. pose proof (size_kids t R) as X. rewrite Ek in X. cbn in X. lia. }
      assert (Nk : kids t <> []) by (rewrite Ek; discriminate). clear x0 l0 Ek.
      assert (Sz : (child_size t =? 0)%Z = false) by (rewrite (size_kids t R); destruct (kids t); [congruence|reflexivity]).
      fold E. fold complete.
      destruct (found t start) as [|s1 s'] eqn:Ef.
      - (* the start has no node *)
        assert (Es : ss = []) by (now destruct ss). unfold opening. rewrite Ef. cbn [leads negb length skipn] in *.
        destruct start as [|x start'].
        + cbn [andb]. unfold r0. rewrite Es. apply run_root; [exact Nk|exact Hsc].
        + pose proof (missing_key t (x :: start') x start' Fs) as Kx. rewrite Ef in Kx. specialize (Kx eq_refl). cbn [sub hd_error].
          destruct (m_range_acts t x O Kx) as (j & Ej & Aj).
          assert (Hx : exists b, x = Some b) by (destruct Kx as (b & -> & _); eauto). destruct Hx as (b & Hx).
          set (r1 := RIter t false [] sc es ec [([], j)] true (map (fun _ => false) es)).
          assert (Ec : check_start r0 = Ok r1).
          { unfold check_start, r0. cbn [ri_started ri_starts ri_start_child ri_is_root ri_root ri_paths]. rewrite Es, Hsc, Hx, Sz. cbn [negb andb].
            rewrite Hx in Ej. rewrite Ej. cbn [rbind]. unfold r1. rewrite Hsc, Hx. reflexivity. }
          rewrite (run_started (S f) r0 r1 cs Ec eq_refl).
          rewrite (run_from f cs None r1 [([], from x (kids t))]); [|discriminate|].
          * unfold from. destruct (kids t) as [|[k c] l] eqn:Ek; [congruence|]. destruct (keyb x k) eqn:Kk; cbn [negb andb].
            -- unfold left_to. cbn [hung length]. replace (Nat.ltb (length E) 1) with (Nat.leb (length E) 0) by reflexivity.
               destruct (Nat.leb (length E) 0); [reflexivity|]. cbn [pend flat_map below fst snd app Wl filter visible].
               replace (filter (fun y : shown => pathb [] (fst y) && negb (under [] (fst y))) (nodes [] t)) with (@nil shown); [reflexivity|].
               cbn [under negb]. generalize (nodes [] t). intros l1. induction l1 as [|y l1 IH]; [reflexivity|]. cbn [filter]. rewrite andb_false_r. exact IH.
            -- rewrite answers_pair. unfold left_to. cbn [hung]. unfold pend. cbn [flat_map fst snd]. rewrite app_nil_r.
               rewrite nodes_eq, Ek. cbn [skipn]. reflexivity.
          * unfold rstate, r1. cbn [ri_is_root ri_started ri_ends ri_end_child ri_matches ri_paths].
            split; [reflexivity|]. split; [reflexivity|]. split; [reflexivity|]. split; [reflexivity|]. split; [apply matches_trues|].
            split; [constructor; [split; [reflexivity|exact Aj]|constructor]|].
            cbn [inv]. split; [apply good_from; now apply good_kids|]. split; [reflexivity|]. split.
            { left. apply reached_start. intros N. now destruct N. }
            split; [|discriminate]. intros s _ N. congruence.
      - (* start nodes *)
        assert (Fk : Forall (key_in P) (s1 :: s')) by (rewrite <- Ef; now apply found_in).
        assert (Nss : ss <> []) by (intros ->; discriminate).
        destruct ss as [|n1 ss'] eqn:Ess; [congruence|]. rewrite <- Ess in *. assert (En1 : tn_key n1 = s1) by (rewrite Ess in Hs; cbn in Hs; congruence).
        destruct (m_range_acts t s1 O (Forall_inv Fk)) as (j & Ej & Aj).
        assert (Efr : from s1 (kids t) = kids t).
        { cbn [found] in Hff. destruct (child t s1) as [c1|] eqn:Ec; [|discriminate]. apply (child_in t s1 c1 O (Forall_inv Fk)) in Ec.
          unfold from. destruct (kids t) as [|[k c] l] eqn:Ek; [reflexivity|]. rewrite <- Ek in Ec.
          destruct (first_kid t s1 c1 k c l O Ec Ek) as [(_ & -> & _)|(_ & Hl)]; [now rewrite keyb_irrefl|].
          destruct (keyb_not_same _ _ Hl) as (_ & _ & ->). reflexivity. }
        rewrite Efr in Aj.
        assert (Ksc : sc <> None -> key_in P sc).
        { intros N. rewrite Hsc in *. rewrite <- Ef in *. destruct (skipn (length (found t start)) start) as [|x r] eqn:Es; [congruence|]. exact (missing_key t start x r Fs Es). }
        pose proof (start_rounds_ok ss t None [] j [] [] sc Nss O R) as SR. rewrite Hs in SR.
        specialize (SR Fk Hff Aj (Forall2_nil _) Ksc).
        assert (Ec0 : check_start r0 = let? ps := start_rounds ss sc [([], j)] in Ok (RIter t false ss sc es ec ps true (map (fun _ => false) es))).
        { unfold check_start, r0. cbn [ri_started ri_starts ri_start_child ri_is_root ri_root ri_paths]. rewrite Ess, Sz, En1, Ej. cbn [negb andb rbind].
          destruct sc; reflexivity. }
        unfold opening. rewrite Ef. destruct (leads t None (s1 :: s')) eqn:EL; cbn [negb].
        2:{ apply run_crash. rewrite Ec0. etransitivity; [|reflexivity]. match goal with |- rbind ?x _ = _ => replace x with (@Panic (list (path * iter gslice tnode))) by (symmetry; exact SR) end. reflexivity. }
        destruct SR as (ps' & Er & St).
        assert (Ec1 : check_start r0 = Ok (RIter t false ss sc es ec ps' true (map (fun _ => false) es))).
        { rewrite Ec0. match goal with |- rbind ?x _ = _ => replace x with (Ok ps') by (symmetry; exact Er) end. reflexivity. }
        clear Ec0. rename Ec1 into Ec0.
        rewrite (run_started (S f) _ _ cs Ec0 eq_refl).
        assert (Nn : s1 :: s' <> []) by discriminate.
        destruct (skipn (length (s1 :: s')) start) as [|x rr] eqn:Esk; rewrite Hsc in *; clear Hsc.
        + (* nothing is missing *)
          destruct (final_none (s1 :: s') t None [] [] Nn O R Fk Hff EL eq_refl) as (pre & n' & ls1 & H1 & H2 & H3 & H4 & H5 & H6).
          cbn [andb]. cbn [app] in H1, H4.
          rewrite (run_from f cs (match s1 :: s' with k :: _ :: _ => Some k | _ => None end) _ (final t [] (s1 :: s') None [])).
          * rewrite answers_pair. cbn [pend flat_map] in H2. rewrite app_nil_r in H2. rewrite H2. rewrite (skipn_pre pre _ _ H3).
            unfold left_to. replace (hung E (final t [] (s1 :: s') None [])) with false by (rewrite H1; cbn [hung]; destruct (kids n'); [congruence|reflexivity]).
            reflexivity.
          * intros s Hs0. destruct s' as [|s2 s']; [discriminate|]. injection Hs0 as <-. exact (Forall_inv Fk).
          * unfold rstate. cbn [ri_is_root ri_started ri_ends ri_end_child ri_matches ri_paths].
            split; [reflexivity|]. split; [reflexivity|]. split; [reflexivity|]. split; [reflexivity|]. split; [apply matches_trues|].
            split; [exact St|]. rewrite H1. cbn [inv]. split; [exact H5|]. split; [exact H4|]. split.
            { left. apply reached_start. intros N. destruct s' as [|s2 s']; [now destruct N|]. reflexivity. }
            split; [intros s _ _ _; reflexivity|]. intros s Hs0. destruct s' as [|s2 s']; [discriminate|]. injection Hs0 as <-.
            assert (Nl : ls1 <> []) by (intros ->; cbn in H4; discriminate). cbn [bottom]. destruct ls1 as [|y ls1]; [congruence|].
            exact (chain_bottom _ _ H4 Nl).
        + (* a sub key is missing *)
          rewrite <- Ef in Esk. pose proof (missing_key t start (x) rr Fs Esk) as Kx. destruct Kx as (b & Hx & Pb). subst x.
          destruct (final_some (s1 :: s') b t None [] [] Nn O R Fk Hff EL eq_refl) as (pre & c & ls1 & H1 & H2 & H3 & H4 & H5 & H6 & H7 & H8).
          rewrite H6. cbn [hd_error]. cbn [app] in *. cbn [pend flat_map] in H2. rewrite app_nil_r in H2.
          assert (Nl : ls1 <> []) by (intros ->; cbn in H4; discriminate).
          assert (Ll : length ls1 = S (length s')) by (symmetry; exact (chain_length P ls1 _ H4)).
          assert (Hu : forall q : path, hung E ((q, []) :: ls1) = Nat.leb (length E) (S (length s'))) by (intros q; rewrite <- Ll; reflexivity).
          rewrite (run_from f cs (Some s1) _ (final t [] (s1 :: s') (Some b) [])).
          * rewrite H1. unfold from. destruct (kids c) as [|[k c2] l] eqn:Ek.
            -- cbn [andb]. unfold left_to. rewrite Hu. cbn [length].
               destruct (Nat.leb (length E) (S (length s'))); [reflexivity|]. rewrite answers_pair. rewrite H2.
               rewrite (filter_after pre (s1 :: s') c _ H5); [reflexivity|]. intros y Hy. exact (chain_after ls1 _ y H4 Hy).
            -- destruct (keyb (Some b) k); cbn [negb andb].
               ++ unfold left_to. rewrite Hu. cbn [length].
                  destruct (Nat.leb (length E) (S (length s'))); [reflexivity|]. rewrite answers_pair. rewrite H2.
                  rewrite (filter_after pre (s1 :: s') c _ H5); [reflexivity|]. intros y Hy. exact (chain_after ls1 _ y H4 Hy).
               ++ rewrite answers_pair. unfold left_to. cbn [hung]. rewrite H2, nodes_eq, Ek.
                  change ((s1 :: s', tn_data c) :: below (s1 :: s') ((k, c2) :: l)) with ([(s1 :: s', tn_data c)] ++ below (s1 :: s') ((k, c2) :: l)).
                  rewrite <- app_assoc, app_assoc, (skipn_pre (pre ++ [(s1 :: s', tn_data c)])); [reflexivity|].
                  rewrite app_length, H3. cbn. lia.
          * intros s Hs0. injection Hs0 as <-. exact (Forall_inv Fk).
          * unfold rstate. cbn [ri_is_root ri_started ri_ends ri_end_child ri_matches ri_paths].
            split; [reflexivity|]. split; [reflexivity|]. split; [reflexivity|]. split; [reflexivity|]. split; [apply matches_trues|].
            split; [exact St|]. rewrite H1. cbn [inv]. split; [apply good_from; now apply good_kids|]. split; [exact H4|]. split.
            { left. apply reached_start. intros _. reflexivity. }
            split; [intros s _ _ _; reflexivity|]. intros s Hs0. injection Hs0 as <-. cbn [bottom]. destruct ls1 as [|y ls1]; [congruence|].
            exact (chain_bottom _ _ H4 Nl).
    Qed.
  End Tree.

  Definition keys_of (k : option ikey) : path := match k with None => [] | Some k => ikey_keys k end.
  Theorem range_exact t start end_ : ordered P t -> regular t -> Forall (key_in P) (keys_of start) -> Forall (key_in P) (keys_of end_) ->
    if match start, end_ with Some s, Some e => pathb (ikey_keys e) (ikey_keys s) | _, _ => false end
    then new_range_iterator t start end_ = Panic
    else exists r, new_range_iterator t start end_ = Ok r /\
           forall f cs, range_run (S f) r cs = range_answers t (keys_of start) (keys_of end_) cs.
  Proof using HP.
    intros O R Fs Fe.
    assert (X : exists r, (let? (ss, sc) := find_bound t start in let? (es, ec) := find_bound t end_ in
        Ok (RIter t true ss sc es ec [] false (map (fun _ => false) es))) = Ok r /\
      forall f cs, range_run (S f) r cs = range_answers t (keys_of start) (keys_of end_) cs).
    { assert (B : forall k, find_bound t k = find_nodes t (keys_of k)) by (intros [k|]; reflexivity). rewrite !B.
      destruct (find_nodes_ok (keys_of start) t O R Fs) as (ss & -> & S1 & S2).
      destruct (find_nodes_ok (keys_of end_) t O R Fe) as (es & -> & E1 & E2). cbn [rbind]. eexists. split; [reflexivity|].
      intros f cs. apply run_all; auto. }
    unfold new_range_iterator. destruct start as [s|], end_ as [e|]; cbn [rbind]; try exact X.
    pose proof (ikey_compare_ok s e Fs Fe) as C. destruct (ikey_compare s (OKey e)) as [c| |]; cbn [rbind]; [|destruct C|rewrite C; reflexivity].
    rewrite C. destruct (pathb (ikey_keys e) (ikey_keys s)); [reflexivity|exact X].
  Qed.
End Start.
