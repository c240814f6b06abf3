(** * Proofs about iterators over tries: map iterators as lists, the key iterator, order of nodes. *)
From Coq Require Import List ZArith Bool Lia.
From Coq Require Import Strings.Byte.
From Verif Require Import Base CmpSpec CmpModel ValueModel AVLModel AVLSpec AVLIter TrieModel TrieIterModel TrieIterSpec.
Import ListNotations.
Local Open Scope nat_scope.

(** ** Iterators over children as lists *)

Definition sim (A : iter gslice tnode -> list (gslice * tnode) -> Prop) : Prop :=
  forall i l, A i l -> exists i1, advance ck_compare i = Ok i1 /\ A i1 l /\ wf i1 /\
    match l with
    | [] => it_curr i1 = Leaf
    | (k, v) :: l' => (exists b lt r, it_curr i1 = Node k v b lt r) /\
        A (mk_iter (it_paths i1) (it_curr i1) 1 (it_start i1) (it_end i1)) l'
    end.
Definition acts (i : iter gslice tnode) (l : list (gslice * tnode)) : Prop := exists A, sim A /\ A i l.

Definition more {A} (l : list A) : bool := match l with [] => false | _ => true end.

Lemma acts_has i l : acts i l -> exists i1, m_has i = Ok (i1, more l) /\ acts i1 l.
Proof.
  intros (A & S & H). destruct (S i l H) as (i1 & E & H1 & W & C). exists i1. split; [|exists A; auto].
  unfold m_has, it_has_next. rewrite E. cbn [rbind]. rewrite (is_empty_curr i1 W). destruct l as [|[k v] l].
  - rewrite C. reflexivity.
  - destruct C as [(b & lt & r & ->) _]. reflexivity.
Qed.
Lemma acts_peek i k c l : acts i ((k, c) :: l) -> exists i1, m_peek i = Ok (i1, c) /\ acts i1 ((k, c) :: l).
Proof.
  intros (A & S & H). destruct (S i _ H) as (i1 & E & H1 & W & C). exists i1. split; [|exists A; auto].
  unfold m_peek, it_peek. rewrite E. cbn [rbind]. rewrite (is_empty_curr i1 W).
  destruct C as [(b & lt & r & ->) _]. reflexivity.
Qed.
Lemma acts_peek_nil i : acts i [] -> m_peek i = Panic.
Proof.
  intros (A & S & H). destruct (S i _ H) as (i1 & E & H1 & W & C).
  unfold m_peek, it_peek. rewrite E. cbn [rbind]. rewrite (is_empty_curr i1 W), C. reflexivity.
Qed.
Lemma acts_next i k c l : acts i ((k, c) :: l) -> exists i1, m_next i = Ok (i1, c) /\ acts i1 l.
Proof.
  intros (A & S & H). destruct (S i _ H) as (i1 & E & H1 & W & C).
  unfold m_next, it_next. rewrite E. cbn [rbind]. rewrite (is_empty_curr i1 W).
  destruct C as [(b & lt & r & Ec) H2]. rewrite Ec in *. cbn [node_entry rbind].
  eexists. split; [reflexivity|]. exists A. auto.
Qed.
Lemma iter_acts n : exists i, m_iter n = Ok i /\ acts i (kids n).
Proof.
  unfold m_iter. destruct (new_iter_full ck_compare (avl_root (tn_children n))) as (i & E & H). exists i. split; [exact E|].
  exists full_state. split; [|exact H]. intros j l. apply full_advance.
Qed.

(** A stack of iterators as a stack of lists. *)
Notation todo := (path * list (gslice * tnode))%type.
Definition stands (ps : list level) (ls : list todo) : Prop := Forall2 (fun x y => fst x = fst y /\ acts (snd x) (snd y)) ps ls.

(** ** Nodes *)

Definition below (p : path) (l : list (gslice * tnode)) : list shown := flat_map (fun kc => nodes (p ++ [fst kc]) (snd kc)) l.
Lemma nodes_eq p n : nodes p n = (p, tn_data n) :: below p (kids n).
Proof.
  destruct n as [k d ch]. unfold below, kids. cbn [nodes tn_data tn_children]. f_equal.
  destruct ch as [t z]. cbn [avl_root]. induction t as [|x c b l IHl r IHr]; [reflexivity|].
  cbn [inorder]. rewrite flat_map_app. cbn [flat_map fst snd]. rewrite <- IHl, <- IHr. reflexivity.
Qed.
Definition pend (ls : list todo) : list shown := flat_map (fun y => below (fst y) (snd y)) ls.

Lemma tnode_kids_ind (P : tnode -> Prop) : (forall n, (forall k c, In (k, c) (kids n) -> P c) -> P n) -> forall n, P n.
Proof.
  intros H. fix IH 1. intros [k d ch]. apply H. unfold kids. cbn [tn_children]. destruct ch as [t z]. cbn [avl_root].
  induction t as [|x c b l IHl r IHr]; cbn [inorder]; intros k' c' Hin; [destruct Hin|].
  apply in_app_iff in Hin. destruct Hin as [Hin|[Hin|Hin]].
  - exact (IHl k' c' Hin).
  - replace c' with c by congruence. apply IH.
  - exact (IHr k' c' Hin).
Qed.

(** ** The key iterator *)

Lemma drop_done_ok ps ls : stands ps ls -> exists ps' ls', drop_done ps = Ok ps' /\ stands ps' ls' /\ pend ls' = pend ls /\
  (forall y ls0, ls' = y :: ls0 -> snd y <> []) /\ (forall y, In y ls' -> In y ls).
Proof.
  intros H. induction H as [|[p i] [q l] ps ls [E A] H IH].
  - exists [], []. repeat split; auto. constructor. discriminate.
  - cbn [fst snd] in *. subst q. cbn [drop_done]. destruct (acts_has i l A) as (i1 & -> & A1). cbn [rbind].
    destruct l as [|[k c] l]; cbn [more].
    + destruct IH as (ps' & ls' & -> & S & P & N & I). exists ps', ls'. repeat split; auto. intros y Hy. right. auto.
    + exists ((p, i1) :: ps), ((p, (k, c) :: l) :: ls). repeat split; auto.
      * constructor; auto.
      * intros y ls0 Hy. injection Hy as <- _. discriminate.
Qed.

Definition reg_todo (y : todo) : Prop := forall k c, In (k, c) (snd y) -> tn_key c = k /\ regular c.
Lemma regular_kids n : regular n -> forall p, reg_todo (p, kids n).
Proof. intros [m _ H] p. exact H. Qed.
Lemma size_kids n : regular n -> (child_size n =? 0)%Z = negb (more (kids n)).
Proof. intros [m H _]. unfold child_size. rewrite H. destruct (kids m); cbn; [reflexivity|]. lia. Qed.
Lemma push_ok p n ps ls : regular n -> stands ps ls -> Forall reg_todo ls ->
  exists ps' ls', push p n ps = Ok ps' /\ stands ps' ls' /\ Forall reg_todo ls' /\ pend ls' = below p (kids n) ++ pend ls /\
    ls' = match kids n with [] => ls | _ => (p, kids n) :: ls end.
Proof.
  intros R S F. unfold push. rewrite (size_kids n R). destruct (kids n) as [|x l] eqn:E; cbn [more negb].
  - exists ps, ls. repeat split; auto.
  - destruct (iter_acts n) as (j & -> & A). cbn [rbind]. exists ((p, j) :: ps), ((p, x :: l) :: ls). repeat split; auto.
    + constructor; auto. split; [reflexivity|]. cbn. rewrite <- E. exact A.
    + constructor; auto. rewrite <- E. apply regular_kids, R.
Qed.

(** State of a key iterator that has [l] to go. *)
Definition key_state (t : titer) (l : list shown) : Prop :=
  exists ls, stands (ti_paths t) ls /\ Forall reg_todo ls /\
    match ti_curr t with
    | Some (p, n) => regular n /\ l = nodes p n ++ pend ls
    | None => l = pend ls
    end.

Lemma key_advance t l : key_state t l -> exists t', ti_advance t = Ok t' /\ ti_curr t' = ti_curr t /\
  exists ls, stands (ti_paths t') ls /\ Forall reg_todo ls /\
    match ti_curr t with
    | Some (p, n) => regular n /\ l = nodes p n ++ pend ls
    | None => l = pend ls /\ (forall y ls0, ls = y :: ls0 -> snd y <> [])
    end.
Proof.
  intros (ls & S & F & H). unfold ti_advance. destruct (ti_curr t) as [[p n]|] eqn:E.
  - exists t. split; [reflexivity|]. split; [exact E|]. exists ls. auto.
  - destruct (drop_done_ok _ _ S) as (ps' & ls' & -> & S' & P & N & I). cbn [rbind]. eexists. split; [reflexivity|].
    split; [reflexivity|]. exists ls'. split; [exact S'|]. split; [|split; [congruence|exact N]].
    rewrite Forall_forall in *. auto.
Qed.

Lemma key_step_ok t l c : key_state t l -> exists t', key_step t c = Ok (t',
    match c with CHasNext => OHas (negb (more l)) | CPeek => OPeek (hd_error l) | CNext => ONext (hd_error l) end) /\
  key_state t' (match c with CNext => tl l | _ => l end).
Proof.
  intros H. destruct (key_advance t l H) as (t' & E & Ec & ls & S & F & C).
  assert (K : key_state t' l). { exists ls. rewrite Ec. destruct (ti_curr t) as [[p n]|]; (split; [exact S|]); (split; [exact F|]); [exact C|exact (proj1 C)]. }
  destruct (ti_curr t) as [[p n]|].
  - destruct C as [R L]. rewrite nodes_eq in L. destruct c; cbn [key_step].
    + unfold key_has_next. rewrite E. cbn [rbind]. rewrite Ec. subst l. eexists. split; [reflexivity|exact K].
    + unfold key_peek. rewrite E. cbn [rbind]. rewrite Ec. subst l. eexists. split; [reflexivity|exact K].
    + unfold key_next. rewrite E. cbn [rbind]. rewrite Ec.
      destruct (push_ok p n _ _ R S F) as (ps' & ls' & -> & S' & F' & P & _). cbn [rbind]. eexists. subst l. split; [reflexivity|].
      exists ls'. cbn [ti_paths ti_curr]. split; [exact S'|]. split; [exact F'|]. rewrite P. reflexivity.
  - destruct C as [L N].
    assert (Q : (ti_paths t' = [] /\ ls = []) \/ exists p i k c0 l0 ps ls0, ti_paths t' = (p, i) :: ps /\ ls = (p, (k, c0) :: l0) :: ls0 /\
        acts i ((k, c0) :: l0) /\ stands ps ls0).
    { destruct S as [|[p i] [q l0] ps ls0 [Eq A] S]; [now left|right]. cbn in Eq. subst q. cbn [snd] in A.
      destruct l0 as [|[k c0] l0]; [exfalso; exact (N _ _ eq_refl eq_refl)|]. exists p, i, k, c0, l0, ps, ls0. auto. }
    destruct Q as [[Q1 Q2]|(p & i & k & c0 & l0 & ps & ls0 & Q1 & Q2 & A & S0)].
    + subst ls. cbn in L. subst l. destruct c; cbn [key_step]; unfold key_has_next, key_peek, key_next; rewrite E; cbn [rbind];
        rewrite Ec, Q1; cbn [key_peek_loop key_next_loop rbind]; eexists; (split; [reflexivity|]); try exact K;
        exists []; repeat split; constructor.
    + subst ls. cbn [pend flat_map fst snd] in L. unfold below in L. cbn [flat_map fst snd] in L. rewrite nodes_eq in L.
      inversion F as [|? ? F0 F1]; subst. destruct (F0 k c0 (or_introl eq_refl)) as [Ek R].
      destruct (acts_has i _ A) as (i1 & Eh & A1). destruct c; cbn [key_step].
      * unfold key_has_next. rewrite E. cbn [rbind]. rewrite Ec, Q1. eexists. split; [reflexivity|exact K].
      * unfold key_peek. rewrite E. cbn [rbind]. rewrite Ec, Q1. cbn [key_peek_loop]. rewrite Eh. cbn [rbind more].
        destruct (acts_peek i1 _ _ _ A1) as (i2 & -> & A2). cbn [rbind]. rewrite Ek. eexists. split; [reflexivity|].
        exists ((p, (k, c0) :: l0) :: ls0). cbn [ti_paths ti_curr]. repeat split; auto.
        -- constructor; auto.
        -- unfold pend, below. cbn [flat_map fst snd]. rewrite nodes_eq. reflexivity.
      * unfold key_next. rewrite E. cbn [rbind]. rewrite Ec, Q1. cbn [key_next_loop]. rewrite Eh. cbn [rbind more].
        destruct (acts_next i1 _ _ _ A1) as (i2 & -> & A2). cbn [rbind]. rewrite Ek.
        destruct (push_ok (p ++ [k]) c0 ((p, i2) :: ps) ((p, l0) :: ls0) R) as (ps' & ls' & -> & S' & F' & P & _).
        { constructor; auto. }
        { constructor; auto. intros k' c' Hin. apply F0. now right. }
        cbn [rbind]. eexists. split; [reflexivity|]. exists ls'. cbn [ti_paths ti_curr]. repeat split; auto.
        rewrite P. cbn [tl app]. unfold pend, below. cbn [flat_map fst snd]. now rewrite !app_assoc.
Qed.

Lemma key_run_ok cs : forall t l, key_state t l -> key_run t cs = Ok (backward_answers l cs).
Proof.
  induction cs as [|c cs IH]; intros t l H; [reflexivity|]. cbn [key_run].
  destruct (key_step_ok t l c H) as (t' & -> & H'). cbn [rbind]. rewrite (IH _ _ H'). cbn [rbind].
  destruct c, l; reflexivity.
Qed.
