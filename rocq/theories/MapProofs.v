(** * Lemmas on histories of map calls. *)
From Coq Require Import List ZArith Lia.
From Verif Require Import Base AVLModel MapSpec.
Import ListNotations.

Section MapProofs.
  Context {K V : Type} (eqv : K -> K -> Prop).

  Lemma stored_snoc h op k v :
    @stored K V eqv (h ++ [op]) k v <-> op = MPut k v \/ (~ touches eqv k op /\ stored eqv h k v).
  Proof.
    split.
    - intros (h1 & h2 & E & F). destruct h2 as [|x h2 _] using rev_ind.
      + apply app_inj_tail in E. destruct E as [_ ->]. now left.
      + rewrite app_comm_cons, app_assoc in E. apply app_inj_tail in E. destruct E as [-> ->].
        rewrite Forall_app in F. destruct F as [F1 F2]. right. split; [now inversion F2|].
        exists h1, h2. split; [reflexivity|exact F1].
    - intros [->|[Ht (h1 & h2 & -> & F)]].
      + exists h, []. split; [reflexivity|constructor].
      + exists h1, (h2 ++ [op]). split; [now rewrite <- app_assoc|].
        rewrite Forall_app. split; [exact F|]. constructor; [exact Ht|constructor].
  Qed.

  Lemma stored_nil k v : ~ @stored K V eqv [] k v.
  Proof. intros (h1 & h2 & E & _). destruct h1; discriminate. Qed.

  (** A list holds the entries of a history, each key once. *)
  Definition holds (h : list (mop K V)) (l : list (K * V)) : Prop :=
    forall k v, In (k, v) l <-> stored eqv h k v.

  Context (eqv_sym : forall a b, eqv a b -> eqv b a).
  Context (eqv_trans : forall a b c, eqv a b -> eqv b c -> eqv a c).

  Lemma holds_get h l k : holds h l -> holds (h ++ [MGet k]) l.
  Proof using Type.
    clear. intros H k' v'. rewrite stored_snoc, (H k' v'). cbn [touches].
    split; [intros; right; tauto|]. intros [E|E]; [discriminate|tauto].
  Qed.

  (** Put of a key that was there: the entry is replaced. *)
  Lemma holds_put_old h l1 l2 k0 v0 k v :
    holds h (l1 ++ (k0, v0) :: l2) -> eqv k0 k ->
    Forall (fun e => ~ eqv (fst e) k0) (l1 ++ l2) ->
    holds (h ++ [MPut k v]) (l1 ++ (k, v) :: l2).
  Proof using eqv_sym eqv_trans.
    intros H He Hn k' v'. rewrite stored_snoc, <- (H k' v'). cbn [touches].
    rewrite !in_app_iff. cbn [In]. rewrite Forall_forall in Hn.
    assert (N : In (k', v') l1 \/ In (k', v') l2 -> ~ eqv k' k).
    { intros Hi E. apply (Hn (k', v')); [apply in_app_iff, Hi|]. cbn. eapply eqv_trans; [exact E|]. auto. }
    split.
    - intros [Hi|[E|Hi]].
      + right. split; [apply N; now left|now left].
      + injection E as -> ->. now left.
      + right. split; [apply N; now right|right; now right].
    - intros [E|[Hn' [Hi|[E|Hi]]]].
      + injection E as -> ->. right. now left.
      + now left.
      + injection E as -> ->. contradiction.
      + right. now right.
  Qed.

  (** Put of a new key. *)
  Lemma holds_put_new h l1 l2 k v :
    holds h (l1 ++ l2) -> Forall (fun e => ~ eqv (fst e) k) (l1 ++ l2) ->
    holds (h ++ [MPut k v]) (l1 ++ (k, v) :: l2).
  Proof using Type.
    clear. intros H Hn k' v'. rewrite stored_snoc, <- (H k' v'). cbn [touches].
    rewrite !in_app_iff. cbn [In]. rewrite Forall_forall in Hn.
    assert (N : In (k', v') l1 \/ In (k', v') l2 -> ~ eqv k' k).
    { intros Hi E. apply (Hn (k', v')); [apply in_app_iff, Hi|exact E]. }
    split.
    - intros [Hi|[E|Hi]].
      + right. split; [apply N; now left|now left].
      + injection E as -> ->. now left.
      + right. split; [apply N; now right|now right].
    - intros [E|[_ [Hi|Hi]]].
      + injection E as -> ->. right. now left.
      + now left.
      + right. now right.
  Qed.

  (** Remove of a key that was there. *)
  Lemma holds_remove_old h l1 l2 k0 v0 k :
    holds h (l1 ++ (k0, v0) :: l2) -> eqv k0 k ->
    Forall (fun e => ~ eqv (fst e) k0) (l1 ++ l2) ->
    holds (h ++ [MRemove k]) (l1 ++ l2).
  Proof using eqv_sym eqv_trans.
    intros H He Hn k' v'. rewrite stored_snoc, <- (H k' v'). cbn [touches].
    rewrite !in_app_iff. cbn [In]. rewrite Forall_forall in Hn.
    split.
    - intros Hi. right. split; [|tauto].
      intros E. apply (Hn (k', v')); [apply in_app_iff, Hi|]. cbn. eapply eqv_trans; [exact E|]. auto.
    - intros [E|[Hn' [Hi|[E|Hi]]]]; [discriminate|now left| |now right].
      injection E as -> ->. contradiction.
  Qed.

  Lemma holds_remove_new h l k :
    holds h l -> Forall (fun e => ~ eqv (fst e) k) l -> holds (h ++ [MRemove k]) l.
  Proof using Type.
    clear. intros H Hn k' v'. rewrite stored_snoc, <- (H k' v'). cbn [touches].
    rewrite Forall_forall in Hn. split.
    - intros Hi. right. split; [apply (Hn (k', v') Hi)|exact Hi].
    - intros [E|[_ Hi]]; [discriminate|exact Hi].
  Qed.

  (** A lookup among the entries held answers as the history demands. *)
  Lemma holds_entry h l k o :
    holds h l ->
    match o with
    | Some (k0, v0) => eqv k0 k /\ In (k0, v0) l
    | None => Forall (fun e => ~ eqv (fst e) k) l
    end -> entry_at eqv h k o.
  Proof using eqv_sym.
    intros H. destruct o as [[k0 v0]|]; cbn [entry_at].
    - intros [He Hi]. split; [auto|]. apply H, Hi.
    - intros Hn k' v' He Hs. apply H in Hs. rewrite Forall_forall in Hn.
      apply (Hn (k', v') Hs). auto.
  Qed.

  (** Two lists of all entries have the same length. *)
  Lemma lists_entries_le h (l1 l2 : list (K * V)) :
    (forall k, (exists v, stored eqv h k v) -> eqv k k) ->
    lists_entries eqv h l1 -> lists_entries eqv h l2 -> length l1 <= length l2.
  Proof using Type.
    clear. intros Hr [H1 P1] [H2 _]. apply NoDup_incl_length.
    - assert (R : forall e, In e l1 -> eqv (fst e) (fst e)).
      { intros [k v] Hi. apply Hr. exists v. apply H1, Hi. }
      clear H1. induction P1 as [|x l Hx Pl IH]; constructor.
      + intros Hi. rewrite Forall_forall in Hx. apply (Hx x Hi). apply R. now left.
      + apply IH. intros e Hi. apply R. now right.
    - intros [k v] Hi. apply H2, H1, Hi.
  Qed.

  Lemma lists_entries_length h (l1 l2 : list (K * V)) :
    (forall k, (exists v, stored eqv h k v) -> eqv k k) ->
    lists_entries eqv h l1 -> lists_entries eqv h l2 -> length l1 = length l2.
  Proof using Type.
    clear. intros Hr A B. pose proof (lists_entries_le h l1 l2 Hr A B).
    pose proof (lists_entries_le h l2 l1 Hr B A). lia.
  Qed.

  Lemma stored_in_history h k v : @stored K V eqv h k v -> In (MPut k v) h.
  Proof using Type. clear. intros (h1 & h2 & -> & _). apply in_app_iff. right. now left. Qed.
End MapProofs.
