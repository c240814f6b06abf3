(** * The linked tree represents the tree of AVLModel, operation by operation. *)
From Coq Require Import List ZArith Bool Lia Arith.
From Verif Require Import Base BaseProofs AVLModel AVLSpec AVLProofs AVLPtrModel.
Import ListNotations.
Local Open Scope Z_scope.

(** ** Updating a list *)
Section Upd.
  Context {A : Type}.
  Implicit Types (l : list A) (i j : nat).

  Lemma upd_length l i x : length (upd l i x) = length l.
  Proof using Type. revert i. induction l as [|y l IH]; intros [|i]; cbn; auto. Qed.

  Lemma upd_eq l i x : (i < length l)%nat -> nth_error (upd l i x) i = Some x.
  Proof using Type. revert i. induction l as [|y l IH]; intros [|i]; cbn; intros H; try lia; auto. apply IH. lia. Qed.

  Lemma upd_ne l i j x : i <> j -> nth_error (upd l i x) j = nth_error l j.
  Proof using Type. revert i j. induction l as [|y l IH]; intros [|i] [|j]; cbn; intros H; try lia; auto. Qed.

  Lemma nth_lt l i x : nth_error l i = Some x -> (i < length l)%nat.
  Proof using Type. intros H. apply nth_error_Some. congruence. Qed.

  Lemma upd_get l i x y : nth_error l i = Some y -> nth_error (upd l i x) i = Some x.
  Proof using Type. intros H. apply upd_eq. eapply nth_lt; eauto. Qed.
End Upd.

Section PtrProofs.
  Context {K V : Type} (equalb : K -> K -> res bool) (compare : K -> K -> res Z).
  Notation tree := (tree K V).
  Notation heap := (@heap K V).
  Notation cell := (@cell K V).

  (** [p] points to the root of [t] in [h]; [fp] lists the cells of the tree from left to right. *)
  Inductive rep (h : heap) : ptr -> tree -> list nat -> Prop :=
  | rep_leaf : rep h None Leaf []
  | rep_node : forall a k v b pl pr l r fl fr,
      nth_error h a = Some (Cell k v b pl pr) -> rep h pl l fl -> rep h pr r fr ->
      rep h (Some a) (Node k v b l r) (fl ++ a :: fr).

  Lemma rep_frame h h' p t fp :
    rep h p t fp -> (forall x, In x fp -> nth_error h' x = nth_error h x) -> rep h' p t fp.
  Proof using Type.
    clear. induction 1 as [|a k v b pl pr l r fl fr E Hl IHl Hr IHr]; intros F; [constructor|].
    econstructor.
    - rewrite F; [exact E|]. apply in_or_app. right. now left.
    - apply IHl. intros x Hx. apply F. apply in_or_app. now left.
    - apply IHr. intros x Hx. apply F. apply in_or_app. right. now right.
  Qed.

  Lemma rep_lt h p t fp : rep h p t fp -> forall x, In x fp -> (x < length h)%nat.
  Proof using Type.
    clear. induction 1 as [|a k v b pl pr l r fl fr E Hl IHl Hr IHr]; intros x Hx; [destruct Hx|].
    apply in_app_or in Hx. destruct Hx as [Hx|[<-|Hx]]; auto. eapply nth_lt; eauto.
  Qed.

  Lemma rep_length h p t fp : rep h p t fp -> length fp = length (inorder t).
  Proof using Type.
    clear. induction 1; cbn [inorder length]; auto. rewrite !app_length. cbn [length]. lia.
  Qed.

  (** The entries stored in the cells are the entries of the tree. *)
  Lemma rep_entries h p t fp : rep h p t fp ->
    map (fun x => option_map (fun c => (c_key c, c_val c)) (nth_error h x)) fp = map Some (inorder t).
  Proof using Type.
    clear. induction 1 as [|a k v b pl pr l r fl fr E Hl IHl Hr IHr]; cbn [inorder map]; auto.
    rewrite !map_app. cbn [map]. rewrite IHl, IHr, E. reflexivity.
  Qed.

  Lemma nodup_mid {A} (l1 l2 : list A) a : NoDup (l1 ++ a :: l2) <->
    NoDup l1 /\ NoDup l2 /\ ~ In a l1 /\ ~ In a l2 /\ (forall x, In x l1 -> In x l2 -> False).
  Proof using Type.
    clear. induction l1 as [|y l1 IH]; cbn [app In].
    - rewrite NoDup_cons_iff. split; [|tauto]. intros (H1 & H2). repeat split; auto; try constructor; intros x [].
    - rewrite !NoDup_cons_iff, IH. setoid_rewrite in_app_iff. cbn [In]. split.
      + intros (H1 & H2 & H3 & H4 & H5 & H6). repeat split; auto.
        * intros [->|H]; tauto.
        * intros x [->|Hx] Hx2; [apply H1; tauto|eauto].
      + intros ((H1 & H2) & H3 & H4 & H5 & H6). repeat split; auto.
        * intros [H|[H|H]]; [tauto| |eapply H6; eauto]. subst. tauto.
        * intros x Hx Hx2. eapply H6; eauto.
  Qed.

  (** Cells outside [fp] keep their contents; nothing is freed. *)
  Definition keeps (fp : list nat) (h h' : heap) : Prop :=
    (length h <= length h')%nat /\ forall x, (x < length h)%nat -> ~ In x fp -> nth_error h' x = nth_error h x.

  Lemma keeps_refl fp h : keeps fp h h.
  Proof using Type. clear. split; auto. Qed.
  Lemma keeps_trans fp h1 h2 h3 : keeps fp h1 h2 -> keeps fp h2 h3 -> keeps fp h1 h3.
  Proof using Type.
    clear. intros (L1 & F1) (L2 & F2). split; [lia|]. intros x Hx Hn. rewrite F2, F1; auto. lia.
  Qed.
  Lemma keeps_incl fp fp' h h' : keeps fp h h' -> incl fp fp' -> keeps fp' h h'.
  Proof using Type. clear. intros (L & F) Hi. split; auto. Qed.
  Lemma keeps_upd h a c fp : In a fp -> keeps fp h (upd h a c).
  Proof using Type.
    clear. intros Ha. split; [rewrite upd_length; auto|]. intros x _ Hn. apply upd_ne. intros ->. auto.
  Qed.

  (** The node a pointer leads to, its two subtrees, and how to put it together again. *)
  Lemma rep_inv h a t fp : rep h (Some a) t fp ->
    exists k v b l r pl pr fl fr, t = Node k v b l r /\ fp = fl ++ a :: fr /\
      nth_error h a = Some (Cell k v b pl pr) /\ rep h pl l fl /\ rep h pr r fr.
  Proof using Type. clear. intros H. inv H. do 9 eexists. repeat split; eauto. Qed.

  Lemma rep_none h t fp : rep h None t fp -> t = Leaf /\ fp = [].
  Proof using Type. clear. intros H. inv H. auto. Qed.

  Lemma rep_node_ptr h p k v b l r fp : rep h p (Node k v b l r) fp ->
    exists a pl pr fl fr, p = Some a /\ fp = fl ++ a :: fr /\
      nth_error h a = Some (Cell k v b pl pr) /\ rep h pl l fl /\ rep h pr r fr.
  Proof using Type. clear. intros H. inv H. do 5 eexists. repeat split; eauto. Qed.

  Lemma rep_leaf_ptr h p fp : rep h p Leaf fp -> p = None /\ fp = [].
  Proof using Type. clear. intros H. inv H. auto. Qed.
End PtrProofs.

(** ** Running programs *)
Lemma load_some {K V} (h : @heap K V) a c : nth_error h a = Some c -> load (Some a) h = Some (h, Ok c).
Proof. intros E. unfold load. now rewrite E. Qed.
Lemma store_some {K V} (h : @heap K V) a c f : nth_error h a = Some c -> store (Some a) f h = Some (upd h a (f c), Ok tt).
Proof. intros E. unfold store. now rewrite E. Qed.
Lemma bind_ok {K V A B} (m : @prog K V A) (f : A -> @prog K V B) h h1 a :
  m h = Some (h1, Ok a) -> hbind m f h = f a h1.
Proof. intros E. unfold hbind. now rewrite E. Qed.
Lemma bind_panic {K V A B} (m : @prog K V A) (f : A -> @prog K V B) h h1 :
  m h = Some (h1, Panic) -> hbind m f h = Some (h1, Panic).
Proof. intros E. unfold hbind. now rewrite E. Qed.
Lemma bind_err {K V A B} (m : @prog K V A) (f : A -> @prog K V B) h h1 :
  m h = Some (h1, Err) -> hbind m f h = Some (h1, Err).
Proof. intros E. unfold hbind. now rewrite E. Qed.
Lemma link_some {K V} (h : @heap K V) a c dir : nth_error h a = Some c -> link (Some a) dir h = Some (h, Ok (c_link c dir)).
Proof. intros E. unfold link, hbind, load. now rewrite E. Qed.
Lemma balance_some {K V} (h : @heap K V) a c : nth_error h a = Some c -> balance (Some a) h = Some (h, Ok (c_bal c)).
Proof. intros E. unfold balance, hbind, load. now rewrite E. Qed.

(** Cells of distinct addresses in a heap after some updates. *)
Ltac cells :=
  match goal with
  | |- nth_error (upd ?h ?a ?c) ?a = Some _ => apply upd_eq; rewrite ?upd_length; eauto using nth_lt
  | |- nth_error (upd ?h ?a ?c) ?b = _ => rewrite (upd_ne h a b c) by congruence; cells
  | |- _ => eassumption
  end.
Ltac run1 :=
  match goal with
  | |- hbind (link (Some _) _) _ _ = _ => erewrite bind_ok; [|eapply link_some; cells]
  | |- hbind (balance (Some _)) _ _ = _ => erewrite bind_ok; [|eapply balance_some; cells]
  | |- hbind (load (Some _)) _ _ = _ => erewrite bind_ok; [|eapply load_some; cells]
  | |- hbind (store (Some _) _) _ _ = _ => erewrite bind_ok; [|eapply store_some; cells]
  | |- hbind (hret _) _ _ = _ => erewrite bind_ok; [|reflexivity]
  end; cbn [c_link c_bal c_key c_val c_l c_r with_link with_bal with_entry opp negb].
Ltac run := repeat run1.
