(** * Equal and Compare of comparable wrappers, nested to any depth, with nils anywhere. *)
From Coq Require Import List NArith ZArith Bool Lia.
From Coq Require Import Strings.Byte.
From Verif Require Import Base BaseProofs CmpModel CmpSpec CmpProofs CompModel CompSpec CompProofs.
Import ListNotations.
Local Open Scope Z_scope.

(** C81: Equal answers true exactly on equal content and panics exactly on the traps. *)
Theorem C81_exact : forall r t,
  (comp_equal r t = Ok true <-> (r <> VNone /\ alike r t) \/ (exists k, r = VNilPtr k) /\ t = VNone) /\
  (comp_equal r t = Panic <-> equal_trap r t) /\
  comp_equal r t <> Err.
Proof.
  intros r t. destruct (is_none r) eqn:E.
  - apply is_none_true in E. subst. cbn. split; [|split; [|discriminate]].
    + split; [discriminate|]. intros [[H _]|[[k H] _]]; congruence.
    + split; [constructor|reflexivity].
  - assert (N : r <> VNone) by (intros ->; discriminate).
    destruct (equal_exact_all r N t) as (A & B & C). split; [|split; assumption].
    rewrite A. tauto.
Qed.
Print Assumptions C81_exact.

(** A list that holds a list that holds byte slices, nil interfaces included. *)
Definition nest : cval :=
  VList (Some [VNums 0 (Some [1; 2]); VNone; VList (Some [VBytes (Some [x01; x02]); VBytes None])]).

Example C81_exact_applies :
  comp_equal nest nest = Ok true /\
  comp_equal nest (VList (Some [VNums 0 (Some [1; 2]); VNone; VList (Some [VBytes (Some [x01; x02]); VBytes (Some [])])]))
    = Ok false /\
  comp_equal (VList (Some [nest; VBytes None])) (VList (Some [nest; VNilPtr KBytes])) = Panic /\
  comp_equal (VNilPtr KList) VNone = Ok true /\ comp_equal VNone VNone = Panic.
Proof. repeat split; vm_compute; reflexivity. Qed.

(** The intended statement, "Equal never panics and is symmetric", is false. *)
Theorem C81_refuted :
  (exists r t, comp_equal r t = Panic /\ comp_equal t r = Ok false) /\
  (exists r t, comp_equal r t = Ok true /\ comp_equal t r = Panic) /\
  (exists k, comp_equal (VNilPtr k) (VNilPtr k) = Ok false).
Proof.
  split; [|split].
  - exists (VBytes (Some [x01])), (VNilPtr KBytes). split; reflexivity.
  - exists (VNilPtr KList), VNone. split; reflexivity.
  - exists KList. reflexivity.
Qed.
Print Assumptions C81_refuted.

(** No nil pointer in the value; nil interfaces may occur inside lists. *)
Inductive no_nil_pointer : cval -> Prop :=
| nnp_none : no_nil_pointer VNone
| nnp_bytes s : no_nil_pointer (VBytes s)
| nnp_nums k s : no_nil_pointer (VNums k s)
| nnp_list0 : no_nil_pointer (VList None)
| nnp_list l : Forall no_nil_pointer l -> no_nil_pointer (VList (Some l)).

Lemma no_trap r : forall t, r <> VNone -> no_nil_pointer t -> ~ equal_trap r t.
Proof.
  induction r as [|k|s|k s| |l IH] using cval_rect'; intros t N H T; inv T; try congruence; try (now inversion H).
  rewrite Forall_app, Forall_cons_iff in IH. destruct IH as (_ & Hx & _).
  inv H. match goal with K : Forall no_nil_pointer _ |- _ => rewrite Forall_app, Forall_cons_iff in K; destruct K as (_ & Hy & _) end.
  eapply Hx; eauto.
Qed.

Lemma alike_refl v : no_nil_pointer v -> alike v v.
Proof.
  induction v as [|k|s|k s| |l IH] using cval_rect'; intros H; try (constructor; fail).
  - inversion H.
  - constructor. constructor.
  - constructor. inv H. revert IH H1. induction l as [|x l I]; intros IH H; [constructor|].
    inv IH. inv H. constructor; auto.
Qed.

Lemma alike_sym v : forall w, alike v w -> alike w v.
Proof.
  induction v as [|k|s|k s| |l IH] using cval_rect'; intros w H; inv H; try (constructor; fail).
  - constructor. match goal with K : alikes [] _ |- _ => inv K end. constructor.
  - constructor. match goal with K : alikes l _ |- _ => revert K end.
    generalize (match s' with Some l => l | None => [] end) as m. clear s'.
    induction IH as [|x l Hx Hl I]; intros m K; inv K; constructor; auto.
Qed.

Lemma alike_trans v : forall w u, alike v w -> alike w u -> alike v u.
Proof.
  induction v as [|k|s|k s| |l IH] using cval_rect'; intros w u H K; inv H; inv K; try (constructor; fail).
  - constructor. match goal with K : alikes [] _ |- _ => inv K end.
    match goal with A : [] = ?x, B : alikes ?x _ |- _ => rewrite <- A in B end. assumption.
  - constructor.
    match goal with A : alikes l ?x, B : alikes ?x ?y |- _ => revert A B; generalize x y end. clear s' s'0.
    induction IH as [|x l Hx Hl I]; intros m n A B; inv A; inv B; constructor; eauto.
Qed.

(** Without nil pointers Equal always answers and is an equivalence that means equal content. *)
Theorem C81_partial :
  (forall r t, r <> VNone -> no_nil_pointer r -> no_nil_pointer t ->
     (alike r t /\ comp_equal r t = Ok true) \/ (~ alike r t /\ comp_equal r t = Ok false)) /\
  (forall r, r <> VNone -> no_nil_pointer r -> comp_equal r r = Ok true) /\
  (forall r t, no_nil_pointer r -> no_nil_pointer t -> r <> VNone -> t <> VNone -> comp_equal r t = comp_equal t r) /\
  (forall r t u, no_nil_pointer r -> no_nil_pointer t ->
     comp_equal r t = Ok true -> comp_equal t u = Ok true -> comp_equal r u = Ok true).
Proof.
  assert (M : forall r t, r <> VNone -> no_nil_pointer r -> no_nil_pointer t ->
     (alike r t /\ comp_equal r t = Ok true) \/ (~ alike r t /\ comp_equal r t = Ok false)).
  { intros r t N Hr Ht. destruct (C81_exact r t) as (A & B & C).
    destruct (comp_equal r t) as [[]| |].
    - left. split; [|reflexivity]. destruct (proj1 A eq_refl) as [[_ H]|[[k ->] _]]; [assumption|inversion Hr].
    - right. split; [|reflexivity]. intros H.
      assert (Ok false = Ok true) by (apply A; auto). discriminate.
    - congruence.
    - exfalso. eapply no_trap; eauto. now apply B. }
  split; [exact M|]. split; [|split].
  - intros r N H. destruct (M r r N H H) as [[_ K]|[K _]]; [assumption|]. exfalso. auto using alike_refl.
  - intros r t Hr Ht N N'. destruct (M r t N Hr Ht) as [[A ->]|[A ->]], (M t r N' Ht Hr) as [[B ->]|[B ->]];
      try reflexivity; exfalso; eauto using alike_sym.
  - intros r t u Hr Ht H1 H2. apply C81_exact in H1, H2. apply C81_exact.
    destruct H1 as [[N1 H1]|[[k ->] _]]; [|inversion Hr].
    destruct H2 as [[N2 H2]|[[k ->] _]]; [|inversion Ht].
    left. split; [assumption|]. eapply alike_trans; eauto.
Qed.
Print Assumptions C81_partial.

Example C81_partial_applies :
  no_nil_pointer nest /\ no_nil_pointer (VList None) /\ nest <> VNone /\
  comp_equal (VList None) (VList (Some [])) = Ok true /\ comp_equal (VList (Some [])) (VList None) = Ok true.
Proof.
  split; [repeat (constructor || apply Forall_cons || apply Forall_nil)|].
  split; [constructor|]. split; [discriminate|]. split; reflexivity.
Qed.

(** C82: values without nil anywhere compare lexicographically at every depth. *)
Theorem C82_exact : forall a b, solid a -> solid b ->
  (comp_compare a b = Ok (-1) <-> below a b) /\
  (comp_compare a b = Ok 0 <-> a = b) /\
  (comp_compare a b = Ok 1 <-> below b a /\ ~ clash a b) /\
  (comp_compare a b = Panic <-> clash a b).
Proof.
  intros a b Ha Hb. destruct (compare_exact_all a Ha b Hb) as (A1 & A2 & A3 & A4 & A5 & A6).
  split; [exact A1|]. split; [exact A2|]. split; [|exact A3]. split.
  - intros H. split; [auto|]. intros C. apply A3 in C. congruence.
  - intros [H N]. destruct (A5 H) as [|E]; [assumption|]. apply A3 in E. contradiction.
Qed.
Print Assumptions C82_exact.

Definition deep (l : list byte) (z : Z) : cval :=
  VList (Some [VNums 3 (Some [5; 7]); VList (Some [VBytes (Some l); VNums 3 (Some [z])])]).

Example C82_exact_applies :
  solid (deep [x01] 4) /\ solid (deep [x01; x02] 4) /\
  comp_compare (deep [x01] 4) (deep [x01; x02] 4) = Ok (-1) /\
  comp_compare (deep [x01; x02] 4) (deep [x01] 4) = Panic /\
  comp_compare (deep [x01] 5) (deep [x01] 4) = Ok 1 /\
  comp_compare (deep [x01] 4) (deep [x01] 4) = Ok 0 /\
  comp_compare (deep [x01] 4) (VBytes (Some [x01])) = Panic.
Proof.
  split; [repeat constructor|]. split; [repeat constructor|]. repeat split; vm_compute; reflexivity.
Qed.

(** Nils at the top: the complete table. *)
Theorem C82_nil_exact :
  (forall c, comp_compare VNone c = Panic) /\
  (forall k c, comp_compare (VNilPtr k) c = Panic) /\
  (forall c r, (r = VBytes None \/ (exists k, r = VNums k None) \/ r = VList None) ->
     comp_compare r c = Ok (if match c with VNone | VNilPtr _ => true | _ => false end then 0 else -1)) /\
  (forall c r, (c = VNone \/ exists k, c = VNilPtr k) ->
     ((exists l, r = VBytes (Some l)) \/ (exists k l, r = VNums k (Some l)) \/ (exists l, r = VList (Some l))) ->
     comp_compare r c = Ok 1) /\
  (forall l, comp_compare (VBytes (Some l)) (VBytes None) = Ok 1) /\
  (forall k l, comp_compare (VNums k (Some l)) (VNums k None) = Ok 1) /\
  (forall l, comp_compare (VList (Some l)) (VList None) = Ok 1) /\
  (forall r c, ((exists l, r = VBytes (Some l)) \/ (exists k l, r = VNums k (Some l)) \/ (exists l, r = VList (Some l))) ->
     c <> VNone -> (forall k, c <> VNilPtr k) -> kind_of r <> kind_of c -> comp_compare r c = Panic).
Proof.
  split; [reflexivity|]. split; [reflexivity|]. split.
  { intros c r [-> | [[k ->] | ->]]; destruct c as [| | |k' s|]; try reflexivity.
    cbn. destruct (Nat.eqb k k'); reflexivity. }
  split.
  { intros c r [-> | [k ->]] [[l ->] | [[k' [l ->]] | [l ->]]]; reflexivity. }
  split; [reflexivity|]. split.
  { intros k l. cbn. rewrite Nat.eqb_refl. reflexivity. }
  split; [reflexivity|].
  intros r c Hr N P K. destruct c as [|k|s|k s|s]; try congruence;
    destruct Hr as [[l ->] | [[k' [l ->]] | [l ->]]]; cbn in *; try congruence.
  destruct (Nat.eqb_spec k' k); [congruence|reflexivity].
Qed.
Print Assumptions C82_nil_exact.

(** Two non-nil lists, whatever they hold: the first pair of elements that is not equal decides. *)
Theorem C82_list_exact : forall l m o,
  comp_compare (VList (Some l)) (VList (Some m)) = o <-> list_outcome comp_compare l m o.
Proof.
  intros l m o. rewrite comp_compare_list. split; [intros <-; apply cmp_walk_outcome|apply outcome_cmp_walk].
Qed.
Print Assumptions C82_list_exact.

Example C82_list_exact_applies :
  comp_compare (VList (Some [VBytes None; VNilPtr KList])) (VList (Some [VNone; VNone])) = Panic /\
  comp_compare (VList (Some [VBytes None; VBytes (Some [])])) (VList (Some [VNilPtr KList; VNone])) = Ok 1.
Proof. split; reflexivity. Qed.

(** The intended statement, "Compare always answers and agrees with Equal", is false. *)
Theorem C82_refuted :
  (exists a b, solid a /\ solid b /\ comp_compare a b = Panic /\ comp_compare b a = Ok (-1)) /\
  (exists a b, comp_equal a b = Ok true /\ comp_compare a b = Ok (-1) /\ comp_compare b a = Ok 1) /\
  (exists a, comp_equal a a = Ok true /\ comp_compare a a = Ok (-1)) /\
  (exists a b, comp_compare a b = Ok 0 /\ comp_equal a b = Ok false).
Proof.
  split; [|split; [|split]].
  - exists (VList (Some [VBytes (Some [])])), (VList (Some [])).
    split; [repeat constructor|]. split; [repeat constructor|]. split; reflexivity.
  - exists (VList None), (VList (Some [])). repeat split; reflexivity.
  - exists (VBytes None). split; reflexivity.
  - exists (VBytes None), VNone. split; reflexivity.
Qed.
Print Assumptions C82_refuted.

Lemma solid_no_nil v : solid v -> no_nil_pointer v /\ v <> VNone.
Proof.
  induction v as [|k|s|k s| |l IH] using cval_rect'; intros H; inv H; (split; [|discriminate]); try constructor.
  match goal with K : Forall solid l |- _ => revert K end.
  induction IH as [|x l Hx Hl I]; intros K; [constructor|]. inv K. constructor; [now apply Hx|auto].
Qed.

Lemma solid_alike v : forall w, solid v -> solid w -> alike v w -> v = w.
Proof.
  induction v as [|k|s|k s| |l IH] using cval_rect'; intros w Sv Sw A; inv A; try congruence; try (now inversion Sv).
  inv Sv. inv Sw. do 2 f_equal.
  match goal with K : alikes l ?m, F1 : Forall solid l, F2 : Forall solid ?m |- _ => revert m K F1 F2 end.
  induction IH as [|x l Hx Hl I]; intros m K F1 F2; inv K; [reflexivity|]. inv F1. inv F2. f_equal; auto.
Qed.

(** Where the answers are given they form an order that agrees with Equal. *)
Theorem C82_partial : forall a b c, solid a -> solid b -> solid c ->
  (comp_compare a b = Ok 0 <-> comp_equal a b = Ok true) /\
  comp_compare a a = Ok 0 /\
  (comp_compare a b = Ok (-1) -> comp_compare b a = Ok 1 \/ comp_compare b a = Panic) /\
  (comp_compare a b = Ok 1 -> comp_compare b a = Ok (-1)) /\
  (comp_compare a b = Panic -> kind_of a = kind_of b -> forall k, kind_of a = Some k ->
     match k with KBytes | KNums _ => comp_compare b a = Ok (-1) | KList => True end) /\
  (comp_compare a b = Ok (-1) -> comp_compare b c = Ok (-1) -> comp_compare a c = Ok (-1)).
Proof.
  intros a b c Sa Sb Sc.
  destruct (C82_exact a b Sa Sb) as (A1 & A2 & A3 & A4).
  destruct (C82_exact b a Sb Sa) as (B1 & B2 & B3 & B4).
  split; [|split; [|split; [|split; [|split]]]].
  - rewrite A2. destruct (solid_no_nil a Sa) as [Na Za]. destruct (solid_no_nil b Sb) as [Nb Zb].
    split.
    + intros ->. now apply C81_partial.
    + intros H. apply C81_exact in H. destruct H as [[_ H]|[[k ->] _]]; [|inversion Sa].
      now apply solid_alike.
  - now apply C82_exact.
  - intros H. apply A1 in H. destruct (compare_exact_all b Sb a Sa) as (_ & _ & _ & _ & K & _). auto.
  - intros H. apply A3 in H. apply B1. tauto.
  - intros H K k Hk. apply A4 in H. destruct k; auto; apply B1; inv Sa; cbn in Hk; try discriminate;
      inv Sb; cbn in K; try discriminate; inv H; cbn in *; try congruence; constructor;
      eapply proper_prefix_lt; assumption.
  - intros H1 H2. apply A1 in H1. apply (C82_exact b c Sb Sc) in H2. apply (C82_exact a c Sa Sc).
    eapply below_trans_all; eauto.
Qed.
Print Assumptions C82_partial.

Example C82_partial_applies :
  solid (deep [x01] 3) /\ solid (deep [x01] 4) /\ solid (deep [x02] 0) /\
  comp_compare (deep [x01] 3) (deep [x01] 4) = Ok (-1) /\ comp_compare (deep [x01] 4) (deep [x02] 0) = Ok (-1).
Proof.
  repeat (split; [repeat constructor|]). split; vm_compute; reflexivity.
Qed.
