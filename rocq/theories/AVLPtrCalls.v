(** * Put, Remove and Get as called by a client. *)
From Coq Require Import List ZArith Bool Lia Arith.
From Verif Require Import Base BaseProofs AVLModel AVLSpec AVLProofs AVLHistory AVLPtrModel AVLPtrProofs AVLPtrRot AVLPtrOps AVLPtrPut
  AVLPtrRemove AVLPtrSpec.
Import ListNotations.
Local Open Scope Z_scope.

Section Calls.
  Context {K V : Type} (equalb : K -> K -> res bool) (compare : K -> K -> res Z).
  Notation tree := (tree K V).
  Notation heap := (@heap K V).

  (** What a call does to the heap when the cells in use go from [fp] to [fp']. *)
  Record change (h h' : heap) (fp fp' : list nat) : Prop := {
    ch_keeps : keeps fp h h';
    ch_new : forall x, In x fp' -> In x fp \/ (length h <= x)%nat;
    ch_dead : forall x, In x fp -> ~ In x fp' -> nth_error h' x = nth_error h x;
    ch_blank : forall x c, (length h <= x)%nat -> nth_error h' x = Some c -> In x fp' \/ (c_l c = None /\ c_r c = None)
  }.

  Lemma change_refl h fp : change h h fp fp.
  Proof using Type.
    clear. constructor; [apply keeps_refl|auto|contradiction|]. intros x c Hx Hc. pose proof (nth_lt _ _ _ Hc). lia.
  Qed.

  Definition put_prog n (t : ptree) (k : option K) (v : V) : @prog K V (ptree * pobs K V) :=
    hbind (p_put equalb compare n t k v) (fun '(t', node) => hbind (p_entry node) (fun e => hret (t', POEntry e))).
  Definition remove_prog n (t : ptree) (k : option K) : @prog K V (ptree * pobs K V) :=
    hbind (p_remove equalb compare n t k) (fun '(t', node) => hbind (p_entry node) (fun e => hret (t', POEntry e))).
  Definition get_prog n (t : ptree) (k : K) : @prog K V (ptree * pobs K V) :=
    hbind (p_get equalb compare n t k) (fun node => hbind (p_entry node) (fun e => hret (t, POEntry e))).

  Lemma put_call (h : heap) p z (t : tree) fp n k v :
    rep h p t fp -> NoDup fp -> bal t -> (height t < n)%nat ->
    match avl_put equalb compare (mk_avl t z) (Some k) v with
    | Ok (T', o) => exists h' p' fp', put_prog n (p, z) (Some k) v h = Some (h', Ok ((p', avl_size T'), POEntry o)) /\
        rep h' p' (avl_root T') fp' /\ NoDup fp' /\ bal (avl_root T') /\ change h h' fp fp' /\
        (o <> None -> p' = p /\ fp' = fp /\ same_links h h')
    | Err => put_prog n (p, z) (Some k) v h = Some (h, Err)
    | Panic => put_prog n (p, z) (Some k) v h = Some (h, Panic)
    end.
  Proof using Type.
    intros R N B Hn. rewrite avl_put_root. cbn [avl_root avl_size].
    pose proof (putR_ref equalb compare k v t h p fp n R N B Hn) as H. unfold putR_spec in H.
    unfold put_prog, p_put. cbn [fst snd].
    destruct t as [|tk tv tb tl tr].
    - destruct (rep_leaf_ptr _ _ _ R) as (-> & ->). cbn [putR] in *. cbn [rbind].
      exists (h ++ [Cell k v 0 None None]), (Some (length h)), [length h]. split; [reflexivity|]. cbn [avl_root].
      split; [|split; [|split; [|split]]].
      + change [length h] with ([] ++ length h :: []). eapply rep_node; [|apply rep_leaf|apply rep_leaf].
        rewrite nth_error_app2 by lia. now rewrite Nat.sub_diag.
      + repeat constructor. auto.
      + cbn. lia.
      + constructor.
        * split; [rewrite app_length; lia|]. intros x Hx _. now apply nth_error_app1.
        * intros x [<-|[]]. auto.
        * intros x [].
        * intros x c Hx Hc. left. rewrite nth_error_app2 in Hc by exact Hx. destruct (x - length h)%nat as [|[|]] eqn:E; inv Hc.
          left. lia.
      + congruence.
    - destruct (rep_node_ptr _ _ _ _ _ _ _ _ R) as (a & _ & _ & _ & _ & -> & _).
      set (t := Node tk tv tb tl tr) in *.
      destruct (putR equalb compare k v t) as [[[t' o] done]| |]; cbn [rbind].
      2:{ rewrite (bind_err _ _ _ h); [reflexivity|]. now rewrite (bind_err _ _ _ _ H). }
      2:{ rewrite (bind_panic _ _ _ h); [reflexivity|]. now rewrite (bind_panic _ _ _ _ H). }
      destruct H as (Bt & _ & _ & h' & p' & q & fp' & Hp & R' & N' & K' & L' & Hq).
      exists h', p', fp'. split.
      { erewrite bind_ok; [|rewrite (bind_ok _ _ _ _ _ Hp); reflexivity]. cbv beta iota.
        destruct o as [e|].
        - destruct Hq as (_ & _ & _ & _ & -> & Hc). cbn [p_entry]. unfold is_copy in Hc.
          erewrite bind_ok; [|rewrite (bind_ok _ _ _ _ _ (load_some _ _ _ Hc)); reflexivity]. cbn [c_key c_val].
          destruct e. reflexivity.
        - destruct Hq as (-> & _). reflexivity. }
      split; [exact R'|]. split; [exact N'|]. split; [exact Bt|]. split.
      + constructor; [exact K'| | |].
        * intros x Hx. destruct o as [e|].
          { destruct Hq as (_ & _ & -> & _). auto. }
          destruct Hq as (_ & f1 & f2 & -> & ->). rewrite in_app_iff in *. cbn [In] in Hx. destruct Hx as [Hx|[<-|Hx]]; auto.
        * intros x Hx Hnx. exfalso. apply Hnx. destruct o as [e|].
          { destruct Hq as (_ & _ & -> & _). exact Hx. }
          destruct Hq as (_ & f1 & f2 & -> & ->). rewrite in_app_iff in *. cbn [In]. tauto.
        * intros x c Hx Hc. pose proof (nth_lt _ _ _ Hc). assert (x = length h) as -> by lia. destruct o as [e|].
          { right. destruct Hq as (_ & _ & _ & _ & _ & Hc'). unfold is_copy in Hc'. rewrite Hc' in Hc. inv Hc. auto. }
          left. destruct Hq as (_ & f1 & f2 & -> & ->). apply in_mid.
      + destruct o as [e|]; [|congruence]. intros _. destruct Hq as (_ & H1 & H2 & H3 & _). auto.
  Qed.

  Lemma remove_call (h : heap) p z (t : tree) fp n k :
    rep h p t fp -> NoDup fp -> bal t -> (height t < n)%nat ->
    let stop := fun r : res (ptree * pobs K V) => exists h' t', remove_prog n (p, z) (Some k) h = Some (h', r) /\
      rep h' p t' fp /\ bal t' /\ height t' = height t /\ change h h' fp fp /\ same_links h h' /\
      incl (inorder t') (inorder t) /\ (quiet equalb compare k t -> h' = h /\ t' = t) /\
      (unique equalb (inorder t) -> inorder t' = inorder t \/ copied_over equalb k (inorder t) (inorder t')) in
    match avl_remove equalb compare (mk_avl t z) (Some k) with
    | Ok (T', o) => exists h' p' fp', remove_prog n (p, z) (Some k) h = Some (h', Ok ((p', avl_size T'), POEntry o)) /\
        rep h' p' (avl_root T') fp' /\ NoDup fp' /\ bal (avl_root T') /\ change h h' fp fp' /\
        (o = None -> p' = p /\ fp' = fp /\ avl_root T' = t /\ same_links h h')
    | Err => stop Err
    | Panic => stop Panic
    end.
  Proof using Type.
    intros R N B Hn stop. unfold avl_remove. cbn [avl_root avl_size].
    pose proof (removeR_ref equalb compare t k h p fp n R N B Hn) as H. unfold removeR_spec in H. cbv zeta in H.
    assert (STOP : forall r0 r1, (r0 = Err /\ r1 = Err) \/ (r0 = Panic /\ r1 = Panic) ->
      stopped equalb k h p fp t (quiet equalb compare k t) (unique equalb (inorder t)) r0 (p_removeR equalb compare n k p h) -> stop r1).
    { intros r0 r1 Hr (h' & T' & Ho & R' & B' & Z' & K' & BL' & S' & I' & Q' & U'). exists h', T'.
      split.
      { unfold remove_prog, p_remove. cbn [fst snd]. destruct Hr as [(-> & ->)|(-> & ->)].
        - rewrite (bind_err _ _ _ h'); [reflexivity|]. now rewrite (bind_err _ _ _ _ Ho).
        - rewrite (bind_panic _ _ _ h'); [reflexivity|]. now rewrite (bind_panic _ _ _ _ Ho). }
      split; [exact R'|]. split; [exact B'|]. split; [rewrite !zh_height in Z'; lia|]. split; [|auto].
      constructor; [exact K'|auto|contradiction|]. intros x c Hx Hc. right. eapply BL'; eauto. }
    destruct (removeR equalb compare k t) as [[[t' o] done]| |]; cbn [rbind].
    2:{ apply (STOP Err Err); auto. }
    2:{ apply (STOP Panic Panic); auto. }
    destruct H as (Bt & _ & h' & p' & q & fp' & Hp & R' & N' & K' & BL' & HF & Hq).
    exists h', p', fp'. cbn [avl_root avl_size]. split.
    { unfold remove_prog, p_remove. cbn [fst snd]. erewrite bind_ok; [|rewrite (bind_ok _ _ _ _ _ Hp); reflexivity]. cbv beta iota.
      destruct o as [e|].
      - destruct Hq as (x & -> & _ & _ & Hc). cbn [p_entry]. unfold is_copy in Hc.
        erewrite bind_ok; [|rewrite (bind_ok _ _ _ _ _ (load_some _ _ _ Hc)); reflexivity]. cbn [c_key c_val].
        destruct e. reflexivity.
      - destruct Hq as (-> & _). reflexivity. }
    split; [exact R'|]. split; [exact N'|]. split; [exact Bt|]. split.
    - constructor; [exact K'| | |].
      + intros x Hx. left. destruct HF as [->|(f1 & y & f2 & -> & -> & _)]; [exact Hx|].
        rewrite in_app_iff in *. cbn [In]. tauto.
      + intros x Hx Hnx. destruct HF as [->|(f1 & y & f2 & -> & -> & Hy & _)]; [contradiction|].
        rewrite in_app_iff in *. cbn [In] in Hx. destruct Hx as [Hx|[<-|Hx]]; tauto.
      + intros x c Hx Hc. right. eapply BL'; eauto.
    - intros ->. destruct Hq as (_ & H1 & H2 & _ & H3 & H4). auto.
  Qed.

  Lemma getR_ref : forall (t : tree) (h : heap) a fp n k, rep h (Some a) t fp -> (height t < n)%nat ->
    match getR equalb compare k t with
    | Ok None => p_getR equalb compare n k (Some a) h = Some (h, Ok None)
    | Ok (Some e) => exists x c, p_getR equalb compare n k (Some a) h = Some (h, Ok (Some x)) /\
        nth_error h x = Some c /\ (c_key c, c_val c) = e
    | Err => p_getR equalb compare n k (Some a) h = Some (h, Err)
    | Panic => p_getR equalb compare n k (Some a) h = Some (h, Panic)
    end.
  Proof using Type.
    induction t as [|tk tv tb l IHl r IHr]; intros h a fp n k R Hn; [inv R|].
    destruct n as [|n]; [lia|]. cbn [height] in Hn.
    destruct (rep_node_ptr _ _ _ _ _ _ _ _ R) as (a' & pl & pr & fl & fr & Ha & -> & Ea & Rl & Rr). inv Ha.
    cbn [getR p_getR]. rewrite (bind_ok _ _ _ _ _ (load_some _ _ _ Ea)). cbn [c_key].
    destruct (equalb tk k) as [[|]| |]; cbn [rbind]; try reflexivity.
    { do 2 eexists. split; [reflexivity|]. split; [exact Ea|reflexivity]. }
    erewrite bind_ok; [|reflexivity]. cbv beta iota.
    destruct (direction compare tk k) as [dir| |]; cbn [rbind]; try reflexivity.
    erewrite bind_ok; [|reflexivity]. cbv beta iota. destruct dir; cbn [c_link c_l c_r].
    - destruct pr as [x|]; [apply (IHr h x fr n k Rr); lia|]. destruct (rep_none _ _ _ Rr) as (-> & _). reflexivity.
    - destruct pl as [x|]; [apply (IHl h x fl n k Rl); lia|]. destruct (rep_none _ _ _ Rl) as (-> & _). reflexivity.
  Qed.

  Lemma get_call (h : heap) p z (t : tree) fp n k : rep h p t fp -> (height t < n)%nat ->
    get_prog n (p, z) k h = Some (h, let? o := avl_get equalb compare (mk_avl t z) k in Ok ((p, z), POEntry o)).
  Proof using Type.
    intros R Hn. unfold get_prog, p_get, avl_get. cbn [fst avl_root]. destruct p as [a|].
    - pose proof (getR_ref t h a fp n k R Hn) as H. destruct (getR equalb compare k t) as [[e|]| |]; cbn [rbind].
      + destruct H as (x & c & H1 & H2 & <-). rewrite (bind_ok _ _ _ _ _ H1). cbn [p_entry].
        erewrite bind_ok; [|rewrite (bind_ok _ _ _ _ _ (load_some _ _ _ H2)); reflexivity]. reflexivity.
      + rewrite (bind_ok _ _ _ _ _ H). reflexivity.
      + rewrite (bind_err _ _ _ _ H). reflexivity.
      + rewrite (bind_panic _ _ _ _ H). reflexivity.
    - destruct (rep_none _ _ _ R) as (-> & _). reflexivity.
  Qed.
End Calls.
