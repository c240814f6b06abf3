(** * More fuel does not change what a call does. *)
From Coq Require Import List ZArith Bool Lia Arith.
From Verif Require Import Base BaseProofs AVLModel AVLPtrModel.
Import ListNotations.
Local Open Scope Z_scope.

Section Mono.
  Context {K V : Type} (equalb : K -> K -> res bool) (compare : K -> K -> res Z).

  Definition ple {A} (m1 m2 : @prog K V A) : Prop := forall h x, m1 h = Some x -> m2 h = Some x.

  Lemma ple_refl {A} (m : @prog K V A) : ple m m.
  Proof using Type. clear. intros h x H. exact H. Qed.
  Lemma ple_fuel {A} (m : @prog K V A) : ple hfuel m.
  Proof using Type. clear. intros h x H. discriminate. Qed.
  Lemma ple_bind {A B} (m1 m2 : @prog K V A) (f1 f2 : A -> @prog K V B) :
    ple m1 m2 -> (forall a, ple (f1 a) (f2 a)) -> ple (hbind m1 f1) (hbind m2 f2).
  Proof using Type.
    clear. intros Hm Hf h x. unfold hbind. destruct (m1 h) as [[h1 r]|] eqn:E; [|discriminate].
    rewrite (Hm _ _ E). destruct r; auto. apply Hf.
  Qed.

  Definition ile {A} (m1 m2 : @iprog K V A) : Prop := forall h i x, m1 h i = Some x -> m2 h i = Some x.

  Lemma ile_refl {A} (m : @iprog K V A) : ile m m.
  Proof using Type. clear. intros h i x H. exact H. Qed.
  Lemma ile_fuel {A} (m : @iprog K V A) : ile ifuel m.
  Proof using Type. clear. intros h i x H. discriminate. Qed.
  Lemma ile_bind {A B} (m1 m2 : @iprog K V A) (f1 f2 : A -> @iprog K V B) :
    ile m1 m2 -> (forall a, ile (f1 a) (f2 a)) -> ile (ibind m1 f1) (ibind m2 f2).
  Proof using Type.
    clear. intros Hm Hf h i x. unfold ibind. destruct (m1 h i) as [[i1 r]|] eqn:E; [|discriminate].
    rewrite (Hm _ _ _ E). destruct r; auto. apply Hf.
  Qed.

  Ltac mono IH :=
    first [ apply IH | apply ple_refl | apply ile_refl
          | apply ple_bind; [mono IH|intros ?; mono IH]
          | apply ile_bind; [mono IH|intros ?; mono IH]
          | match goal with
            | |- ple (match ?e with _ => _ end) _ => destruct e; mono IH
            | |- ile (match ?e with _ => _ end) _ => destruct e; mono IH
            end ].

  Lemma putR_mono : forall n key value p, ple (p_putR equalb compare n key value p) (p_putR equalb compare (S n) key value p).
  Proof using Type.
    induction n as [|n IH]; intros key value p; [apply ple_fuel|].
    change (p_putR equalb compare (S (S n)) key value p) with
      (match p with
        | None => hbind (alloc key value) (fun result => hret (result, None, false))
        | Some _ =>
            hbind (load p) (fun c =>
            hbind (hlift (equalb (c_key c) key)) (fun e =>
            if e then
              hbind (alloc (c_key c) (c_val c)) (fun found =>
              hbind (store p (with_entry key value)) (fun _ =>
              hret (p, found, true)))
            else
              hbind (hlift (direction compare (c_key c) key)) (fun dir =>
              hbind (p_putR equalb compare (S n) key value (c_link c dir)) (fun '(child, node, done) =>
              hbind (store p (with_link dir child)) (fun _ =>
              if done : bool then hret (p, node, true)
              else
                hbind (balance p) (fun b =>
                let b' := b + dirbal dir in
                hbind (store p (with_bal b')) (fun _ =>
                if b' =? 0 then hret (p, node, true)
                else if (b' =? 1) || (b' =? -1) then hret (p, node, false)
                else
                  hbind (p_put_balance p dir) (fun root' =>
                  hret (root', node, true)))))))))
        end).
    cbn [p_putR]. mono IH.
  Qed.

  Lemma heir_mono : forall n (p : ptr), ple (p_heir (K := K) (V := V) n p) (p_heir (S n) p).
  Proof using Type.
    clear. induction n as [|n IH]; intros p; [apply ple_fuel|].
    change (p_heir (K := K) (V := V) (S (S n)) p) with
      (hbind (link (K := K) (V := V) p true) (fun r => match r with None => hret p | Some _ => p_heir (S n) r end)).
    change (p_heir (K := K) (V := V) (S n) p) with
      (hbind (link (K := K) (V := V) p true) (fun r => match r with None => hret p | Some _ => p_heir n r end)).
    apply ple_bind; [apply ple_refl|]. intros [r|]; [apply IH|apply ple_refl].
  Qed.

  Lemma down_mono rec1 rec2 root key found : (forall k p, ple (rec1 k p) (rec2 k p)) ->
    ple (p_remove_down (K := K) (V := V) compare rec1 root key found) (p_remove_down compare rec2 root key found).
  Proof using Type. intros IH. unfold p_remove_down. mono IH. Qed.

  Lemma removeR_mono : forall n key p, ple (p_removeR (V := V) equalb compare n key p) (p_removeR equalb compare (S n) key p).
  Proof using Type.
    induction n as [|n IH]; intros key p; [apply ple_fuel|].
    set (rec2 := p_removeR (V := V) equalb compare (S n)) in *.
    change (p_removeR (V := V) equalb compare (S (S n)) key p) with
      (match p with
        | None => hret (None, None, true)
        | Some _ =>
            hbind (load p) (fun c : @cell K V =>
            hbind (hlift (equalb (c_key c) key)) (fun e : bool =>
            if e then
              hbind (alloc (c_key c) (c_val c)) (fun found =>
              match c_l c, c_r c with
              | None, r => hret (r, found, false)
              | l, None => hret (l, found, false)
              | l, Some _ =>
                  hbind (p_heir (S n) l) (fun heir =>
                  hbind (load heir) (fun hc =>
                  hbind (store p (with_entry (c_key hc) (c_val hc))) (fun _ =>
                  p_remove_down compare rec2 p (c_key hc) found)))
              end)
            else p_remove_down compare rec2 p key None))
        end).
    cbn [p_removeR].
    destruct p as [a|]; [|apply ple_refl]. apply ple_bind; [apply ple_refl|]. intros c.
    apply ple_bind; [apply ple_refl|]. intros [|]; [|apply down_mono; exact IH].
    apply ple_bind; [apply ple_refl|]. intros found. destruct (c_l c) as [pl|]; [|apply ple_refl].
    destruct (c_r c) as [pr|]; [|apply ple_refl]. apply ple_bind; [apply heir_mono|]. intros heir.
    apply ple_bind; [apply ple_refl|]. intros hc. apply ple_bind; [apply ple_refl|]. intros []. apply down_mono. exact IH.
  Qed.

  Lemma getR_mono : forall n key p, ple (p_getR (V := V) equalb compare n key p) (p_getR equalb compare (S n) key p).
  Proof using Type.
    induction n as [|n IH]; intros key p; [apply ple_fuel|].
    set (m2 := p_getR (V := V) equalb compare (S (S n)) key p).
    cbn [p_getR]. subst m2. set (rec2 := p_getR (V := V) equalb compare (S n)) in *.
    change (p_getR (V := V) equalb compare (S (S n)) key p) with
      (hbind (load p) (fun c : @cell K V =>
        hbind (hlift (equalb (c_key c) key)) (fun e : bool =>
        if e then hret p
        else
          hbind (hlift (direction compare (c_key c) key)) (fun dir =>
          match c_link c dir with
          | None => hret None
          | q => rec2 key q
          end)))).
    mono IH.
  Qed.

  Lemma walk_mono : forall n, ile (i_walk_left (K := K) (V := V) n) (i_walk_left (S n)).
  Proof using Type.
    clear. induction n as [|n IH]; [apply ile_fuel|].
    set (rec2 := i_walk_left (K := K) (V := V) (S n)) in *.
    change (i_walk_left (K := K) (V := V) (S (S n))) with
      (ibind iget (fun i => ibind (iload (hi_curr i)) (fun c : @cell K V =>
        match c_l c with
        | None => iret tt
        | l => ibind (iset (move (hi_curr i :: hi_paths i) l i)) (fun _ => rec2)
        end))).
    cbn [i_walk_left]. mono IH.
  Qed.

  Lemma start_mono s : forall n, ile (i_start_loop (V := V) compare n s) (i_start_loop compare (S n) s).
  Proof using Type.
    induction n as [|n IH]; [apply ile_fuel|].
    set (rec2 := i_start_loop (V := V) compare (S n) s) in *.
    change (i_start_loop (V := V) compare (S (S n)) s) with
      (ibind iget (fun i => ibind (iload (hi_curr i)) (fun c : @cell K V =>
        ibind (ilift (compare s (c_key c))) (fun comp =>
        if comp <? 0 then
          match c_r c with
          | Some _ => ibind (iset (PIt (hi_paths i) (c_r c) (hi_pos i) (hi_start i) (hi_end i))) (fun _ => rec2)
          | None =>
              match hi_paths i with
              | [] => ibind (iset (PIt [] None (hi_pos i) (hi_start i) (hi_end i))) (fun _ => iret true)
              | p :: ps => ibind (iset (move ps p i)) (fun _ => rec2)
              end
          end
        else iret false)))).
    cbn [i_start_loop]. mono IH.
  Qed.

  Lemma end_mono e : forall n, ile (i_end_loop (V := V) compare n e) (i_end_loop compare (S n) e).
  Proof using Type.
    induction n as [|n IH]; [apply ile_fuel|].
    set (rec2 := i_end_loop (V := V) compare (S n) e) in *.
    change (i_end_loop (V := V) compare (S (S n)) e) with
      (ibind iget (fun i => ibind (iload (hi_curr i)) (fun c : @cell K V =>
        ibind (ilift (compare (c_key c) e)) (fun comp =>
        if 0 <=? comp then
          match hi_paths i with
          | [] => iset (PIt [] None (hi_pos i) (hi_start i) None)
          | p :: ps => ibind (iset (move ps p i)) (fun _ => rec2)
          end
        else iret tt)))).
    cbn [i_end_loop]. mono IH.
  Qed.

  Lemma filters_mono n : ile (i_filters (V := V) compare n) (i_filters compare (S n)).
  Proof using Type.
    unfold i_filters. apply ile_bind; [apply ile_refl|]. intros i. apply ile_bind.
    - destruct (hi_start i); [|apply ile_refl]. apply ile_bind; [apply start_mono|]. intros ?. apply ile_refl.
    - intros [|]; [apply ile_refl|]. apply ile_bind; [apply ile_refl|]. intros i1. destruct (hi_end i1); [apply end_mono|apply ile_refl].
  Qed.

  Lemma advance_mono n : ile (i_advance (V := V) compare n) (i_advance compare (S n)).
  Proof using Type.
    assert (S1 : ile (i_switch (V := V) compare n) (i_switch compare (S n))).
    { unfold i_switch. apply ile_bind; [apply ile_refl|]. intros i. destruct (hi_pos i =? 0); [apply filters_mono|].
      destruct (hi_pos i =? 1); [|apply ile_refl]. apply ile_bind; [apply ile_refl|]. intros c. destruct (c_r c).
      - apply ile_bind; [apply ile_refl|]. intros _. apply ile_bind; [apply walk_mono|]. intros _. apply filters_mono.
      - destruct (hi_paths i); [apply ile_refl|]. apply ile_bind; [apply ile_refl|]. intros _. apply filters_mono. }
    unfold i_advance. apply ile_bind; [apply ile_refl|]. intros i. destruct (hi_curr i); [exact S1|].
    destruct (hi_paths i); [apply ile_refl|]. apply ile_bind; [apply ile_refl|]. intros _. exact S1.
  Qed.

  Lemma on_tree_mono (s : @sys K V) m f g x : (forall t, ple (f t) (g t)) -> on_tree s m f = Some x -> on_tree s m g = Some x.
  Proof using Type.
    clear. intros H. unfold on_tree. destruct (nth_error (s_trees s) m) as [t|]; [|auto].
    destruct (f t (s_heap s)) as [[h r]|] eqn:E; [|discriminate]. now rewrite (H t _ _ E).
  Qed.
  Lemma on_iter_mono (s : @sys K V) m f g x : ile f g -> on_iter s m f = Some x -> on_iter s m g = Some x.
  Proof using Type.
    clear. intros H. unfold on_iter. destruct (nth_error (s_iters s) m) as [t|]; [|auto].
    destruct (f (s_heap s) t) as [[h r]|] eqn:E; [|discriminate]. now rewrite (H _ _ _ E).
  Qed.

  Lemma step_mono1 n s (op : pop K V) x : p_step equalb compare n s op = Some x -> p_step equalb compare (S n) s op = Some x.
  Proof using Type.
    destruct op as [|m k v|m k|m k|m|m st en|i|i|i]; unfold p_step; auto.
    - apply on_tree_mono. intros t. apply ple_bind; [|intros ?; apply ple_refl]. unfold p_put. destruct k; [|apply ple_refl].
      destruct (fst t); [|apply ple_refl]. apply ple_bind; [apply putR_mono|intros ?; apply ple_refl].
    - apply on_tree_mono. intros t. apply ple_bind; [|intros ?; apply ple_refl]. unfold p_remove. destruct k; [|apply ple_refl].
      apply ple_bind; [apply removeR_mono|intros ?; apply ple_refl].
    - apply on_tree_mono. intros t. apply ple_bind; [|intros ?; apply ple_refl]. unfold p_get.
      destruct (fst t); [|apply ple_refl]. apply getR_mono.
    - destruct (nth_error (s_trees s) m) as [t|]; [|auto]. unfold i_new. destruct (fst t) as [a|]; [|auto].
      destruct (i_walk_left n (s_heap s) (PIt [] (Some a) 0 None None)) as [[i r]|] eqn:E; [|discriminate].
      now rewrite (walk_mono _ _ _ _ E).
    - apply on_iter_mono. apply ile_bind; [|intros ?; apply ile_refl]. unfold i_has_next.
      apply ile_bind; [apply advance_mono|intros ?; apply ile_refl].
    - apply on_iter_mono. apply ile_bind; [|intros ?; apply ile_refl]. unfold i_peek.
      apply ile_bind; [apply advance_mono|intros ?; apply ile_refl].
    - apply on_iter_mono. apply ile_bind; [|intros ?; apply ile_refl]. unfold i_next.
      apply ile_bind; [apply advance_mono|intros ?; apply ile_refl].
  Qed.

  Lemma step_mono n n' s (op : pop K V) x : (n <= n')%nat ->
    p_step equalb compare n s op = Some x -> p_step equalb compare n' s op = Some x.
  Proof using Type. intros H. induction H as [|n' H IH]; auto. intros E. apply step_mono1. auto. Qed.

  Lemma run_mono n n' (ops : list (pop K V)) s x : (n <= n')%nat ->
    p_run equalb compare n s ops = Some x -> p_run equalb compare n' s ops = Some x.
  Proof using Type.
    intros H. revert s x. induction ops as [|op ops IH]; intros s x; cbn [p_run]; [auto|].
    destruct (p_step equalb compare n s op) as [[s1 o]|] eqn:E; [|discriminate].
    rewrite (step_mono _ _ _ _ _ H E).
    destruct (p_run equalb compare n s1 ops) as [[s2 os]|] eqn:E2; [|discriminate]. now rewrite (IH _ _ E2).
  Qed.
End Mono.
