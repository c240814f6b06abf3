(** * Final theorems about the file helpers (C122). *)
From Coq Require Import List ZArith Bool Lia Arith.
From Coq Require Import Strings.Byte.
From Verif Require Import Base BaseProofs FsyncModel FsyncSpec.
Import ListNotations.
Local Open Scope nat_scope.

Lemma name_eqb_spec a b : name_eqb a b = true <-> a = b.
Proof.
  revert b. induction a as [|x a IH]; intros [|y b]; cbn [name_eqb]; try (split; congruence).
  rewrite andb_true_iff, IH, byte_eqb_eq. split; [intros (-> & ->); reflexivity|intros Q; inv Q; auto].
Qed.
Lemma get_same s hs name : get_file (Fs (fs_files s) hs) name = get_file s name.
Proof. reflexivity. Qed.
Lemma name_eqb_refl a : name_eqb a a = true.
Proof. now apply name_eqb_spec. Qed.
Lemma apply_zeros_length c off n : length (apply_change c (Zeros off n)) = if n =? 0 then length c else Nat.max (length c) (off + n).
Proof.
  destruct n as [|n]; [reflexivity|]. cbn [apply_change Nat.eqb]. rewrite !app_length, firstn_length, app_length, !repeat_length, skipn_length. lia.
Qed.
Lemma apply_zeros_zeros c ch : zeros c -> zeros (apply_change c ch).
Proof.
  intros Z. destruct ch as [|off [|n]]; [constructor|exact Z|]. cbn [apply_change]. unfold zeros in *.
  assert (forall k, Forall (eq x00) (repeat x00 k)) as R by (intros k; induction k; constructor; auto).
  apply Forall_app. split; [|apply Forall_app; split; [exact (R (S n))|]].
  - apply Forall_forall. intros x H. apply (proj1 (Forall_forall _ _) (proj2 (Forall_app _ _ _) (conj Z (R off)))).
    rewrite <- (firstn_skipn off). apply in_or_app. now left.
  - apply Forall_forall. intros x H. apply (proj1 (Forall_forall _ _) Z). rewrite <- (firstn_skipn (off + S n) c). apply in_or_app. now right.
Qed.
Lemma now_snoc f ch : f_now (File (f_synced f) (f_pending f ++ [ch])) = apply_change (f_now f) ch.
Proof. unfold f_now. cbn [f_pending f_synced]. now rewrite fold_left_app. Qed.
Lemma get_put s name f n : get_file (put_file s name f) n = if name_eqb n name then f else get_file s n.
Proof. unfold get_file, put_file. cbn [fs_files]. now destruct (name_eqb n name). Qed.

(** A call leaves a file alone, or adds a change to it, or syncs it. *)
Lemma step_file s c name : exists f, get_file (fst (fs_step s c)) name = f /\ let g := get_file s name in
  (f = g \/ (exists off n, f = File (f_synced g) (f_pending g ++ [Zeros off n])) \/ f = File (f_now g) [] \/
   (reopens name c /\ f = File (f_synced g) (f_pending g ++ [Trunc]))).
Proof.
  eexists. split; [reflexivity|]. cbv zeta. destruct c as [nm ok|f size err|f ok|f]; cbn [fs_step].
  - unfold open. destruct ok; cbn [fst]; [|now left]. rewrite get_same.
    unfold change_file. rewrite get_put. destruct (name_eqb name nm) eqn:E; [|now left]. apply name_eqb_spec in E. subst nm.
    right. right. right. split; reflexivity.
  - unfold write. destruct (size <? 0)%Z; [now left|]. destruct (get_handle s f) as [[i h]|]; [|now left]. destruct (h_closed h); [now left|].
    cbn [fst]. unfold put_handle. rewrite get_same.
    unfold change_file. rewrite get_put. destruct (name_eqb name (h_name h)) eqn:E; [|now left]. apply name_eqb_spec in E. rewrite <- E.
    right. left. do 2 eexists. reflexivity.
  - unfold sync. destruct (get_handle s f) as [[i h]|]; [|now left]. destruct (h_closed h); [now left|]. destruct ok; [|now left].
    cbn [fst]. rewrite get_put. destruct (name_eqb name (h_name h)) eqn:E; [|now left]. apply name_eqb_spec in E. rewrite <- E. right. right. now left.
  - unfold close. destruct (get_handle s f) as [[i h]|]; now left.
Qed.

(** ** What is synced stays *)
Definition keeps (k : nat) (f : file) : Prop := k <= length (f_synced f) /\ Forall (fun ch => ch <> Trunc) (f_pending f).
Lemma fold_length l : Forall (fun ch => ch <> Trunc) l -> forall c, length c <= length (fold_left apply_change l c).
Proof.
  induction 1 as [|ch l N _ IH]; intros c; [cbn; lia|]. cbn [fold_left]. etransitivity; [|apply IH]. destruct ch as [|off n]; [congruence|].
  rewrite apply_zeros_length. destruct (n =? 0); lia.
Qed.
Lemma selection_Forall {A} (P : A -> Prop) l m : selection l m -> Forall P m -> Forall P l.
Proof. induction 1; intros F; [constructor|inv F; auto|inv F; constructor; auto]. Qed.
Lemma keeps_survives k f c : keeps k f -> survives f c -> k <= length c.
Proof.
  intros (K & P) (l & S & ->). pose proof (fold_length l (selection_Forall _ _ _ S P) (f_synced f)). lia.
Qed.
Lemma step_keeps k s c name : ~ reopens name c -> keeps k (get_file s name) -> keeps k (get_file (fst (fs_step s c)) name).
Proof.
  intros N (K & P). destruct (step_file s c name) as (f & -> & [->|[(off & n & ->)|[->|(R & _)]]]); [now split| | |contradiction].
  - split; cbn [f_synced f_pending]; [exact K|]. apply Forall_app. split; [exact P|]. constructor; [discriminate|constructor].
  - split; cbn [f_synced f_pending]; [|constructor]. pose proof (fold_length _ P (f_synced (get_file s name))). unfold f_now. lia.
Qed.
Lemma run_keeps k name cs : forall s, Forall (fun c => ~ reopens name c) cs -> keeps k (get_file s name) -> keeps k (get_file (fst (fs_run s cs)) name).
Proof.
  induction cs as [|c cs IH]; intros s N K; [exact K|]. inv N. cbn [fs_run].
  pose proof (step_keeps k s c name ltac:(assumption) K) as K'. destruct (fs_step s c) as [s1 o]. specialize (IH s1 ltac:(assumption) K').
  destruct (fs_run s1 cs). exact IH.
Qed.

(** After Sync returned, and whatever is called later, a crash leaves at least what the file had then, unless the name is opened
    again. *)
Theorem C122_durable : forall s i h s' o cs c,
  nth_error (fs_handles s) i = Some h -> fs_step s (FSync (Some i) true) = (s', Ok o) ->
  Forall (fun c => ~ reopens (h_name h) c) cs ->
  survives (get_file (fst (fs_run s' cs)) (h_name h)) c -> length (f_now (get_file s (h_name h))) <= length c.
Proof.
  intros s i h s' o cs c E D N S. refine (keeps_survives _ _ _ (run_keeps _ _ _ _ N _) S).
  cbn [fs_step] in D. unfold sync, get_handle in D. rewrite E in D. destruct (h_closed h); [discriminate|]. inv D.
  rewrite get_put, name_eqb_refl. split; cbn [f_synced f_pending]; [lia|constructor].
Qed.
Print Assumptions C122_durable.

(** ** The bytes: all zero from the first Open on, also after a crash that follows a Sync *)
Definition blank (f : file) : Prop := zeros (f_now f).
Lemma step_blank s c name : blank (get_file s name) \/ reopens name c -> blank (get_file (fst (fs_step s c)) name).
Proof.
  intros [B|R].
  - destruct (step_file s c name) as (f & -> & [->|[(off & n & ->)|[->|(_ & ->)]]]); [exact B| |exact B|]; unfold blank; rewrite now_snoc.
    + now apply apply_zeros_zeros.
    + constructor.
  - unfold reopens in R. subst c. cbn [fs_step]. unfold open. cbn [fst]. rewrite get_same.
    unfold change_file. rewrite get_put, name_eqb_refl. unfold blank. rewrite now_snoc. constructor.
Qed.
Lemma run_blank name cs : forall s, blank (get_file s name) \/ Exists (reopens name) cs -> blank (get_file (fst (fs_run s cs)) name).
Proof.
  induction cs as [|c cs IH]; intros s B; [destruct B as [B|B]; [exact B|inv B]|]. cbn [fs_run].
  assert (blank (get_file (fst (fs_step s c)) name) \/ Exists (reopens name) cs) as B'.
  { destruct B as [B|B]; [left; apply step_blank; now left|]. inv B; [left; apply step_blank; now right|now right]. }
  destruct (fs_step s c) as [s1 o]. specialize (IH s1 B'). destruct (fs_run s1 cs). exact IH.
Qed.
Theorem C122_zeros : forall s name cs, Exists (reopens name) cs -> zeros (f_now (get_file (fst (fs_run s cs)) name)).
Proof. intros s name cs E. apply (run_blank name cs s). now right. Qed.
Print Assumptions C122_zeros.

(** ** One file: its length is the sum of the sizes written *)
Fixpoint total (l : list nat) : nat := match l with [] => 0 | x :: l => x + total l end.
Lemma put_same s i h : nth_error (fs_handles s) i <> None -> nth_error (fs_handles (put_handle s i h)) i = Some h.
Proof.
  intros N. apply nth_error_Some in N. unfold put_handle. cbn [fs_handles]. rewrite nth_error_app2 by (rewrite firstn_length; lia).
  rewrite firstn_length, Nat.min_l, Nat.sub_diag by lia. reflexivity.
Qed.
Lemma writes name i sizes : forall s off, nth_error (fs_handles s) i = Some (Handle name off false) ->
  f_now (get_file s name) = repeat x00 off ->
  let (s', os) := fs_run s (map (fun n => FWrite (Some i) (Z.of_nat n) None) sizes) in
  f_now (get_file s' name) = repeat x00 (off + total sizes) /\ os = repeat (Ok None) (length sizes) /\
  nth_error (fs_handles s') i = Some (Handle name (off + total sizes) false).
Proof.
  induction sizes as [|n sizes IH]; intros s off E C.
  - cbn [map fs_run total]. rewrite Nat.add_0_r. auto.
  - cbn [map fs_run fs_step]. unfold write. destruct (Z.ltb_spec (Z.of_nat n) 0) as [L|_]; [lia|]. unfold get_handle. rewrite E.
    cbn [h_closed h_name h_off]. rewrite Nat2Z.id. set (s1 := put_handle _ _ _).
    assert (f_now (get_file s1 name) = repeat x00 (off + n)) as C1.
    { unfold s1, put_handle. rewrite get_same.
      unfold change_file. rewrite get_put, name_eqb_refl, now_snoc, C. destruct n as [|n]; [now rewrite Nat.add_0_r|]. cbn [apply_change].
      rewrite firstn_app, firstn_all2, repeat_length, Nat.sub_diag, firstn_O, app_nil_r by (rewrite repeat_length; lia).
      rewrite skipn_all2, app_nil_r by (rewrite repeat_length; lia). now rewrite repeat_app. }
    specialize (IH s1 (off + n)). cbn [total length repeat]. rewrite Nat.add_assoc.
    destruct (fs_run s1 _) as [s' os]. destruct IH as (I1 & I2 & I3); [unfold s1; apply put_same; unfold change_file, put_file; cbn [fs_handles]; congruence|exact C1|].
    rewrite I2. auto.
Qed.
Theorem C122_written : forall s name sizes, let i := length (fs_handles s) in
  let (s', os) := fs_run s (FOpen name true :: map (fun n => FWrite (Some i) (Z.of_nat n) None) sizes) in
  f_now (get_file s' name) = repeat x00 (total sizes) /\ os = Ok (Some i) :: repeat (Ok None) (length sizes).
Proof.
  intros s name sizes i. cbn [fs_run fs_step]. unfold open. set (s1 := Fs _ _).
  pose proof (writes name i sizes s1 0) as W.
  assert (length (fs_handles (change_file s name Trunc)) = i) as -> by reflexivity.
  destruct (fs_run s1 _) as [s' os]. destruct W as (W1 & W2 & _).
  - unfold s1, change_file, put_file. cbn [fs_handles]. rewrite nth_error_app2 by (subst i; lia). subst i. now rewrite Nat.sub_diag.
  - unfold s1. rewrite get_same. unfold change_file. rewrite get_put, name_eqb_refl, now_snoc. reflexivity.
  - rewrite W2. split; [exact W1|reflexivity].
Qed.
Print Assumptions C122_written.

(** One Write, also one that the system refuses half way: it writes zeros at the position of the handle and moves it on, at most
    [size] of them, all of them if it returns, and the bytes before and behind stay. *)
Theorem C122_write_exact : forall s i name off size err s' o, nth_error (fs_handles s) i = Some (Handle name off false) ->
  (0 <= size)%Z -> fs_step s (FWrite (Some i) size err) = (s', o) ->
  exists n, n <= Z.to_nat size /\ (err = None -> n = Z.to_nat size /\ o = Ok None) /\ (err <> None -> o = Panic) /\
    nth_error (fs_handles s') i = Some (Handle name (off + n) false) /\
    let c := f_now (get_file s name) in let c' := f_now (get_file s' name) in
    length c' = (if n =? 0 then length c else Nat.max (length c) (off + n)) /\
    forall k, k < length c' -> nth_error c' k = Some (if (off <=? k) && (k <? off + n) then x00 else nth k c x00).
Proof.
  intros s i name off size err s' o E Z D. cbn [fs_step] in D. unfold write in D. destruct (Z.ltb_spec size 0) as [L|_]; [lia|].
  unfold get_handle in D. rewrite E in D. cbn [h_closed h_name h_off] in D. set (n := match err with Some k => _ | None => _ end) in D. inv D.
  exists n. split; [unfold n; destruct err; lia|]. split; [intros ->; split; reflexivity|]. split; [destruct err; congruence|].
  split; [apply put_same; unfold change_file, put_file; cbn [fs_handles]; congruence|].
  unfold put_handle. rewrite get_same. unfold change_file. rewrite get_put, name_eqb_refl, now_snoc. cbv zeta.
  set (c := f_now (get_file s name)). rewrite apply_zeros_length. split; [reflexivity|]. clearbody n c. clear. intros k K.
  destruct n as [|n]; cbn [Nat.eqb] in K.
  - cbn [apply_change]. replace ((off <=? k) && (k <? off + 0)) with false; [|destruct (Nat.leb_spec off k), (Nat.ltb_spec k (off + 0)); auto; lia].
    now apply nth_error_nth'.
  - cbn [apply_change]. rewrite (nth_error_nth' _ x00); [|rewrite !app_length, firstn_length, app_length, !repeat_length, skipn_length; lia]. f_equal.
    assert (forall m j, nth j (repeat x00 m) x00 = x00) as R.
    { intros m. induction m as [|m IH]; intros [|j]; cbn; auto. }
    assert (length (firstn off (c ++ repeat x00 off)) = off) as F by (rewrite firstn_length, app_length, repeat_length; lia).
    destruct (Nat.leb_spec off k) as [A|A]; cbn [andb].
    + rewrite app_nth2 by lia. rewrite F. destruct (Nat.ltb_spec k (off + S n)) as [B|B].
      * rewrite app_nth1 by (rewrite repeat_length; lia). apply R.
      * rewrite app_nth2; rewrite repeat_length; [|lia]. rewrite <- (firstn_skipn (off + S n) c) at 2.
        rewrite app_nth2; rewrite firstn_length, Nat.min_l by lia; [f_equal; lia|lia].
    + rewrite app_nth1 by lia. replace (nth k c x00) with (nth k (c ++ repeat x00 off) x00).
      * rewrite <- (firstn_skipn off (c ++ repeat x00 off)) at 2. now rewrite app_nth1 by lia.
      * destruct (Nat.lt_ge_cases k (length c)); [now rewrite app_nth1|]. rewrite app_nth2, R by lia. symmetry. now apply nth_overflow.
Qed.
Print Assumptions C122_write_exact.
Example C122_write_exact_applies :
  fs_step (Fs (fun _ => Some (File [x01; x02; x03; x04] [])) [Handle [x61] 1 false]) (FWrite (Some 0) 5 (Some 2)) =
    fs_step (Fs (fun _ => Some (File [x01; x02; x03; x04] [])) [Handle [x61] 1 false]) (FWrite (Some 0) 2 (Some 7)) /\
  f_now (get_file (fst (fs_step (Fs (fun _ => Some (File [x01; x02; x03; x04] [])) [Handle [x61] 1 false]) (FWrite (Some 0) 5 (Some 2)))) [x61]) =
    [x01; x00; x00; x04].
Proof. split; reflexivity. Qed.

(** ** Files that are not opened and have no open handle are not touched *)
Theorem C122_others : forall s name cs, (forall i h, nth_error (fs_handles s) i = Some h -> h_name h <> name) ->
  Forall (fun c => ~ reopens name c) cs -> fs_files (fst (fs_run s cs)) name = fs_files s name.
Proof.
  intros s name cs. revert s. induction cs as [|c cs IH]; intros s N F; [reflexivity|]. inv F. cbn [fs_run].
  assert (fs_files (fst (fs_step s c)) name = fs_files s name /\ forall i h, nth_error (fs_handles (fst (fs_step s c))) i = Some h -> h_name h <> name) as (E & N').
  { assert (forall i h h', nth_error (fs_handles s) i = Some h -> h_name h' = h_name h ->
      forall j x, nth_error (firstn i (fs_handles s) ++ h' :: skipn (S i) (fs_handles s)) j = Some x -> h_name x <> name) as P.
    { intros i h h' Hi Hh j x Hx. apply nth_error_In in Hx. apply in_app_or in Hx. destruct Hx as [Hx|[<-|Hx]].
      - assert (In x (fs_handles s)) as I by (rewrite <- (firstn_skipn i); apply in_or_app; now left). apply In_nth_error in I. destruct I as (k & I). eauto.
      - rewrite Hh. eauto.
      - assert (In x (fs_handles s)) as I by (rewrite <- (firstn_skipn (S i)); apply in_or_app; now right). apply In_nth_error in I. destruct I as (k & I). eauto. }
    assert (forall i h, nth_error (fs_handles s) i = Some h -> name_eqb name (h_name h) = false) as Q.
    { intros i h Hi. destruct (name_eqb name (h_name h)) eqn:X; [|reflexivity]. apply name_eqb_spec in X. destruct (N i h Hi). now symmetry. }
    destruct c as [nm [|]|f size err|f ok|f]; cbn [fs_step].
    - unfold open. cbn [fst fs_files fs_handles change_file put_file]. split.
      + destruct (name_eqb name nm) eqn:X; [|reflexivity]. apply name_eqb_spec in X. subst nm. exfalso. match goal with H : ~ reopens _ _ |- _ => apply H end. reflexivity.
      + intros i h Hi. apply nth_error_In, in_app_or in Hi. destruct Hi as [Hi|[<-|[]]].
        * apply In_nth_error in Hi. destruct Hi. eauto.
        * cbn [h_name]. intros ->. match goal with H : ~ reopens _ _ |- _ => apply H end. reflexivity.
    - split; [reflexivity|exact N].
    - unfold write. destruct (size <? 0)%Z; [split; [reflexivity|exact N]|]. unfold get_handle. destruct f as [i|]; [|split; [reflexivity|exact N]].
      destruct (nth_error (fs_handles s) i) as [h|] eqn:Hi; [|split; [reflexivity|exact N]]. destruct (h_closed h); [split; [reflexivity|exact N]|].
      cbn [fst put_handle change_file put_file fs_files fs_handles]. rewrite (Q i h Hi). split; [reflexivity|]. apply (P i h _ Hi). reflexivity.
    - unfold sync, get_handle. destruct f as [i|]; [|split; [reflexivity|exact N]].
      destruct (nth_error (fs_handles s) i) as [h|] eqn:Hi; [|split; [reflexivity|exact N]]. destruct (h_closed h); [split; [reflexivity|exact N]|].
      destruct ok; [|split; [reflexivity|exact N]]. cbn [fst put_file fs_files fs_handles]. rewrite (Q i h Hi). split; [reflexivity|exact N].
    - unfold close, get_handle. destruct f as [i|]; [|split; [reflexivity|exact N]].
      destruct (nth_error (fs_handles s) i) as [h|] eqn:Hi; [|split; [reflexivity|exact N]].
      cbn [fst put_handle fs_files fs_handles]. split; [reflexivity|]. apply (P i h _ Hi). reflexivity. }
  destruct (fs_step s c) as [s1 o]. cbn [fst] in E, N'. rewrite <- E. specialize (IH s1 N' ltac:(assumption)). destruct (fs_run s1 cs). exact IH.
Qed.
Print Assumptions C122_others.

(** ** When calls panic *)
Theorem C122_panic_exact : forall s c, snd (fs_step s c) = Panic <->
  match c with
  | FOpen _ ok => ok = false
  | FWrite f size err => (size < 0)%Z \/ err <> None \/ (forall i h, f = Some i -> nth_error (fs_handles s) i = Some h -> h_closed h = true)
  | FSync f ok => ok = false \/ (forall i h, f = Some i -> nth_error (fs_handles s) i = Some h -> h_closed h = true)
  | FClose _ => False
  end.
Proof.
  assert (forall s f, (forall i h, f = Some i -> nth_error (fs_handles s) i = Some h -> h_closed h = true) <->
    match get_handle s f with Some (_, h) => h_closed h = true | None => True end) as G.
  { intros s [i|]; unfold get_handle; [|split; [auto|discriminate]]. destruct (nth_error (fs_handles s) i) as [h|] eqn:E; split; intros H.
    - eauto.
    - intros j h' Q. inv Q. congruence.
    - exact I.
    - intros j h' Q. inv Q. congruence. }
  intros s [nm ok|f size err|f ok|f]; cbn [fs_step].
  - unfold open. destruct ok; cbn [snd]; split; congruence.
  - rewrite G. unfold write. destruct (Z.ltb_spec size 0); [cbn [snd]; tauto|]. destruct (get_handle s f) as [[i h]|]; [|cbn [snd]; tauto].
    destruct (h_closed h); [cbn [snd]; tauto|]. cbn [snd]. destruct err; split; intros Q; try discriminate; [right; left; discriminate|reflexivity|].
    destruct Q as [Q|[Q|Q]]; [lia|congruence|discriminate].
  - rewrite G. unfold sync. destruct (get_handle s f) as [[i h]|]; [|cbn [snd]; tauto]. destruct (h_closed h); [cbn [snd]; tauto|].
    destruct ok; cbn [snd]; split; intros Q; try discriminate; auto. destruct Q; discriminate.
  - unfold close. destruct (get_handle s f) as [[i h]|]; cbn [snd]; split; [discriminate|contradiction|discriminate|contradiction].
Qed.
Print Assumptions C122_panic_exact.

(** After Close a handle is closed for ever: Write and Sync panic and change nothing. *)
Lemma nth_put {A} (l : list A) i j x : i < length l -> nth_error (firstn i l ++ x :: skipn (S i) l) j = if i =? j then Some x else nth_error l j.
Proof.
  intros L. destruct (Nat.eqb_spec i j) as [->|N].
  - rewrite nth_error_app2 by (rewrite firstn_length; lia). now rewrite firstn_length, Nat.min_l, Nat.sub_diag by lia.
  - rewrite <- (firstn_skipn i l) at 3. destruct (Nat.lt_ge_cases j i) as [C|C].
    + rewrite !nth_error_app1 by (rewrite firstn_length; lia). reflexivity.
    + rewrite !nth_error_app2 by (rewrite firstn_length; lia). rewrite firstn_length, Nat.min_l by lia.
      destruct (j - i) as [|k] eqn:E; [lia|]. cbn [nth_error]. change (S i) with (1 + i). clear.
      revert i. induction l as [|y l IH]; intros [|i]; cbn; auto; try now destruct k. apply IH.
Qed.
Definition shut (s : fs) (i : nat) : Prop := exists h, nth_error (fs_handles s) i = Some h /\ h_closed h = true.
Lemma step_shut s c i : shut s i -> shut (fst (fs_step s c)) i.
Proof.
  intros (h & E & C). assert (forall files j h', nth_error (fs_handles s) j = Some h' -> forall x, (j = i -> h_closed x = true) ->
    shut (Fs files (firstn j (fs_handles s) ++ x :: skipn (S j) (fs_handles s))) i) as P.
  { intros files j h' Ej x X. unfold shut. cbn [fs_handles]. rewrite nth_put by (apply nth_error_Some; congruence).
    destruct (Nat.eqb_spec j i) as [->|_]; eauto. }
  destruct c as [nm [|]|f size err|f ok|f]; cbn [fs_step].
  - unfold open. cbn [fst]. exists h. split; [|exact C]. cbn [fs_handles change_file put_file]. rewrite nth_error_app1; [exact E|]. apply nth_error_Some. congruence.
  - now exists h.
  - unfold write. destruct (size <? 0)%Z; [now exists h|]. unfold get_handle. destruct f as [j|]; [|now exists h].
    destruct (nth_error (fs_handles s) j) as [h'|] eqn:Ej; [|now exists h]. destruct (h_closed h') eqn:C'; [now exists h|].
    cbn [fst put_handle]. apply (P _ j h' Ej). intros ->. congruence.
  - unfold sync. destruct (get_handle s f) as [[j h']|]; [|now exists h]. destruct (h_closed h'); [now exists h|]. destruct ok; now exists h.
  - unfold close, get_handle. destruct f as [j|]; [|now exists h].
    destruct (nth_error (fs_handles s) j) as [h'|] eqn:Ej; [|now exists h]. cbn [fst put_handle]. apply (P _ j h' Ej). reflexivity.
Qed.
Lemma run_shut cs i : forall s, shut s i -> shut (fst (fs_run s cs)) i.
Proof.
  induction cs as [|c cs IH]; intros s H; [exact H|]. cbn [fs_run]. pose proof (step_shut s c i H) as H'. destruct (fs_step s c) as [s1 o].
  specialize (IH s1 H'). destruct (fs_run s1 cs). exact IH.
Qed.
Theorem C122_closed : forall s i cs size err ok, nth_error (fs_handles s) i <> None ->
  let s' := fst (fs_run (fst (fs_step s (FClose (Some i)))) cs) in
  fs_step s' (FWrite (Some i) size err) = (s', Panic) /\ fs_step s' (FSync (Some i) ok) = (s', Panic).
Proof.
  intros s i cs size err ok N s'. assert (shut s' i) as (h & E & C).
  { apply run_shut. cbn [fs_step]. unfold close, get_handle. destruct (nth_error (fs_handles s) i) as [h|] eqn:E; [|congruence]. cbn [fst].
    eexists. split; [apply put_same; congruence|reflexivity]. }
  cbn [fs_step]. unfold write, sync, get_handle. rewrite E, C. now destruct (size <? 0)%Z.
Qed.
Print Assumptions C122_closed.

(** Two handles of one name: the second Open truncates, the first goes on at its position, so a gap is filled. A crash before the
    next Sync may leave the old content. *)
Definition empty_fs : fs := Fs (fun _ => None) [].
Example C122_applies :
  let cs := [FOpen [x61] true; FWrite (Some 0) 3 None; FSync (Some 0) true; FOpen [x61] true; FWrite (Some 0) 1 None;
             FWrite (Some 1) 5 (Some 2); FClose (Some 0); FWrite (Some 0) 1 None; FClose (Some 0); FClose None] in
  snd (fs_run empty_fs cs) = [Ok (Some 0); Ok None; Ok None; Ok (Some 1); Ok None; Panic; Ok None; Panic; Ok None; Ok None] /\
  f_now (get_file (fst (fs_run empty_fs cs)) [x61]) = repeat x00 4 /\
  survives (get_file (fst (fs_run empty_fs cs)) [x61]) [x00; x00; x00] /\ survives (get_file (fst (fs_run empty_fs cs)) [x61]) [].
Proof.
  split; [reflexivity|]. split; [reflexivity|]. split.
  - exists []. split; [|reflexivity]. vm_compute. repeat constructor.
  - exists [Trunc]. split; [|reflexivity]. vm_compute. apply sel_take. repeat constructor.
Qed.
