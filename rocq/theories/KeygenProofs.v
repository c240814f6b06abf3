(** * Proofs about the key generator *)
From Coq Require Import List NArith ZArith Bool Lia.
From Coq Require Import Strings.Byte Strings.String.
From Verif Require Import Base BaseProofs EndianModel EndianProofs CrcModel AesModel KeyStoreModel KeyStoreSpec KeyStoreProofs KeygenModel KeygenSpec.
Import ListNotations.
Local Open Scope list_scope.

(** ** Places *)

Lemma at_put d p n q : p <> [] -> at_place (put_node d p n) q = if path_eqb p q then Some n else at_place d q.
Proof.
  intros N. unfold at_place, put_node. destruct q as [|x q].
  - destruct (path_eqb p []) eqn:E; [apply path_eqb_spec in E; now subst|reflexivity].
  - cbn [find fst]. destruct (path_eqb p (x :: q)); reflexivity.
Qed.
Lemma at_put_same d p n : p <> [] -> at_place (put_node d p n) p = Some n.
Proof. intros N. rewrite at_put by assumption. now rewrite (proj2 (path_eqb_spec p p) eq_refl). Qed.
Lemma at_put_other d p n q : p <> [] -> q <> p -> at_place (put_node d p n) q = at_place d q.
Proof. intros N H. rewrite at_put by assumption. destruct (path_eqb p q) eqn:E; [apply path_eqb_spec in E; now subst|reflexivity]. Qed.
Lemma at_drop_same d p : p <> [] -> at_place (drop_node d p) p = None.
Proof.
  intros N. unfold at_place, drop_node. destruct p as [|x p]; [now destruct N|]. induction d as [|[q n] d IH]; [reflexivity|].
  cbn [filter fst]. destruct (path_eqb q (x :: p)) eqn:E; cbn [negb]; [exact IH|]. cbn [find fst]. rewrite E. exact IH.
Qed.
Lemma at_drop_other d p q : q <> p -> at_place (drop_node d p) q = at_place d q.
Proof.
  intros H. unfold at_place, drop_node. destruct q as [|x q]; [reflexivity|]. f_equal. induction d as [|[r n] d IH]; [reflexivity|].
  cbn [filter fst find]. destruct (path_eqb r p) eqn:E; cbn [negb].
  - apply path_eqb_spec in E. subst r. destruct (path_eqb p (x :: q)) eqn:E; [apply path_eqb_spec in E; now subst|exact IH].
  - cbn [find fst]. destruct (path_eqb r (x :: q)); [reflexivity|exact IH].
Qed.
Lemma at_some d p x : at_place d (p ++ [x]) <> None <-> exists e, In e d /\ fst e = p ++ [x].
Proof.
  unfold at_place. destruct (p ++ [x]) as [|y q] eqn:E; [now destruct p|]. split.
  - destruct (find (fun e => path_eqb (fst e) (y :: q)) d) as [e|] eqn:F; [|now intros H; destruct H]. intros _.
    apply find_some in F. destruct F as [F1 F2]. apply path_eqb_spec in F2. eauto.
  - intros (e & H1 & H2). destruct (find (fun e => path_eqb (fst e) (y :: q)) d) eqn:F; [discriminate|].
    pose proof (find_none _ _ F e H1) as G. cbn in G. rewrite H2, (proj2 (path_eqb_spec _ _) eq_refl) in G. discriminate.
Qed.
Lemma empty_dir_ok d p : is_empty_dir d p = false <-> in_dir d p.
Proof.
  unfold is_empty_dir, in_dir. rewrite negb_false_iff, existsb_exists. split.
  - intros (e & H & G). destruct (fst e) as [|y q] eqn:E; [discriminate|]. apply path_eqb_spec in G.
    exists (last (y :: q) y). apply at_some. exists e. split; [exact H|]. rewrite E, <- G. apply app_removelast_last. discriminate.
  - intros (x & H). apply at_some in H. destruct H as (e & H & G). exists e. split; [exact H|]. rewrite G.
    destruct (p ++ [x]) as [|y q] eqn:E; [now destruct p|]. rewrite <- E, removelast_last. now apply path_eqb_spec.
Qed.

(** ** Names *)

Lemma names_snoc a (x : bytes) : plain_name x -> names (a ++ str "/" ++ x) = names a ++ [x].
Proof.
  intros (P0 & P1 & P2 & P3). unfold names. change (str "/" ++ x) with (x2f :: x). rewrite split_app, filter_app. f_equal.
  rewrite (split_no_slash x [] P0). cbn [app filter].
  destruct (bytes_eqb x []) eqn:E1; [apply bytes_eqb_spec in E1; now subst|].
  destruct (bytes_eqb x (str ".")) eqn:E2; [apply bytes_eqb_spec in E2; now subst|]. reflexivity.
Qed.
Lemma not_up (x : bytes) : plain_name x -> bytes_eqb x (str "..") = false.
Proof. intros (_ & _ & _ & P). destruct (bytes_eqb x (str "..")) eqn:E; [apply bytes_eqb_spec in E; now subst|reflexivity]. Qed.

(** ** Lookup *)

Lemma walk_cons l d fo cwd (x : bytes) rest : walk l d fo cwd (x :: rest) =
  if bytes_eqb x (str "..") then walk l d fo (removelast cwd) rest
  else match at_place d (cwd ++ [x]) with
       | None => match rest with [] => Absent (cwd ++ [x]) | _ => Missing end
       | Some NDir => walk l d fo (cwd ++ [x]) rest
       | Some (NFile _) => match rest with [] => Here (cwd ++ [x]) | _ => NotDir end
       | Some (NLink t) =>
           match rest, fo with
           | [], false => Here (cwd ++ [x])
           | _, _ => match l with O => Loop | S l => walk l d fo (if absolute t then [] else cwd) (names t ++ rest) end
           end
       end.
Proof. destruct l; reflexivity. Qed.
Lemma walk_nil l d fo cwd : walk l d fo cwd [] = Here cwd.
Proof. destruct l; reflexivity. Qed.
Lemma walk_dirs l d fo (ns : place) : forall (cwd rest : place), Forall plain_name ns ->
  (forall a b, ns = a ++ b -> a <> [] -> at_place d (cwd ++ a) = Some NDir) ->
  walk l d fo cwd (ns ++ rest) = walk l d fo (cwd ++ ns) rest.
Proof.
  induction ns as [|x ns IH]; intros cwd rest F H; [now rewrite app_nil_r|].
  cbn [app]. rewrite walk_cons, (not_up x (Forall_inv F)).
  rewrite (H [x] ns eq_refl) by discriminate. rewrite IH; [now rewrite <- app_assoc|exact (Forall_inv_tail F)|].
  intros a b E N. rewrite <- app_assoc. apply (H (x :: a) b); [cbn; now rewrite E|discriminate].
Qed.
Lemma walk_end l d fo cwd (x : bytes) : plain_name x -> walk l d fo cwd [x] =
  match at_place d (cwd ++ [x]) with
  | None => Absent (cwd ++ [x])
  | Some NDir | Some (NFile _) => Here (cwd ++ [x])
  | Some (NLink t) =>
      if fo then match l with O => Loop | S l => walk l d true (if absolute t then [] else cwd) (names t) end else Here (cwd ++ [x])
  end.
Proof.
  intros P. rewrite walk_cons, (not_up x P). destruct (at_place d (cwd ++ [x])) as [[c| |t]|]; try reflexivity; [apply walk_nil|].
  destruct fo; [|reflexivity]. destruct l; [reflexivity|]. now rewrite app_nil_r.
Qed.
Lemma walk_missing l d fo (ns : place) : tidy d -> forall (cwd : place), Forall plain_name ns -> at_place d cwd = Some NDir ->
  (forall a b, ns = a ++ b -> a <> [] -> at_place d (cwd ++ a) = None \/ at_place d (cwd ++ a) = Some NDir) ->
  at_place d (cwd ++ ns) = None -> not_exist (walk l d fo cwd ns) = true.
Proof.
  intros T. induction ns as [|x ns IH]; intros cwd F C H E; [rewrite app_nil_r in E; congruence|].
  rewrite walk_cons, (not_up x (Forall_inv F)).
  destruct (H [x] ns eq_refl) as [G|G]; [discriminate| |]; rewrite G; [now destruct ns|].
  apply IH; [exact (Forall_inv_tail F)|exact G| |now rewrite <- app_assoc].
  intros a b -> N. rewrite <- app_assoc. apply (H (x :: a) b); [reflexivity|discriminate].
Qed.
Lemma walk_nowhere l d : forall cwd ns, not_exist (walk l d true cwd ns) = true <-> nowhere d l cwd ns.
Proof.
  assert (Q : forall x : bytes, bytes_eqb x (str "..") = false -> x <> str "..").
  { intros x E ->. now rewrite (proj2 (bytes_eqb_spec _ _) eq_refl) in E. }
  assert (Q' : forall x : bytes, x <> str ".." -> bytes_eqb x (str "..") = false).
  { intros x N. destruct (bytes_eqb x (str "..")) eqn:E; [apply bytes_eqb_spec in E; now subst|reflexivity]. }
  induction l as [|l IHl]; intros cwd ns; revert cwd; (induction ns as [|x ns IH]; intros cwd; [rewrite walk_nil; split; [discriminate|intros H; inversion H]|]).
  - rewrite walk_cons. split.
    + destruct (bytes_eqb x (str "..")) eqn:E.
      * apply bytes_eqb_spec in E. subst x. intros H. apply no_up, IH, H.
      * destruct (at_place d (cwd ++ [x])) as [[c| |t]|] eqn:A.
        -- destruct ns; discriminate.
        -- intros H. apply no_dir; auto. now apply IH.
        -- destruct ns; discriminate.
        -- intros _. now apply no_name; auto.
    + intros H. inversion H; subst.
      * rewrite Q' by assumption. match goal with H : at_place _ _ = None |- _ => rewrite H end. now destruct ns.
      * rewrite (proj2 (bytes_eqb_spec _ _) eq_refl). now apply IH.
      * rewrite Q' by assumption. match goal with H : at_place _ _ = Some NDir |- _ => rewrite H end. now apply IH.
  - rewrite walk_cons. split.
    + destruct (bytes_eqb x (str "..")) eqn:E.
      * apply bytes_eqb_spec in E. subst x. intros H. apply no_up, IH, H.
      * destruct (at_place d (cwd ++ [x])) as [[c| |t]|] eqn:A.
        -- destruct ns; discriminate.
        -- intros H. apply no_dir; auto. now apply IH.
        -- intros H. apply (no_link d l cwd x ns t); auto. apply IHl. now destruct ns.
        -- intros _. now apply no_name; auto.
    + intros H. inversion H; subst.
      * rewrite Q' by assumption. match goal with H : at_place _ _ = None |- _ => rewrite H end. now destruct ns.
      * rewrite (proj2 (bytes_eqb_spec _ _) eq_refl). now apply IH.
      * rewrite Q' by assumption. match goal with H : at_place _ _ = Some NDir |- _ => rewrite H end. now apply IH.
      * rewrite Q' by assumption. match goal with H : at_place _ _ = Some (NLink _) |- _ => rewrite H end.
        match goal with H : nowhere d l _ _ |- _ => apply IHl in H end. now destruct ns.
Qed.

(** ** Making directories *)

Lemma snoc_ne (p : place) (x : bytes) : p ++ [x] <> [].
Proof. destruct p; discriminate. Qed.
Lemma prefix_cases (p a b : place) (x : bytes) : p ++ [x] = a ++ b -> (b = [] /\ a = p ++ [x]) \/ exists b', b = b' ++ [x] /\ p = a ++ b'.
Proof.
  destruct b as [|y b] using rev_ind; intros H; [left; rewrite app_nil_r in H; auto|]. right. exists b.
  rewrite app_assoc in H. apply app_inj_tail in H. destruct H as [-> ->]. auto.
Qed.
Lemma tidy_up d : tidy d -> forall b a, at_place d (a ++ b) <> None -> b <> [] -> at_place d a = Some NDir.
Proof.
  intros T b. induction b as [|y b IH] using rev_ind; intros a H N; [now destruct N|].
  rewrite app_assoc in H. pose proof (T _ _ H) as G. destruct b as [|z b]; [now rewrite app_nil_r in G|].
  apply IH; [rewrite G; discriminate|discriminate].
Qed.
Lemma mkdir_all_ok d : tidy d -> forall ns : place, Forall plain_name ns -> real_path d ns ->
  exists d1, mkdir_all d (rev ns) = (d1, true) /\
    (forall a b, ns = a ++ b -> a <> [] -> at_place d1 a = Some NDir) /\
    (forall q, (forall b, ns <> q ++ b) -> at_place d1 q = at_place d q).
Proof.
  intros T ns. induction ns as [|x ns IH] using rev_ind; intros F R.
  - exists d. split; [reflexivity|]. split; [|auto]. intros a b E N. destruct a; [now destruct N|discriminate].
  - assert (Fn : Forall plain_name ns) by (apply Forall_app in F; tauto).
    assert (Px : plain_name x) by (apply Forall_app in F; destruct F as [_ F]; exact (Forall_inv F)).
    assert (Rn : real_path d ns). { intros a b E N. apply (R a (b ++ [x])); [now rewrite E, <- app_assoc|exact N]. }
    rewrite rev_app_distr. cbn [rev app]. cbn [mkdir_all]. change (rev (x :: rev ns)) with (rev (rev ns) ++ [x]). rewrite rev_involutive.
    destruct (R (ns ++ [x]) []) as [G|G]; [now rewrite app_nil_r|apply snoc_ne| |].
    + pose proof (walk_missing 40 d true (ns ++ [x]) T [] F eq_refl R G) as M.
      destruct (IH Fn Rn) as (d1 & E & D & O). rewrite E.
      assert (X : mkdir d1 (ns ++ [x]) = (put_node d1 (ns ++ [x]) NDir, true)).
      { unfold mkdir. rewrite walk_dirs by (exact Fn || exact D). rewrite walk_end by exact Px. cbn [app].
        rewrite O, G; [reflexivity|]. intros b Eb. apply (f_equal (@List.length bytes)) in Eb. rewrite !app_length in Eb. cbn in Eb. lia. }
      exists (put_node d1 (ns ++ [x]) NDir). split; [destruct (walk 40 d true [] (ns ++ [x])); try discriminate M; exact X|].
      pose proof (snoc_ne ns x) as N. split.
      * intros a b Eab Na. destruct (prefix_cases _ _ _ _ Eab) as [[-> ->]|(b' & -> & ->)]; [now apply at_put_same|].
        rewrite at_put_other; [now apply (D a b')|exact N|].
        intros C. apply (f_equal (@List.length bytes)) in C. rewrite !app_length in C. cbn in C. lia.
      * intros q Hq. rewrite at_put_other; [|exact N|intros ->; apply (Hq []); now rewrite app_nil_r].
        apply O. intros b C. apply (Hq (b ++ [x])). now rewrite C, <- app_assoc.
    + assert (D : forall a b, ns ++ [x] = a ++ b -> a <> [] -> at_place d a = Some NDir).
      { intros a b E N. destruct b as [|y b]; [rewrite app_nil_r in E; now subst|]. apply (tidy_up d T (y :: b) a); [rewrite <- E, G; discriminate|discriminate]. }
      exists d. split; [|split; [exact D|auto]].
      rewrite <- (app_nil_r (ns ++ [x])). rewrite walk_dirs by (exact F || exact D). rewrite walk_nil. cbn [app]. now rewrite G.
Qed.

(** ** The key files *)

Section Key.
  Context (cls : Z) (n id : bytes) (Hc : class_name cls = Ok n) (Hn : In n class_names) (Hid : plain_name id).
  Notation etc := (str "/etc/poodle" ++ str "/" ++ n).
  Notation kplace := (class_place n ++ [id]).
  Lemma class_plain : Forall plain_name (class_place n).
  Proof using Hn. clear - Hn. repeat constructor; try apply (names_plain n Hn); apply plain_b_ok; reflexivity. Qed.
  Lemma key_plain : Forall plain_name kplace.
  Proof using Hn Hid. apply Forall_app. split; [exact class_plain|constructor; [exact Hid|constructor]]. Qed.
  Lemma etc_names : names etc = class_place n.
  Proof using Hn. clear - Hn. rewrite names_snoc by apply (names_plain n Hn). reflexivity. Qed.
  Lemma etc_dir_ok : etc_dir cls = Ok etc.
  Proof using Hc. unfold etc_dir. now rewrite Hc. Qed.
  Lemma dir_names (a : bytes) : plain_name a -> names (etc ++ str "/" ++ a) = class_place n ++ [a].
  Proof using Hn. intros P. rewrite names_snoc by exact P. now rewrite etc_names. Qed.

  Lemma save_ok d pub priv secret nonce : tidy d -> real_path d kplace ->
    free_or_file d (kplace ++ [n ++ str "_id"]) -> free_or_file d (kplace ++ [n ++ str "_id.pub"]) -> aes_key secret ->
    exists d1, save_key_pair d cls id pub priv secret nonce = (d1, Ok tt) /\
      with_key d d1 n id (priv_text (key_schedule secret) nonce priv) (pub_text pub).
  Proof using Hc Hn Hid.
    intros T R F1 F2 K. destruct (paths_of cls n id Hc Hn) as (dir & Ed & Ep & Ev & _ & _ & Edir).
    destruct (names_plain n Hn) as (_ & Pv & Pp). unfold save_key_pair. rewrite Ed, Ep, Ev.
    assert (Nd : names dir = kplace) by (subst dir; apply dir_names, Hid).
    assert (M : exists d1, mkdir_if_not_exist d dir = (d1, Ok tt) /\
      (forall a b, kplace = a ++ b -> a <> [] -> at_place d1 a = Some NDir) /\ (forall q, (forall b, kplace <> q ++ b) -> at_place d1 q = at_place d q)).
    { unfold mkdir_if_not_exist, stat. rewrite Nd.
      destruct (mkdir_all_ok d T kplace key_plain R) as (d1 & E & D & O).
      assert (W : forall d', (forall a b, kplace = a ++ b -> a <> [] -> at_place d' a = Some NDir) -> walk 40 d' true [] kplace = Here kplace).
      { intros d' D'. rewrite <- (app_nil_r kplace) at 1. rewrite walk_dirs by (exact key_plain || exact D'). apply walk_nil. }
      destruct (R kplace []) as [G|G]; [now rewrite app_nil_r|discriminate| |].
      - rewrite (walk_missing 40 d true kplace T [] key_plain eq_refl R G), E. cbn [fst]. exists d1. rewrite (W d1 D).
        rewrite (D kplace [] ltac:(now rewrite app_nil_r)) by discriminate. auto.
      - assert (D0 : forall a b, kplace = a ++ b -> a <> [] -> at_place d a = Some NDir).
        { intros a b E' N. destruct b as [|y b]; [rewrite app_nil_r in E'; now subst|]. apply (tidy_up d T (y :: b) a); [rewrite <- E', G; discriminate|discriminate]. }
        exists d. rewrite (W d D0). cbn [not_exist]. rewrite (W d D0), G. auto. }
    destruct M as (d1 & -> & D & O).
    destruct (new_cipher_cases secret) as [(_ & ->)|(C & _)]; [|tauto].
    assert (X : forall d' (f : bytes) c path, plain_name f -> path = dir ++ str "/" ++ f ->
      (forall a b, kplace = a ++ b -> a <> [] -> at_place d' a = Some NDir) -> free_or_file d' (kplace ++ [f]) ->
      write_file d' path c = Ok (put_node d' (kplace ++ [f]) (NFile c))).
    { intros d' f c path P -> D' F. unfold write_file, stat. rewrite names_snoc by exact P. rewrite Nd.
      rewrite walk_dirs by (exact key_plain || exact D'). rewrite walk_end by exact P. cbn [app].
      destruct F as [F|(c' & F)]; rewrite F; [reflexivity|]. now rewrite F. }
    assert (L : forall (f : bytes) b, kplace <> (kplace ++ [f]) ++ b).
    { intros f b E. apply (f_equal (@List.length bytes)) in E. rewrite !app_length in E. cbn in E. lia. }
    assert (N1 : kplace ++ [n ++ str "_id"] <> kplace ++ [n ++ str "_id.pub"]).
    { intros E. apply app_inj_tail in E. exact (id_not_pub n (proj2 E)). }
    rewrite (X d1 (n ++ str "_id") _ _ Pv eq_refl D); [|destruct F1 as [F1|(c & F1)]; [left|right; exists c]; rewrite O by apply L; exact F1].
    assert (D2 : forall c a b, kplace = a ++ b -> a <> [] -> at_place (put_node d1 (kplace ++ [n ++ str "_id"]) c) a = Some NDir).
    { intros c a b E N. rewrite at_put_other; [exact (D a b E N)|discriminate|]. intros C. subst a. exact (L _ _ E). }
    rewrite (X _ (n ++ str "_id.pub") _ _ Pp eq_refl (D2 _)).
    2:{ destruct F2 as [F2|(c & F2)]; [left|right; exists c]; (rewrite at_put_other; [|discriminate|exact (fun E => N1 (eq_sym E))]); rewrite O by apply L; exact F2. }
    eexists. split; [reflexivity|]. unfold with_key. cbv zeta. split; [|split; [|split]].
    - rewrite at_put_other; [|discriminate|exact N1]. apply at_put_same. discriminate.
    - apply at_put_same. discriminate.
    - intros a b E N. rewrite at_put_other; [exact (D2 _ a b E N)|discriminate|]. intros C. subst a. exact (L _ _ E).
    - intros q Q1 Q2 Q3. rewrite at_put_other; [|discriminate|exact Q2]. rewrite at_put_other; [|discriminate|exact Q1]. apply O, Q3.
  Qed.

  (** A name of the key directory: itself, or a link to it. *)
  Lemma load_ok d (a : bytes) pub priv secret nonce : plain_name a ->
    (forall p q, kplace = p ++ q -> p <> [] -> at_place d p = Some NDir) ->
    (a = id \/ at_place d (class_place n ++ [a]) = Some (NLink (etc ++ str "/" ++ id))) ->
    at_place d (kplace ++ [n ++ str "_id"]) = Some (NFile (priv_text (key_schedule secret) nonce priv)) ->
    at_place d (kplace ++ [n ++ str "_id.pub"]) = Some (NFile (pub_text pub)) ->
    (0 <= pub < 2 ^ 256)%Z -> (0 <= priv < 2 ^ 256)%Z -> List.length nonce = 12%nat -> aes_key secret ->
    load_pub_key d cls a = Ok pub /\ load_priv_key d cls a secret = Ok priv /\
    exist_pub_key d cls a = Ok true /\ exist_priv_key d cls a = Ok true.
  Proof using Hc Hn Hid.
    intros Pa D L Fv Fp Hp Hv Hl K. destruct (paths_of cls n a Hc Hn) as (dir & _ & Ep & Ev & _ & _ & Edir).
    destruct (names_plain n Hn) as (_ & Pv & Pp).
    assert (X : forall (f : bytes) c, plain_name f -> at_place d (kplace ++ [f]) = Some (NFile c) ->
      stat d (dir ++ str "/" ++ f) = Here (kplace ++ [f])).
    { intros f c P A. unfold stat. rewrite names_snoc by exact P. subst dir. rewrite (dir_names a Pa).
      assert (W : forall l, walk l d true [] (kplace ++ [f]) = Here (kplace ++ [f])).
      { intros l. rewrite walk_dirs by (exact key_plain || exact D). rewrite walk_end by exact P. cbn [app]. cbn [app] in A. now rewrite A. }
      destruct L as [->|L]; [apply W|].
      rewrite <- app_assoc. rewrite walk_dirs; [|exact class_plain|].
      2:{ intros p q E N. apply (D p (q ++ [id])); [now rewrite E, <- app_assoc|exact N]. }
      change ([a] ++ [f]) with (a :: [f]). rewrite walk_cons, (not_up a Pa). cbn [app]. cbn [app] in L. rewrite L.
      replace (absolute (etc ++ str "/" ++ id)) with true by reflexivity. rewrite (dir_names id Hid). apply W. }
    assert (R : forall (f : bytes) c, plain_name f -> at_place d (kplace ++ [f]) = Some (NFile c) -> read_file d (dir ++ str "/" ++ f) = Ok c).
    { intros f c P A. unfold read_file. rewrite (X f c P A), A. reflexivity. }
    split; [|split; [|split]].
    - unfold load_pub_key. rewrite Ep. cbn [rbind]. rewrite (R _ _ Pp Fp). cbn [rbind]. unfold pub_text. rewrite parse_written. cbn [rbind].
      now rewrite big_roundtrip.
    - unfold load_priv_key. rewrite Ev. cbn [rbind]. rewrite (R _ _ Pv Fv). cbn [rbind]. unfold priv_text. rewrite parse_written. cbn [rbind].
      now apply priv_data_roundtrip.
    - unfold exist_pub_key. rewrite Ep. unfold rmap. cbn [rbind]. unfold exist_file. now rewrite (X _ _ Pp Fp).
    - unfold exist_priv_key. rewrite Ev. unfold rmap. cbn [rbind]. unfold exist_file. now rewrite (X _ _ Pv Fv).
  Qed.

End Key.

(** ** Aliases *)

Lemma check_names d path : check_path_exist d path = false <-> nowhere d 40 [] (names path).
Proof. unfold check_path_exist, stat. rewrite negb_false_iff. apply walk_nowhere. Qed.
Definition goes d (P : place) (a : bytes) : Prop := at_place d (P ++ [a]) <> None /\ ~ dangling d P a.
Section Alias.
  Context (d : disk) (P : place) (a path : bytes) (Hp : Forall plain_name P) (Ha : plain_name a) (Hn : names path = P ++ [a]).
  Context (D : forall p q, P = p ++ q -> p <> [] -> at_place d p = Some NDir).
  Lemma check_dirs : check_path_exist d path = true <-> goes d P a.
  Proof using All.
    unfold check_path_exist, stat. rewrite Hn, negb_true_iff.
    rewrite walk_dirs by (exact Hp || exact D). rewrite walk_end by exact Ha. unfold goes, dangling. cbn [app].
    destruct (at_place d (P ++ [a])) as [[c| |t]|] eqn:A.
    - cbn [not_exist]. split; [|reflexivity]. intros _. split; [discriminate|]. intros (t & E & _). discriminate.
    - cbn [not_exist]. split; [|reflexivity]. intros _. split; [discriminate|]. intros (t & E & _). discriminate.
    - rewrite <- not_true_iff_false, walk_nowhere. split.
      + intros N. split; [discriminate|]. intros (t' & E & N'). injection E as <-. exact (N N').
      + intros [_ N] N'. apply N. exists t. split; [reflexivity|exact N'].
    - cbn [not_exist]. split; [discriminate|]. intros [N _]. now destruct N.
  Qed.
  Lemma lstat_dirs d' : (forall p q, P = p ++ q -> p <> [] -> at_place d' p = Some NDir) ->
    lstat d' path = match at_place d' (P ++ [a]) with None => Absent (P ++ [a]) | Some _ => Here (P ++ [a]) end.
  Proof using Hp Ha Hn.
    intros D'. unfold lstat. rewrite Hn, walk_dirs by (exact Hp || exact D'). rewrite walk_end by exact Ha. cbn [app].
    now destruct (at_place d' (P ++ [a])) as [[| |]|].
  Qed.
  Lemma alias_step target :
    let run := match (if check_path_exist d path then remove d path else Ok d) with
               | Ok d2 =>
                   match symlink d2 target path with
                   | Ok d3 => (d3, Done)
                   | Err => (d2, Exit 1)
                   | Panic => (d2, Crashed)
                   end
               | Err => (d, Exit 1)
               | Panic => (d, Crashed)
               end in
    (blocked d P a -> run = (d, Exit 1)) /\ (~ blocked d P a -> exists d3, run = (d3, Done) /\ with_link d d3 (P ++ [a]) target).
  Proof using All.
    cbv zeta.
    assert (S : at_place d (P ++ [a]) <> None -> symlink d target path = Err).
    { intros N. unfold symlink. rewrite (lstat_dirs d D). now destruct (at_place d (P ++ [a])). }
    assert (R : at_place d (P ++ [a]) <> None -> remove d path = match at_place d (P ++ [a]) with
      | Some NDir => if is_empty_dir d (P ++ [a]) then Ok (drop_node d (P ++ [a])) else Err
      | _ => Ok (drop_node d (P ++ [a])) end).
    { intros N. unfold remove. rewrite (lstat_dirs d D). destruct (at_place d (P ++ [a])) eqn:A; [|now destruct N].
      destruct (P ++ [a]) eqn:E; [now destruct (snoc_ne P a)|]. rewrite A. reflexivity. }
    split.
    - intros [B|[A B]].
      + replace (check_path_exist d path) with false; [|symmetry; apply not_true_iff_false; rewrite check_dirs; unfold goes; tauto].
        rewrite S; [reflexivity|]. destruct B as (t & -> & _). discriminate.
      + rewrite R by (rewrite A; discriminate). rewrite A. apply empty_dir_ok in B. rewrite B.
        replace (check_path_exist d path) with true; [reflexivity|]. symmetry. apply check_dirs. split; [rewrite A; discriminate|].
        intros (t & E & _). rewrite A in E. discriminate.
    - intros B. unfold blocked in B. destruct (at_place d (P ++ [a])) as [nd|] eqn:A.
      + replace (check_path_exist d path) with true; [|symmetry; apply check_dirs; split; [rewrite A; discriminate|tauto]].
        replace (remove d path) with (Ok (drop_node d (P ++ [a]))).
        2:{ rewrite R by discriminate. destruct nd; try reflexivity. destruct (is_empty_dir d (P ++ [a])) eqn:E; [reflexivity|].
            apply empty_dir_ok in E. tauto. }
        unfold symlink. rewrite lstat_dirs.
        2:{ intros p q E N. rewrite at_drop_other; [now apply (D p q)|]. intros C. subst p. apply (f_equal (@List.length bytes)) in E. rewrite !app_length in E. cbn in E. lia. }
        rewrite at_drop_same by apply snoc_ne. eexists. split; [reflexivity|]. split; [apply at_put_same, snoc_ne|].
        intros q N. rewrite at_put_other; [now apply at_drop_other|apply snoc_ne|exact N].
      + replace (check_path_exist d path) with false; [|symmetry; apply not_true_iff_false; rewrite check_dirs; unfold goes; rewrite A; tauto].
        unfold symlink. rewrite (lstat_dirs d D), A. eexists. split; [reflexivity|]. split; [apply at_put_same, snoc_ne|].
        intros q N. rewrite at_put_other; [reflexivity|apply snoc_ne|exact N].
  Qed.
End Alias.

(** Before the run the directory of the class may not exist. *)
Lemma check_ok n d (a path : bytes) : In n class_names -> plain_name a -> names path = class_place n ++ [a] -> tidy d -> real_path d (class_place n) ->
  (check_path_exist d path = true <-> goes d (class_place n) a).
Proof.
  intros Hn Pa Np T R.
  destruct (R (class_place n) []) as [G|G]; [now rewrite app_nil_r|discriminate| |].
  - assert (A : at_place d (class_place n ++ [a]) = None).
    { destruct (at_place d (class_place n ++ [a])) eqn:A; [|reflexivity]. rewrite (T (class_place n) a) in G; [discriminate|now rewrite A]. }
    unfold check_path_exist, stat. rewrite Np, negb_true_iff.
    rewrite (walk_missing 40 d true _ T []); [unfold goes; split; [discriminate|tauto]| |reflexivity| |exact A].
    + apply Forall_app. split; [now apply class_plain|constructor; [exact Pa|constructor]].
    + intros p q E N. cbn [app]. destruct (prefix_cases _ _ _ _ E) as [[-> ->]|(b' & -> & E')]; [now left|now apply (R p b')].
  - apply check_dirs; [now apply class_plain|exact Pa|exact Np|].
    intros p q E N. destruct q as [|y q]; [rewrite app_nil_r in E; now subst|]. apply (tidy_up d T (y :: q) p); [rewrite <- E, G; discriminate|discriminate].
Qed.

(** ** The run *)

Lemma prompt_ok i : prompt_twice (in_phrase1 i) (in_phrase2 i) = true <-> good_phrases i.
Proof.
  unfold prompt_twice, good_phrases, zlen. rewrite andb_true_iff, bytes_eqb_spec. rewrite Z.leb_le. split; intros [A B]; split; try lia; congruence.
Qed.
Lemma answer_ok i : negb (in_force i) && negb (bytes_eqb (in_answer i) (str "y")) && negb (bytes_eqb (in_answer i) (str "Y")) = false <-> consents i.
Proof.
  unfold consents. rewrite <- !bytes_eqb_spec. destruct (in_force i), (bytes_eqb (in_answer i) (str "y")), (bytes_eqb (in_answer i) (str "Y")); cbn; intuition discriminate.
Qed.
Lemma secret_ok s : aes_key (pkeygen_secret s).
Proof. left. unfold pkeygen_secret. rewrite firstn_length, app_length, repeat_length. lia. Qed.
Lemma lower_plain k : (k < 16)%N -> lower_digit k <> x2f /\ lower_digit k <> x2e.
Proof.
  intros H. assert (C : In k (map N.of_nat (seq 0 16))). { replace k with (N.of_nat (N.to_nat k)) by lia. apply in_map, in_seq. lia. }
  cbn in C. repeat (destruct C as [<-|C]; [split; discriminate|]). destruct C.
Qed.
Lemma hex_lower_chars l c : In c (hex_lower l) -> c <> x2f /\ c <> x2e.
Proof.
  unfold hex_lower. rewrite in_flat_map. intros (b & _ & H). assert (B : (b2n b < 256)%N) by (unfold b2n; pose proof (Byte.to_N_bounded b); lia).
  destruct H as [<-|[<-|[]]]; apply lower_plain; [apply N.div_lt_upper_bound; lia|apply N.mod_lt; lia].
Qed.
Lemma id_plain pub : (0 < pub)%Z -> plain_name (pkeygen_id pub).
Proof.
  intros H. assert (X : forall c, In c (pkeygen_id pub) -> c <> x2f /\ c <> x2e) by apply hex_lower_chars.
  split; [intros C; destruct (X _ C); congruence|].
  split; [|split; intros C; rewrite C in X; destruct (X x2e (or_introl eq_refl)); congruence].
  unfold pkeygen_id, big_bytes. cbv zeta.
  assert (N.to_nat ((N.size (Z.abs_N pub) + 7) / 8) <> 0)%nat as L.
  { intros C. assert ((N.size (Z.abs_N pub) + 7) / 8 = 0)%N as E by lia. apply N.div_small_iff in E; [|lia].
    assert (N.size (Z.abs_N pub) = 0)%N as E' by lia. destruct pub; cbn in E'; lia. }
  destruct (be_put (N.to_nat ((N.size (Z.abs_N pub) + 7) / 8)) (Z.abs_N pub)) as [|b l] eqn:E; [|discriminate].
  apply (f_equal (@List.length byte)) in E. rewrite be_put_length in E. cbn in E. lia.
Qed.

Lemma run_ok cls n d i : class_name cls = Ok n -> In n class_names -> ready d n (pkeygen_id (in_pub i)) -> good_numbers i -> good_phrases i ->
  exists d1, with_key d d1 n (pkeygen_id (in_pub i)) (priv_text (key_schedule (pkeygen_secret (in_phrase1 i))) (in_nonce i) (in_priv i)) (pub_text (in_pub i)) /\
  (in_alias i = [] -> process_key d cls i = (d1, Done)) /\
  (forall (P : place) (a : bytes), in_alias i <> [] -> Forall plain_name P -> plain_name a -> names ((str "/etc/poodle" ++ str "/" ++ n) ++ str "/" ++ in_alias i) = P ++ [a] ->
    (forall p q, P = p ++ q -> p <> [] -> at_place d1 p = Some NDir) ->
    (check_path_exist d ((str "/etc/poodle" ++ str "/" ++ n) ++ str "/" ++ in_alias i) = true -> consents i) ->
    (blocked d1 P a -> process_key d cls i = (d1, Exit 1)) /\
    (~ blocked d1 P a -> exists d2, process_key d cls i = (d2, Done) /\
       with_link d1 d2 (P ++ [a]) ((str "/etc/poodle" ++ str "/" ++ n) ++ str "/" ++ pkeygen_id (in_pub i)))).
Proof.
  intros Hc Hn (T & R & F1 & F2) (Hp & Hv & Hl) G. pose proof (id_plain (in_pub i) (proj1 Hp)) as Pid.
  set (id := pkeygen_id (in_pub i)) in *. set (secret := pkeygen_secret (in_phrase1 i)) in *.
  destruct (save_ok cls n id Hc Hn Pid d (in_pub i) (in_priv i) secret (in_nonce i) T R) as (d1 & S & W); [now rewrite <- app_assoc|now rewrite <- app_assoc|apply secret_ok|].
  exists d1. split; [exact W|]. destruct W as (W1 & W2 & W3 & W4).
  destruct (load_ok cls n id Hc Hn Pid d1 id (in_pub i) (in_priv i) secret (in_nonce i)) as (L1 & L2 & _); auto; [lia|apply secret_ok|].
  apply prompt_ok in G. unfold process_key. rewrite (etc_dir_ok cls n Hc). cbv zeta. fold id. fold secret. rewrite G, S, L1. cbn [rbind negb]. rewrite L2. split.
  - intros ->. reflexivity.
  - intros P a Na Pl Pa Np D C.
    assert (bytes_eqb (in_alias i) [] = false) as -> by (apply not_true_iff_false; rewrite bytes_eqb_spec; exact Na). cbn [negb andb].
    match goal with |- context [if ?c && _ && _ && _ then _ else _] => assert (c && negb (in_force i) && negb (bytes_eqb (in_answer i) (str "y")) && negb (bytes_eqb (in_answer i) (str "Y")) = false) as -> end.
    { destruct (check_path_exist d _); [|reflexivity]. cbn [andb]. apply answer_ok. now apply C. }
    apply (alias_step d1 P a _ Pl Pa Np D).
Qed.
