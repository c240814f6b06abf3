(** * The key generator: C100 (the alias names the new key) and C101 (what a run leaves alone) *)
From Coq Require Import List NArith ZArith Bool Lia.
From Coq Require Import Strings.Byte Strings.String.
From Verif Require Import Base BaseProofs EndianModel EndianProofs CrcModel AesModel KeyStoreModel KeyStoreSpec KeyStoreProofs KeygenModel KeygenSpec KeygenProofs.
Import ListNotations.
Local Open Scope list_scope.

Notation etc_of n := (str "/etc/poodle" ++ str "/" ++ n).

(** ** Lemmas *)

Lemma names_join a b : names (a ++ str "/" ++ b) = names a ++ names b.
Proof. unfold names. change (str "/" ++ b) with (x2f :: b). now rewrite split_app, filter_app. Qed.
Lemma class_known cls n : class_name cls = Ok n -> In n class_names.
Proof. intros H. destruct (class_cases cls) as [(_ & n' & E & I)|(_ & E)]; congruence. Qed.
Lemma ready_class d n id : real_path d (class_place n ++ [id]) -> real_path d (class_place n).
Proof. intros R a b E N. apply (R a (b ++ [id])); [now rewrite E, <- app_assoc|exact N]. Qed.
Lemma class_dirs d d1 (n id v p : bytes) : with_key d d1 n id v p -> forall a b, class_place n = a ++ b -> a <> [] -> at_place d1 a = Some NDir.
Proof. intros (_ & _ & D & _) a b E N. apply (D a (b ++ [id])); [now rewrite E, <- app_assoc|exact N]. Qed.
Lemma key_not_blocked d d1 (n id v p : bytes) : with_key d d1 n id v p -> blocked d1 (class_place n) id.
Proof.
  intros (A & _ & D & _). right. split; [apply (D (class_place n ++ [id]) []); [now rewrite app_nil_r|apply snoc_ne]|].
  exists (n ++ str "_id"). match goal with |- ?x <> None => change x with (at_place d1 ((class_place n ++ [id]) ++ [n ++ str "_id"])) end. rewrite A. discriminate.
Qed.
Lemma sibling_ne (E : place) (x y : bytes) (q : place) : x <> y -> E ++ [x] <> E ++ [y] ++ q.
Proof. intros N C. apply app_inv_head in C. cbn in C. congruence. Qed.
Lemma sibling_kept d d1 (n id v p x : bytes) : with_key d d1 n id v p -> x <> id -> forall r, at_place d1 (class_place n ++ [x] ++ r) = at_place d (class_place n ++ [x] ++ r).
Proof.
  intros (_ & _ & _ & K) N r. apply K.
  - intros C. rewrite <- app_assoc in C. apply app_inv_head in C. cbn in C. congruence.
  - intros C. rewrite <- app_assoc in C. apply app_inv_head in C. cbn in C. congruence.
  - intros b C. rewrite <- app_assoc in C. apply app_inv_head in C. cbn in C. congruence.
Qed.

Lemma dangling_dec d P a : dangling d P a \/ ~ dangling d P a.
Proof.
  unfold dangling. destruct (at_place d (P ++ [a])) as [[c| |t]|]; try (right; intros (t' & E & _); discriminate).
  destruct (not_exist (walk 39 d true (if absolute t then [] else P) (names t))) eqn:E.
  - left. exists t. split; [reflexivity|]. now apply walk_nowhere.
  - right. intros (t' & Q & N). injection Q as <-. apply walk_nowhere in N. congruence.
Qed.
Lemma blocked_dec d P a : blocked d P a \/ ~ blocked d P a.
Proof.
  unfold blocked. destruct (dangling_dec d P a) as [H|H]; [auto|]. destruct (at_place d (P ++ [a])) as [[c| |t]|]; try (right; intros [C|[C _]]; [tauto|discriminate]).
  destruct (is_empty_dir d (P ++ [a])) eqn:E; [right|left; right; split; [reflexivity|now apply empty_dir_ok]].
  intros [C|[_ C]]; [tauto|]. apply empty_dir_ok in C. congruence.
Qed.

(** ** C100 *)

(** Every outcome of a run with a plain alias or none. *)
Theorem C100_run_exact : forall cls n d i, class_name cls = Ok n -> ready d n (pkeygen_id (in_pub i)) -> good_numbers i ->
  in_alias i = [] \/ plain_name (in_alias i) ->
  let id := pkeygen_id (in_pub i) in
  let asked := in_alias i <> [] /\ at_place d (class_place n ++ [in_alias i]) <> None /\ ~ dangling d (class_place n) (in_alias i) in
  (asked -> ~ consents i -> process_key d cls i = (d, Exit 1)) /\
  (~ good_phrases i -> process_key d cls i = (d, Exit 1)) /\
  ((asked -> consents i) -> good_phrases i ->
    exists d1, with_key d d1 n id (priv_text (key_schedule (pkeygen_secret (in_phrase1 i))) (in_nonce i) (in_priv i)) (pub_text (in_pub i)) /\
      (in_alias i = [] -> process_key d cls i = (d1, Done)) /\
      (in_alias i <> [] -> blocked d1 (class_place n) (in_alias i) -> process_key d cls i = (d1, Exit 1)) /\
      (in_alias i <> [] -> ~ blocked d1 (class_place n) (in_alias i) ->
        exists d2, process_key d cls i = (d2, Done) /\ with_link d1 d2 (class_place n ++ [in_alias i]) (etc_of n ++ str "/" ++ id))).
Proof.
  intros cls n d i Hc Rd Gn Al. cbv zeta. pose proof (class_known cls n Hc) as Hn.
  assert (Np : plain_name (in_alias i) -> names (etc_of n ++ str "/" ++ in_alias i) = class_place n ++ [in_alias i]) by (apply dir_names, Hn).
  assert (Ck : plain_name (in_alias i) -> (check_path_exist d (etc_of n ++ str "/" ++ in_alias i) = true <-> goes d (class_place n) (in_alias i))).
  { intros P. apply check_ok; [exact Hn|exact P|exact (Np P)|apply Rd|apply (ready_class d n (pkeygen_id (in_pub i))), Rd]. }
  split; [|split].
  - intros (Na & A1 & A2) Nc. destruct Al as [Al|Al]; [now destruct Na|].
    unfold process_key. rewrite (etc_dir_ok cls n Hc). cbv zeta. rewrite (proj2 (Ck Al)) by (split; assumption).
    assert (bytes_eqb (in_alias i) [] = false) as -> by (apply not_true_iff_false; rewrite bytes_eqb_spec; exact Na). cbn [negb andb].
    rewrite <- answer_ok, not_false_iff_true in Nc. now rewrite Nc.
  - intros Ng. unfold process_key. rewrite (etc_dir_ok cls n Hc). cbv zeta. rewrite <- prompt_ok, not_true_iff_false in Ng. rewrite Ng. cbn [negb].
    match goal with |- (if ?c then _ else _) = _ => now destruct c end.
  - intros C G. destruct (run_ok cls n d i Hc Hn Rd Gn G) as (d1 & W & R1 & R2). exists d1. split; [exact W|]. split; [exact R1|].
    assert (X : in_alias i <> [] -> (blocked d1 (class_place n) (in_alias i) -> process_key d cls i = (d1, Exit 1)) /\
      (~ blocked d1 (class_place n) (in_alias i) -> exists d2, process_key d cls i = (d2, Done) /\
       with_link d1 d2 (class_place n ++ [in_alias i]) (etc_of n ++ str "/" ++ pkeygen_id (in_pub i)))).
    { intros Na. destruct Al as [Al|Al]; [now destruct Na|]. apply R2; auto; [now apply class_plain|eapply class_dirs; exact W|].
      intros K. apply Ck in K; [|exact Al]. destruct K. apply C. auto. }
    split; intros Na; apply (X Na).
Qed.
Print Assumptions C100_run_exact.

(** When the run ends well, the key can be read under its own name and under the alias. *)
Theorem C100_alias_partial : forall cls n d i d', class_name cls = Ok n -> ready d n (pkeygen_id (in_pub i)) -> good_numbers i ->
  plain_name (in_alias i) -> process_key d cls i = (d', Done) ->
  forall name, name = in_alias i \/ name = pkeygen_id (in_pub i) ->
  load_pub_key d' cls name = Ok (in_pub i) /\ load_priv_key d' cls name (pkeygen_secret (in_phrase1 i)) = Ok (in_priv i) /\
  exist_pub_key d' cls name = Ok true /\ exist_priv_key d' cls name = Ok true.
Proof.
  intros cls n d i d' Hc Rd Gn Al Run name Hname. pose proof (class_known cls n Hc) as Hn.
  destruct (C100_run_exact cls n d i Hc Rd Gn (or_intror Al)) as (X1 & X2 & X3). cbv zeta in X1, X2, X3.
  assert (Na : in_alias i <> []) by apply Al. assert (Pid : plain_name (pkeygen_id (in_pub i))) by apply id_plain, Gn.
  assert (G : good_phrases i). { apply prompt_ok. destruct (prompt_twice (in_phrase1 i) (in_phrase2 i)) eqn:E; [reflexivity|].
    rewrite X2 in Run; [discriminate|]. rewrite <- prompt_ok, E. discriminate. }
  assert (C : in_alias i <> [] /\ at_place d (class_place n ++ [in_alias i]) <> None /\ ~ dangling d (class_place n) (in_alias i) -> consents i).
  { intros A. apply answer_ok. destruct (negb _ && negb _ && negb _) eqn:E; [|reflexivity]. rewrite X1 in Run; [discriminate|exact A|]. rewrite <- answer_ok, E. discriminate. }
  destruct (X3 C G) as (d1 & W & _ & B1 & B2). clear X1 X2 X3.
  assert (NB : ~ blocked d1 (class_place n) (in_alias i)). { intros B. rewrite (B1 Na B) in Run. discriminate. }
  destruct (B2 Na NB) as (d2 & E & L & K). rewrite E in Run. injection Run as <-.
  assert (Ne : in_alias i <> pkeygen_id (in_pub i)). { intros Q. apply NB. rewrite Q. eapply key_not_blocked, W. }
  pose proof W as (W1 & W2 & W3 & W4). destruct Gn as (Hp & Hv & Hl).
  apply (load_ok cls n (pkeygen_id (in_pub i)) Hc Hn Pid d2 name (in_pub i) (in_priv i) (pkeygen_secret (in_phrase1 i)) (in_nonce i));
    [destruct Hname; subst name; assumption| | | | |lia|exact Hv|exact Hl|apply secret_ok].
  - intros p q Q N. rewrite K; [exact (W3 p q Q N)|]. intros Q'. subst p. rewrite <- app_assoc in Q. apply app_inv_head in Q. cbn in Q. congruence.
  - destruct Hname as [->| ->]; [right; exact L|left; reflexivity].
  - rewrite K; [exact W1|]. intros Q. rewrite <- app_assoc in Q. apply app_inv_head in Q. discriminate Q.
  - rewrite K; [exact W2|]. intros Q. rewrite <- app_assoc in Q. apply app_inv_head in Q. discriminate Q.
Qed.
Print Assumptions C100_alias_partial.

(** With consent, an alias that is new, or is a link to the directory of another key, is made to name the new key. *)
Theorem C100_rotate_partial : forall cls n d i, class_name cls = Ok n -> ready d n (pkeygen_id (in_pub i)) -> good_numbers i ->
  plain_name (in_alias i) -> in_alias i <> pkeygen_id (in_pub i) -> good_phrases i ->
  (at_place d (class_place n ++ [in_alias i]) = None \/
   (consents i /\ exists old : bytes, plain_name old /\ at_place d (class_place n ++ [old]) = Some NDir /\
      at_place d (class_place n ++ [in_alias i]) = Some (NLink (etc_of n ++ str "/" ++ old)))) ->
  exists d', process_key d cls i = (d', Done) /\
    load_pub_key d' cls (in_alias i) = Ok (in_pub i) /\ load_priv_key d' cls (in_alias i) (pkeygen_secret (in_phrase1 i)) = Ok (in_priv i).
Proof.
  intros cls n d i Hc Rd Gn Al Ne G H. pose proof (class_known cls n Hc) as Hn.
  destruct (C100_run_exact cls n d i Hc Rd Gn (or_intror Al)) as (_ & _ & X3). cbv zeta in X3.
  assert (Na : in_alias i <> []) by apply Al.
  destruct X3 as (d1 & W & _ & _ & B2); [|exact G|].
  { intros (_ & A & _). destruct H as [H|[H _]]; [now destruct A|exact H]. }
  pose proof (sibling_kept _ _ _ _ _ _ _ W Ne []) as Q. cbn [app] in Q.
  destruct B2 as (d2 & E & _); [exact Na| |].
  { intros [(t & A & N)|[A _]]; rewrite Q in A; destruct H as [H|[_ (old & Po & O & H)]]; rewrite H in A; try discriminate.
    assert (t = etc_of n ++ str "/" ++ old) as -> by congruence. apply walk_nowhere in N.
    replace (absolute (etc_of n ++ str "/" ++ old)) with true in N by reflexivity. rewrite (dir_names n Hn old Po) in N.
    assert (O1 : at_place d1 (class_place n ++ [old]) = Some NDir).
    { destruct (bytes_eqb old (pkeygen_id (in_pub i))) eqn:Eo.
      - apply bytes_eqb_spec in Eo. subst old. destruct W as (_ & _ & W3 & _). apply (W3 _ []); [now rewrite app_nil_r|apply snoc_ne].
      - assert (No : old <> pkeygen_id (in_pub i)) by (intros C; apply bytes_eqb_spec in C; congruence).
        pose proof (sibling_kept _ _ _ _ _ _ old W No []) as Q'. cbn [app] in Q'. rewrite Q'. exact O. }
    rewrite walk_dirs in N; [|now apply class_plain|apply (class_dirs _ _ _ _ _ _ W)].
    rewrite walk_end in N by exact Po. cbn [app] in N. rewrite O1 in N. discriminate. }
  exists d2. split; [exact E|]. destruct (C100_alias_partial cls n d i d2 Hc Rd Gn Al E (in_alias i) (or_introl eq_refl)) as (L1 & L2 & _). auto.
Qed.
Print Assumptions C100_rotate_partial.

(** An alias that is a link to a directory that is gone cannot be used again, not even with force: the key is stored and the
    run fails. *)
Lemma dangling_fails cls n d i (gone : bytes) : class_name cls = Ok n -> ready d n (pkeygen_id (in_pub i)) -> good_numbers i ->
  plain_name (in_alias i) -> in_alias i <> pkeygen_id (in_pub i) -> good_phrases i ->
  plain_name gone -> gone <> pkeygen_id (in_pub i) -> at_place d (class_place n ++ [gone]) = None ->
  at_place d (class_place n ++ [in_alias i]) = Some (NLink (etc_of n ++ str "/" ++ gone)) ->
  exists d', process_key d cls i = (d', Exit 1) /\ load_pub_key d' cls (pkeygen_id (in_pub i)) = Ok (in_pub i) /\ load_pub_key d' cls (in_alias i) = Err.
Proof.
  intros Hc Rd Gn Al Ne G Pg Ng A0 A. pose proof (class_known cls n Hc) as Hn.
  destruct (C100_run_exact cls n d i Hc Rd Gn (or_intror Al)) as (_ & _ & X3). cbv zeta in X3.
  assert (R0 : real_path d (class_place n)) by (apply (ready_class d n (pkeygen_id (in_pub i))), Rd).
  assert (D0 : forall p q, class_place n = p ++ q -> p <> [] -> at_place d p = Some NDir).
  { intros p q E N. apply (tidy_up d (proj1 Rd) (q ++ [in_alias i]) p); [rewrite app_assoc, <- E, A; discriminate|now destruct q]. }
  assert (Nw : forall d' l, (forall p q, class_place n = p ++ q -> p <> [] -> at_place d' p = Some NDir) -> at_place d' (class_place n ++ [gone]) = None ->
    nowhere d' l [] (names (etc_of n ++ str "/" ++ gone))).
  { intros d' l D' N. apply walk_nowhere. rewrite (dir_names n Hn gone Pg). rewrite walk_dirs; [|now apply class_plain|exact D'].
    rewrite walk_end by exact Pg. cbn [app]. now rewrite N. }
  destruct X3 as (d1 & W & _ & B1 & _); [|exact G|].
  { intros (_ & _ & Nd). destruct Nd. exists (etc_of n ++ str "/" ++ gone). split; [exact A|]. apply Nw; assumption. }
  pose proof (sibling_kept _ _ _ _ _ _ _ W Ne []) as Q. cbn [app] in Q. pose proof (sibling_kept _ _ _ _ _ _ _ W Ng []) as Q0. cbn [app] in Q0.
  pose proof (class_dirs _ _ _ _ _ _ W) as D1.
  exists d1. split; [|split].
  - apply B1; [apply Al|]. left. exists (etc_of n ++ str "/" ++ gone). split; [now rewrite Q|]. apply Nw; [exact D1|now rewrite Q0].
  - destruct W as (W1 & W2 & W3 & _). destruct Gn as (Hp & Hv & Hl).
    apply (load_ok cls n (pkeygen_id (in_pub i)) Hc Hn (id_plain _ (proj1 Hp)) d1 (pkeygen_id (in_pub i)) (in_pub i) (in_priv i) (pkeygen_secret (in_phrase1 i)) (in_nonce i)); auto; [apply id_plain, Hp|lia|apply secret_ok].
  - destruct (paths_of cls n (in_alias i) Hc Hn) as (dir & _ & Ep & _ & _ & _ & Edir). unfold load_pub_key. rewrite Ep. cbn [rbind].
    unfold read_file, stat. rewrite names_snoc by apply (names_plain n Hn). subst dir. rewrite (dir_names n Hn (in_alias i) Al). rewrite <- app_assoc.
    rewrite walk_dirs; [|now apply class_plain|exact D1]. cbn [app]. rewrite walk_cons, (not_up _ Al). rewrite Q, A.
    replace (absolute (etc_of n ++ str "/" ++ gone)) with true by reflexivity. rewrite (dir_names n Hn gone Pg). rewrite <- app_assoc.
    rewrite walk_dirs; [|now apply class_plain|exact D1]. cbn [app]. rewrite walk_cons, (not_up _ Pg), Q0, A0. reflexivity.
Qed.

Definition demo_input (alias : bytes) : input := Input alias true [] (str "passphrase") (str "passphrase") 0x4a7f 99 (repeat x07 12).
Definition demo_dirs : disk := [([str "etc"], NDir); ([str "etc"; str "poodle"], NDir); (class_place (str "node"), NDir)].
Definition demo_gone : disk := (class_place (str "node") ++ [str "me"], NLink (str "/etc/poodle/node/gone")) :: demo_dirs.
Definition demo_old : disk :=
  (class_place (str "node") ++ [str "me"], NLink (str "/etc/poodle/node/1234")) ::
  (class_place (str "node") ++ [str "1234"; str "node_id"], NFile (str "secret")) ::
  (class_place (str "node") ++ [str "1234"], NDir) :: demo_dirs.
Lemma tidy_b d : forallb (fun e => match at_place d (removelast (fst e)) with Some NDir => true | _ => false end) d = true -> tidy d.
Proof.
  intros H p x N. apply at_some in N. destruct N as (e & I & E). rewrite forallb_forall in H. pose proof (H e I) as G. rewrite E, removelast_last in G.
  now destruct (at_place d p) as [[| |]|].
Qed.
Lemma real_path_b d p : forallb (fun k => match at_place d (firstn k p) with Some NDir | None => true | _ => false end) (seq 1 (List.length p)) = true -> real_path d p.
Proof.
  intros H a b E N. rewrite forallb_forall in H.
  assert (F : firstn (List.length a) p = a) by (rewrite E, firstn_app, firstn_all, Nat.sub_diag; cbn; apply app_nil_r).
  assert (L : In (List.length a) (seq 1 (List.length p))).
  { apply in_seq. rewrite E, app_length. destruct a; [now destruct N|]. cbn. lia. }
  pose proof (H _ L) as G. rewrite F in G. destruct (at_place d a) as [[| |]|]; try discriminate; auto.
Qed.
Lemma demo_id : pkeygen_id 0x4a7f = str "4a7f".
Proof. reflexivity. Qed.
Lemma demo_ready d : forallb (fun e => match at_place d (removelast (fst e)) with Some NDir => true | _ => false end) d = true ->
  forallb (fun k => match at_place d (firstn k (class_place (str "node") ++ [str "4a7f"])) with Some NDir | None => true | _ => false end) (seq 1 4) = true ->
  at_place d (class_place (str "node") ++ [str "4a7f"; str "node_id"]) = None -> at_place d (class_place (str "node") ++ [str "4a7f"; str "node_id.pub"]) = None ->
  ready d (str "node") (pkeygen_id 0x4a7f).
Proof. intros T R F1 F2. rewrite demo_id. split; [now apply tidy_b|]. split; [now apply real_path_b|]. split; left; assumption. Qed.
Lemma demo_numbers a : good_numbers (demo_input a).
Proof. split; [cbn; lia|]. split; [cbn; lia|reflexivity]. Qed.
Lemma demo_phrases a : good_phrases (demo_input a).
Proof. split; [cbn; lia|reflexivity]. Qed.
Example C100_run_exact_applies : class_name 1 = Ok (str "node") /\ ready demo_old (str "node") (pkeygen_id 0x4a7f) /\
  good_numbers (demo_input (str "me")) /\ plain_name (str "me") /\ good_phrases (demo_input (str "me")) /\ consents (demo_input (str "me")).
Proof.
  split; [reflexivity|]. split; [apply demo_ready; reflexivity|]. split; [apply demo_numbers|]. split; [apply plain_b_ok; reflexivity|].
  split; [apply demo_phrases|left; reflexivity].
Qed.
(** A run that gives the alias of an old key to a new one. *)
Example C100_rotate_partial_applies : exists d', process_key demo_old 1 (demo_input (str "me")) = (d', Done) /\
  load_pub_key d' 1 (str "me") = Ok 0x4a7f%Z /\ load_priv_key d' 1 (str "me") (pkeygen_secret (str "passphrase")) = Ok 99%Z.
Proof.
  destruct C100_run_exact_applies as (H1 & H2 & H3 & H4 & H5 & H6).
  apply (C100_rotate_partial 1 (str "node") demo_old (demo_input (str "me")) H1 H2 H3 H4); [discriminate|exact H5|].
  right. split; [exact H6|]. exists (str "1234"). split; [apply plain_b_ok; reflexivity|]. split; reflexivity.
Qed.
Example C100_alias_partial_applies : exists d', process_key demo_dirs 1 (demo_input (str "me")) = (d', Done) /\
  ready demo_dirs (str "node") (pkeygen_id 0x4a7f) /\ exist_priv_key d' 1 (str "me") = Ok true.
Proof.
  destruct C100_run_exact_applies as (H1 & _ & H3 & H4 & H5 & _).
  assert (R : ready demo_dirs (str "node") (pkeygen_id 0x4a7f)) by (apply demo_ready; reflexivity).
  destruct (C100_rotate_partial 1 (str "node") demo_dirs (demo_input (str "me")) H1 R H3 H4) as (d' & E & _); [discriminate|exact H5|left; reflexivity|].
  exists d'. split; [exact E|]. split; [exact R|]. apply (C100_alias_partial 1 (str "node") demo_dirs (demo_input (str "me")) d' H1 R H3 H4 E). now left.
Qed.

Theorem C100_refuted : exists d i d', in_force i = true /\ good_phrases i /\ good_numbers i /\ plain_name (in_alias i) /\
  ready d (str "node") (pkeygen_id (in_pub i)) /\
  process_key d 1 i = (d', Exit 1) /\ load_pub_key d' 1 (pkeygen_id (in_pub i)) = Ok (in_pub i) /\ load_pub_key d' 1 (in_alias i) = Err.
Proof.
  destruct C100_run_exact_applies as (H1 & _ & H3 & H4 & H5 & _).
  assert (R : ready demo_gone (str "node") (pkeygen_id 0x4a7f)) by (apply demo_ready; reflexivity).
  destruct (dangling_fails 1 (str "node") demo_gone (demo_input (str "me")) (str "gone") H1 R H3 H4) as (d' & E);
    [discriminate|exact H5|apply plain_b_ok; reflexivity|discriminate|reflexivity|reflexivity|].
  exists demo_gone, (demo_input (str "me")), d'. split; [reflexivity|]. split; [exact H5|]. split; [exact H3|]. split; [exact H4|]. split; [exact R|exact E].
Qed.
Print Assumptions C100_refuted.

(** ** C101 *)

(** On any file system and with any alias: a user who declines, or whose passphrase is refused, changes nothing. *)
Theorem C101_declined : forall cls n d i, class_name cls = Ok n -> in_alias i <> [] -> ~ consents i ->
  ~ nowhere d 40 [] (class_place n ++ names (in_alias i)) -> process_key d cls i = (d, Exit 1).
Proof.
  intros cls n d i Hc Na Nc Nw. unfold process_key. rewrite (etc_dir_ok cls n Hc). cbv zeta.
  rewrite <- (etc_names n (class_known cls n Hc)), <- names_join, <- check_names, not_false_iff_true in Nw. rewrite Nw.
  assert (bytes_eqb (in_alias i) [] = false) as -> by (apply not_true_iff_false; rewrite bytes_eqb_spec; exact Na). cbn [negb andb].
  rewrite <- answer_ok, not_false_iff_true in Nc. now rewrite Nc.
Qed.
Print Assumptions C101_declined.
Theorem C101_refused_phrase : forall cls d i, known_class cls -> ~ good_phrases i -> process_key d cls i = (d, Exit 1).
Proof.
  intros cls d i K Ng. destruct (class_cases cls) as [(_ & n & Hc & Hn)|(N & _)]; [|tauto].
  unfold process_key. rewrite (etc_dir_ok cls n Hc). cbv zeta. rewrite <- prompt_ok, not_true_iff_false in Ng. rewrite Ng. cbn [negb].
  match goal with |- (if ?c then _ else _) = _ => now destruct c end.
Qed.
Print Assumptions C101_refused_phrase.
(** The five names of classes, and what happens with others. *)
Theorem C101_class_flag : forall d class i,
  (exists cls, known_class cls /\ class_name cls = Ok class /\ keygen_main d class i = process_key d cls i) \/
  ((forall cls, class_name cls <> Ok class) /\ keygen_main d class i = (d, Exit 2)).
Proof.
  intros d class i. unfold keygen_main, class_of.
  destruct (bytes_eqb class (str "node")) eqn:E1; [apply bytes_eqb_spec in E1; left; exists 1%Z; subst; split; [unfold known_class; lia|split; reflexivity]|].
  destruct (bytes_eqb class (str "cluster")) eqn:E2; [apply bytes_eqb_spec in E2; left; exists 2%Z; subst; split; [unfold known_class; lia|split; reflexivity]|].
  destruct (bytes_eqb class (str "universe")) eqn:E3; [apply bytes_eqb_spec in E3; left; exists 3%Z; subst; split; [unfold known_class; lia|split; reflexivity]|].
  destruct (bytes_eqb class (str "service")) eqn:E4; [apply bytes_eqb_spec in E4; left; exists 4%Z; subst; split; [unfold known_class; lia|split; reflexivity]|].
  destruct (bytes_eqb class (str "federation")) eqn:E5; [apply bytes_eqb_spec in E5; left; exists 5%Z; subst; split; [unfold known_class; lia|split; reflexivity]|].
  right. split; [|reflexivity]. intros cls H. apply class_known in H.
  destruct H as [<-|[<-|[<-|[<-|[<-|[]]]]]]; discriminate.
Qed.
Print Assumptions C101_class_flag.

(** With a plain alias or none: whatever there is outside the two files of the new key and the alias stays, and nothing else
    comes but directories on the way to the key. *)
Theorem C101_untouched_partial : forall cls n d i d' o, class_name cls = Ok n -> ready d n (pkeygen_id (in_pub i)) -> good_numbers i ->
  in_alias i = [] \/ plain_name (in_alias i) -> process_key d cls i = (d', o) ->
  forall q, q <> class_place n ++ [pkeygen_id (in_pub i); n ++ str "_id"] -> q <> class_place n ++ [pkeygen_id (in_pub i); n ++ str "_id.pub"] ->
  (in_alias i = [] \/ q <> class_place n ++ [in_alias i]) ->
  at_place d' q = at_place d q \/
  (at_place d q = None /\ at_place d' q = Some NDir /\ exists r, class_place n ++ [pkeygen_id (in_pub i)] = q ++ r).
Proof.
  intros cls n d i d' o Hc Rd Gn Al Run q Q1 Q2 Q3.
  destruct (C100_run_exact cls n d i Hc Rd Gn Al) as (X1 & X2 & X3). cbv zeta in X1, X2, X3.
  destruct (prompt_twice (in_phrase1 i) (in_phrase2 i)) eqn:E.
  2:{ rewrite X2 in Run; [injection Run as <- <-; now left|]. rewrite <- prompt_ok, E. discriminate. }
  apply prompt_ok in E.
  destruct (process_key d cls i) as [d'' o'] eqn:Pr. injection Run as -> ->.
  assert (C : (d' = d) \/ (in_alias i <> [] /\ at_place d (class_place n ++ [in_alias i]) <> None /\ ~ dangling d (class_place n) (in_alias i) -> consents i)).
  { destruct (negb (in_force i) && negb (bytes_eqb (in_answer i) (str "y")) && negb (bytes_eqb (in_answer i) (str "Y"))) eqn:A; [|right; intros _; now apply answer_ok].
    assert (Nc : ~ consents i) by (rewrite <- answer_ok, A; discriminate).
    destruct Al as [Al|Al]; [right; intros (N & _); now destruct N|].
    destruct (check_path_exist d (etc_of n ++ str "/" ++ in_alias i)) eqn:Ck.
    - left. apply check_ok with (n := n) (a := in_alias i) in Ck;
        [|exact (class_known _ _ Hc)|exact Al|apply dir_names; [exact (class_known _ _ Hc)|exact Al]|apply Rd|apply (ready_class d n (pkeygen_id (in_pub i))), Rd].
      destruct Ck as [K1 K2]. assert (Y : (d', o) = (d, Exit 1)) by (apply X1; [split; [apply Al|auto]|exact Nc]). congruence.
    - right. intros (_ & K1 & K2). apply not_true_iff_false in Ck. destruct Ck. 
      apply check_ok with (n := n) (a := in_alias i); [exact (class_known _ _ Hc)|exact Al|apply dir_names; [exact (class_known _ _ Hc)|exact Al]|apply Rd|apply (ready_class d n (pkeygen_id (in_pub i))), Rd|]. split; assumption. }
  destruct C as [->|C]; [now left|].
  destruct (X3 C E) as (d1 & W & B0 & B1 & B2).
  assert (D1 : at_place d1 q = at_place d q \/ (at_place d q = None /\ at_place d1 q = Some NDir /\ exists r, class_place n ++ [pkeygen_id (in_pub i)] = q ++ r)).
  { destruct W as (_ & _ & W3 & W4). rewrite <- !app_assoc in W4. cbn [app] in W4.
    destruct (list_eq_dec (list_eq_dec Byte.byte_eq_dec) (firstn (List.length q) (class_place n ++ [pkeygen_id (in_pub i)])) q) as [F|F].
    - assert (Eq : class_place n ++ [pkeygen_id (in_pub i)] = q ++ skipn (List.length q) (class_place n ++ [pkeygen_id (in_pub i)])) by (rewrite <- F at 1; symmetry; apply firstn_skipn).
      destruct q as [|x q]; [left; reflexivity|]. destruct Rd as (_ & R & _).
      rewrite (W3 _ _ Eq) by discriminate. destruct (R _ _ Eq) as [N|N]; [discriminate| |]; rewrite N; [right|now left].
      split; [reflexivity|]. split; [reflexivity|]. eexists. exact Eq.
    - left. apply W4; [exact Q1|exact Q2|]. intros b Eb. apply F. rewrite Eb, firstn_app, firstn_all, Nat.sub_diag. cbn. apply app_nil_r. }
  destruct Al as [Al|Al]; [assert (d' = d1) as -> by (pose proof (B0 Al); congruence); exact D1|].
  assert (Na : in_alias i <> []) by apply Al. destruct Q3 as [Q3|Q3]; [now destruct Na|].
  destruct (blocked_dec d1 (class_place n) (in_alias i)) as [B|B]; [assert (d' = d1) as -> by (pose proof (B1 Na B); congruence); exact D1|].
  destruct (B2 Na B) as (d2 & Ed & _ & L). assert (d' = d2) as -> by congruence. rewrite (L q Q3). exact D1.
Qed.
Print Assumptions C101_untouched_partial.
Example C101_untouched_partial_applies : exists d', process_key demo_old 1 (demo_input (str "me")) = (d', Done) /\
  at_place demo_old (class_place (str "node") ++ [str "1234"; str "node_id"]) = Some (NFile (str "secret")) /\
  at_place d' (class_place (str "node") ++ [str "1234"; str "node_id"]) = Some (NFile (str "secret")).
Proof.
  destruct C100_run_exact_applies as (H1 & H2 & H3 & H4 & _). destruct C100_rotate_partial_applies as (d' & E & _). exists d'. split; [exact E|]. split; [reflexivity|].
  destruct (C101_untouched_partial 1 (str "node") demo_old (demo_input (str "me")) d' Done H1 H2 H3 (or_intror H4) E
    (class_place (str "node") ++ [str "1234"; str "node_id"])) as [K|(K & _)]; [discriminate|discriminate|right; discriminate| |].
  - rewrite K. reflexivity.
  - exfalso. revert K. change (Some (NFile (str "secret")) <> None). discriminate.
Qed.
Example C101_declined_applies : let i := Input (str "me") false (str "n") (str "passphrase") (str "passphrase") 0x4a7f 99 (repeat x07 12) in
  in_alias i <> [] /\ ~ consents i /\ ~ nowhere demo_old 40 [] (class_place (str "node") ++ names (in_alias i)).
Proof.
  cbv zeta. split; [discriminate|]. split; [intros [H|[H|H]]; discriminate|]. rewrite <- walk_nowhere. discriminate.
Qed.
Example C101_refused_phrase_applies : known_class 1 /\ ~ good_phrases (Input [] true [] (str "short") (str "short") 0x4a7f 99 (repeat x07 12)) /\
  ~ good_phrases (Input [] true [] (str "passphrase") (str "passphrasE") 0x4a7f 99 (repeat x07 12)).
Proof. split; [unfold known_class; lia|]. split; [intros [H _]; cbn in H; lia|intros [_ H]; discriminate]. Qed.

(** An alias with a slash reaches into the directory of another key. Forced, the run deletes the private key of that other key
    and ends as if all was well. *)
Theorem C101_slash_alias : forall cls n d i (other c : bytes), class_name cls = Ok n -> ready d n (pkeygen_id (in_pub i)) -> good_numbers i -> good_phrases i ->
  consents i -> plain_name other -> other <> pkeygen_id (in_pub i) -> in_alias i = other ++ str "/" ++ n ++ str "_id" ->
  at_place d (class_place n ++ [other; n ++ str "_id"]) = Some (NFile c) ->
  exists d', process_key d cls i = (d', Done) /\
    at_place d' (class_place n ++ [other; n ++ str "_id"]) = Some (NLink (etc_of n ++ str "/" ++ pkeygen_id (in_pub i))) /\
    forall secret, load_priv_key d' cls other secret = Err.
Proof.
  intros cls n d i other c Hc Rd Gn G Co Po Ne Ea A. pose proof (class_known cls n Hc) as Hn. destruct (names_plain n Hn) as (_ & Pv & _).
  destruct (run_ok cls n d i Hc Hn Rd Gn G) as (d1 & W & _ & R).
  pose proof (sibling_kept _ _ _ _ _ _ _ W Ne) as K. pose proof (class_dirs _ _ _ _ _ _ W) as D1.
  assert (Do : at_place d1 (class_place n ++ [other]) = Some NDir).
  { rewrite <- (app_nil_r [other]), K, app_nil_r. apply (proj1 Rd _ (n ++ str "_id")). rewrite <- app_assoc. intros C. assert (Z : Some (NFile c) = None) by exact (eq_trans (eq_sym A) C). discriminate Z. }
  assert (D2 : forall p q, class_place n ++ [other] = p ++ q -> p <> [] -> at_place d1 p = Some NDir).
  { intros p q E N. destruct (prefix_cases _ _ _ _ E) as [[-> ->]|(b' & -> & E')]; [exact Do|now apply (D1 p b')]. }
  assert (Pl : Forall plain_name (class_place n ++ [other])). { apply Forall_app. split; [now apply class_plain|constructor; [exact Po|constructor]]. }
  assert (Np : names (etc_of n ++ str "/" ++ in_alias i) = (class_place n ++ [other]) ++ [n ++ str "_id"]).
  { rewrite Ea, names_join, (names_snoc other _ Pv). rewrite (etc_names n Hn). rewrite app_assoc. f_equal. f_equal.
    destruct Po as (P0 & P1 & P2 & P3). unfold names. rewrite (split_no_slash other [] P0). cbn [app filter].
    destruct (bytes_eqb other []) eqn:E1; [apply bytes_eqb_spec in E1; now subst|].
    destruct (bytes_eqb other (str ".")) eqn:E2; [apply bytes_eqb_spec in E2; now subst|]. reflexivity. }
  assert (A1 : at_place d1 ((class_place n ++ [other]) ++ [n ++ str "_id"]) = Some (NFile c)).
  { rewrite <- app_assoc. rewrite K. exact A. }
  destruct (R (class_place n ++ [other]) (n ++ str "_id")) as (_ & R2); [rewrite Ea; now destruct other|exact Pl|exact Pv|exact Np|exact D2|auto|].
  destruct R2 as (d2 & E & L & O).
  { intros [(t & B & _)|[B _]]; pose proof (eq_trans (eq_sym A1) B) as Z; discriminate Z. }
  exists d2. split; [exact E|]. rewrite <- app_assoc in L. split; [exact L|].
  intros secret. destruct (paths_of cls n other Hc Hn) as (dir & _ & _ & Ev & _ & _ & Edir). unfold load_priv_key. rewrite Ev. cbn [rbind].
  assert (Lt : forall (p q : place), (class_place n ++ [pkeygen_id (in_pub i)]) = p ++ q \/ class_place n ++ [other] = p ++ q -> p <> (class_place n ++ [other]) ++ [n ++ str "_id"]).
  { intros p q [Q|Q] C; apply (f_equal (@List.length bytes)) in Q; subst p; rewrite !app_length in Q; cbn in Q; lia. }
  unfold read_file, stat. rewrite names_snoc by exact Pv. subst dir. rewrite (dir_names n Hn other Po).
  rewrite walk_dirs; [|exact Pl|].
  2:{ intros p q Q N. rewrite O; [exact (D2 p q Q N)|]. apply (Lt p q). now right. }
  rewrite walk_end by exact Pv. cbn [app]. rewrite <- app_assoc. cbn [app] in L |- *. rewrite L.
  replace (absolute (etc_of n ++ str "/" ++ pkeygen_id (in_pub i))) with true by reflexivity.
  pose proof (id_plain (in_pub i) (proj1 (proj1 Gn))) as Pid. rewrite (dir_names n Hn _ Pid).
  rewrite <- (app_nil_r (class_place n ++ [pkeygen_id (in_pub i)])).
  assert (D3 : forall p q, class_place n ++ [pkeygen_id (in_pub i)] = p ++ q -> p <> [] -> at_place d2 p = Some NDir).
  { intros p q Q N. rewrite O; [destruct W as (_ & _ & W3 & _); exact (W3 p q Q N)|]. apply (Lt p q). now left. }
  rewrite walk_dirs; [|apply Forall_app; split; [now apply class_plain|constructor; [exact Pid|constructor]]|exact D3].
  rewrite walk_nil. cbn [app]. rewrite (D3 _ []); [reflexivity|now rewrite app_nil_r|apply snoc_ne].
Qed.
Print Assumptions C101_slash_alias.
Theorem C101_refuted : exists d i d', ready d (str "node") (pkeygen_id (in_pub i)) /\ good_numbers i /\ process_key d 1 i = (d', Done) /\
  at_place d (class_place (str "node") ++ [str "1234"; str "node_id"]) = Some (NFile (str "secret")) /\ pkeygen_id (in_pub i) <> str "1234" /\
  (forall c, at_place d' (class_place (str "node") ++ [str "1234"; str "node_id"]) <> Some (NFile c)) /\
  forall secret, load_priv_key d' 1 (str "1234") secret = Err.
Proof.
  destruct C100_run_exact_applies as (H1 & H2 & _).
  destruct (C101_slash_alias 1 (str "node") demo_old (demo_input (str "1234/node_id")) (str "1234") (str "secret") H1 H2 (demo_numbers _) (demo_phrases _)) as (d' & E & L & X);
    [left; reflexivity|apply plain_b_ok; reflexivity|discriminate|reflexivity|reflexivity|].
  exists demo_old, (demo_input (str "1234/node_id")), d'. split; [exact H2|]. split; [apply demo_numbers|]. split; [exact E|]. split; [reflexivity|]. split; [discriminate|].
  split; [|exact X]. intros c C. pose proof (eq_trans (eq_sym L) C) as Z. discriminate Z.
Qed.
Print Assumptions C101_refuted.

(** A file where a directory should be. Nothing is written; the run ends with code 1 if the file has the name of the key
    directory, and crashes if it has the name of a directory above. *)
Theorem C101_in_the_way : forall cls n d i (up : place) (x : bytes) (rest : place) c, class_name cls = Ok n -> (0 < in_pub i)%Z ->
  good_phrases i -> in_alias i = [] \/ consents i ->
  class_place n ++ [pkeygen_id (in_pub i)] = up ++ x :: rest ->
  (forall p q, up = p ++ q -> p <> [] -> at_place d p = Some NDir) -> at_place d (up ++ [x]) = Some (NFile c) ->
  (rest = [] -> process_key d cls i = (d, Exit 1)) /\ (rest <> [] -> process_key d cls i = (d, Crashed)).
Proof.
  intros cls n d i up x rest c Hc Pub G C E D F. pose proof (class_known _ _ Hc) as Hn.
  pose proof (id_plain (in_pub i) Pub) as Pid. set (id := pkeygen_id (in_pub i)) in *.
  assert (Pl : Forall plain_name (up ++ x :: rest)).
  { rewrite <- E. apply Forall_app. split; [now apply class_plain|constructor; [exact Pid|constructor]]. }
  apply Forall_app in Pl. destruct Pl as (Pu & Px).
  destruct (paths_of cls n id Hc Hn) as (dir & Ed & Ep & Ev & _ & _ & Edir).
  assert (St : stat d dir = match rest with [] => Here (up ++ [x]) | _ => NotDir end).
  { unfold stat. subst dir. rewrite (dir_names n Hn id Pid), E. rewrite walk_dirs by assumption.
    rewrite walk_cons, (not_up x (Forall_inv Px)). cbn [app]. rewrite F. reflexivity. }
  assert (Sv : save_key_pair d cls id (in_pub i) (in_priv i) (pkeygen_secret (in_phrase1 i)) (in_nonce i) =
    (d, match rest with [] => Err | _ => Panic end)).
  { unfold save_key_pair. rewrite Ed, Ep, Ev. unfold mkdir_if_not_exist. rewrite St. destruct rest; cbn [not_exist]; rewrite St; [rewrite F|]; reflexivity. }
  apply prompt_ok in G. unfold process_key. rewrite (etc_dir_ok cls n Hc). cbv zeta. fold id. rewrite G, Sv. cbn [negb].
  match goal with |- context [if ?a && ?b && ?f && ?y && ?z then _ else _] => assert (a && b && f && y && z = false) as -> end.
  { destruct C as [-> | C]; [reflexivity|]. apply answer_ok in C. rewrite <- !andb_assoc in *. rewrite C. now rewrite !andb_false_r. }
  split; intros R; destruct rest; try reflexivity; congruence.
Qed.
Print Assumptions C101_in_the_way.
(** /etc/poodle is a file, or the name of the key directory is taken by a file. *)
Example C101_in_the_way_applies :
  (let d := [([str "etc"], NDir); ([str "etc"; str "poodle"], NFile (str "x"))] in process_key d 1 (demo_input []) = (d, Crashed)) /\
  (let d := (class_place (str "node") ++ [pkeygen_id 0x4a7f], NFile (str "x")) :: demo_dirs in process_key d 1 (demo_input []) = (d, Exit 1)).
Proof.
  split; cbv zeta.
  - apply (C101_in_the_way 1 (str "node") _ (demo_input []) [str "etc"] (str "poodle") [str "node"; pkeygen_id 0x4a7f] (str "x"));
      [reflexivity|reflexivity|apply demo_phrases|now left|reflexivity| |reflexivity|discriminate].
    intros p q E N. destruct p as [|a p]; [congruence|]. injection E as <- E. destruct p; [|discriminate]. reflexivity.
  - apply (C101_in_the_way 1 (str "node") _ (demo_input []) (class_place (str "node")) (pkeygen_id 0x4a7f) [] (str "x"));
      [reflexivity|reflexivity|apply demo_phrases|now left|reflexivity| |reflexivity|reflexivity].
    intros p q E N. destruct p as [|a [|b [|c [|e p]]]]; [congruence| | | |discriminate E]; injection E; intros; subst; reflexivity.
Qed.

(** A link to nothing where a directory should be: the link stays, nothing is made, and the run crashes. *)
Lemma nowhere_app d l cwd ns rest : nowhere d l cwd ns -> nowhere d l cwd (ns ++ rest).
Proof.
  induction 1 as [l cwd x ns N E|l cwd ns H IH|l cwd x ns N E H IH|l cwd x ns t N E H IH]; cbn [app].
  - now apply no_name.
  - now apply no_up.
  - now apply no_dir.
  - eapply no_link; [exact N|exact E|]. now rewrite app_assoc.
Qed.
Lemma dangling_nowhere d (up : place) (x : bytes) rest : Forall plain_name up -> plain_name x ->
  (forall p q, up = p ++ q -> p <> [] -> at_place d p = Some NDir) -> dangling d up x -> not_exist (walk 40 d true [] (up ++ x :: rest)) = true.
Proof.
  intros Pu Px D (t & E & N). rewrite walk_dirs by assumption. apply walk_nowhere. cbn [app].
  eapply (no_link d 39 up x rest t); [intros ->; pose proof (not_up _ Px) as Q; discriminate Q|exact E|]. now apply nowhere_app.
Qed.
Lemma mkdir_all_step d rns : mkdir_all d rns =
  match walk 40 d true [] (rev rns) with
  | Here p => (d, match at_place d p with Some NDir => true | _ => false end)
  | _ => match rns with [] => (d, true) | _ :: up => let (d1, ok) := mkdir_all d up in if ok : bool then mkdir d1 (rev rns) else (d1, false) end
  end.
Proof. now destruct rns. Qed.
Lemma dangling_mkdir d (up : place) (x : bytes) : Forall plain_name up -> plain_name x ->
  (forall p q, up = p ++ q -> p <> [] -> at_place d p = Some NDir) -> dangling d up x ->
  forall rest, mkdir_all d (rev (up ++ x :: rest)) = (d, false).
Proof.
  intros Pu Px D L. assert (W : forall rest, not_exist (walk 40 d true [] (up ++ x :: rest)) = true) by (intros; now apply dangling_nowhere).
  assert (U : mkdir_all d (rev up) = (d, true)).
  { rewrite mkdir_all_step, rev_involutive. rewrite <- (app_nil_r up) at 1. rewrite walk_dirs, walk_nil by assumption. cbn [app].
    destruct up as [|u up']; [reflexivity|]. rewrite (D (u :: up') []); [reflexivity|now rewrite app_nil_r|discriminate]. }
  assert (M : mkdir d (up ++ [x]) = (d, false)).
  { unfold mkdir. rewrite walk_dirs by assumption. cbn [app]. rewrite walk_end by exact Px. destruct L as (t & E & _). now rewrite E. }
  induction rest as [|y rest IH] using rev_ind.
  - rewrite mkdir_all_step, rev_involutive. specialize (W []). replace (rev (up ++ [x])) with (x :: rev up) by (now rewrite rev_app_distr). rewrite U, M.
    destruct (walk 40 d true [] (up ++ [x])); try discriminate W; reflexivity.
  - rewrite mkdir_all_step, rev_involutive. specialize (W (rest ++ [y])).
    replace (rev (up ++ x :: rest ++ [y])) with (y :: rev (up ++ x :: rest)) by (rewrite !rev_app_distr; cbn [rev]; rewrite rev_app_distr; cbn [rev app]; now rewrite <- app_assoc).
    rewrite IH. destruct (walk 40 d true [] (up ++ x :: rest ++ [y])); try discriminate W; reflexivity.
Qed.
Theorem C101_dangling_dir : forall cls n d i (up : place) (x : bytes) (rest : place), class_name cls = Ok n -> (0 < in_pub i)%Z ->
  good_phrases i -> in_alias i = [] \/ consents i ->
  class_place n ++ [pkeygen_id (in_pub i)] = up ++ x :: rest ->
  (forall p q, up = p ++ q -> p <> [] -> at_place d p = Some NDir) -> dangling d up x ->
  process_key d cls i = (d, Crashed).
Proof.
  intros cls n d i up x rest Hc Pub G C E D F. pose proof (class_known _ _ Hc) as Hn.
  pose proof (id_plain (in_pub i) Pub) as Pid. set (id := pkeygen_id (in_pub i)) in *.
  assert (Pl : Forall plain_name (up ++ x :: rest)).
  { rewrite <- E. apply Forall_app. split; [now apply class_plain|constructor; [exact Pid|constructor]]. }
  apply Forall_app in Pl. destruct Pl as (Pu & Px). pose proof (Forall_inv Px) as Px'.
  destruct (paths_of cls n id Hc Hn) as (dir & Ed & Ep & Ev & _ & _ & Edir).
  assert (Nm : names dir = up ++ x :: rest) by (subst dir; now rewrite (dir_names n Hn id Pid), E).
  assert (St : not_exist (stat d dir) = true) by (unfold stat; rewrite Nm; now apply dangling_nowhere).
  assert (Sv : save_key_pair d cls id (in_pub i) (in_priv i) (pkeygen_secret (in_phrase1 i)) (in_nonce i) = (d, Panic)).
  { unfold save_key_pair. rewrite Ed, Ep, Ev. unfold mkdir_if_not_exist. rewrite St, Nm, (dangling_mkdir d up x Pu Px' D F rest). cbn [fst].
    destruct (stat d dir); try discriminate St; reflexivity. }
  apply prompt_ok in G. unfold process_key. rewrite (etc_dir_ok cls n Hc). cbv zeta. fold id. rewrite G, Sv. cbn [negb].
  match goal with |- context [if ?a && ?b && ?f && ?y && ?z then _ else _] => assert (a && b && f && y && z = false) as -> end.
  { destruct C as [-> | C]; [reflexivity|]. apply answer_ok in C. rewrite <- !andb_assoc in *. rewrite C. now rewrite !andb_false_r. }
  reflexivity.
Qed.
Print Assumptions C101_dangling_dir.
(** /etc/poodle is a link to a directory that is not there. *)
Example C101_dangling_dir_applies :
  let d := [([str "etc"], NDir); ([str "etc"; str "poodle"], NLink (str "/gone"))] in process_key d 1 (demo_input []) = (d, Crashed).
Proof.
  cbv zeta. apply (C101_dangling_dir 1 (str "node") _ (demo_input []) [str "etc"] (str "poodle") [str "node"; pkeygen_id 0x4a7f]);
    [reflexivity|reflexivity|apply demo_phrases|now left|reflexivity| |].
  - intros p q E N. destruct p as [|a p]; [congruence|]. injection E as <- E. destruct p; [|discriminate]. reflexivity.
  - exists (str "/gone"). split; [reflexivity|]. apply no_name; [discriminate|reflexivity].
Qed.
