(** * Paths of a node: C120, and of keys: C70. *)
From Coq Require Import List ZArith Lia Bool.
From Coq Require Import Strings.Byte Strings.String.
From Verif Require Import Base BaseProofs KeyStoreModel KeyStoreSpec KeyStoreProofs KeyStoreProps NodePathModel NodePathSpec.
Import ListNotations.
Local Open Scope list_scope.

(** The path that the code returns for an item. *)
Definition path_for (i : node_item) : res bytes :=
  match i with
  | Conf n => node_conf_path n
  | Lib n => Ok (lib_dir n)
  | Transactions n => Ok (transaction_log_dir n)
  | Domain n m => Ok (domain_dir n m)
  | Logs n => Ok (log_dir n)
  end.
(** The walk it should describe: a directory, and the texts to follow from it. *)
Definition etc_node : list bytes := [str "etc"; str "poodle"; str "node"].
Definition var_lib : list bytes := [str "var"; str "lib"; str "poodle"].
Definition var_log : list bytes := [str "var"; str "log"; str "poodle"].
Definition leads_to (i : node_item) (p : list bytes) : Prop :=
  match i with
  | Conf n => exists d, walks etc_node n d /\ p = d ++ [str "node.conf"]
  | Lib n => walks var_lib n p
  | Transactions n => exists d, walks var_lib n d /\ p = d ++ [str "transaction"]
  | Domain n m => exists d, walks var_lib n d /\ walks (d ++ [str "domain"]) m p
  | Logs n => walks var_log n p
  end.

Lemma path_for_ok i : exists s, path_for i = Ok s.
Proof. destruct i; eexists; reflexivity. Qed.

(** ** Walks *)
Lemma norm_enters d x : no_slash x -> enters d x (norm_step d x).
Proof.
  intros NS. unfold norm_step.
  destruct (bytes_eqb x []) eqn:E1; [apply bytes_eqb_spec in E1; subst; constructor|].
  destruct (bytes_eqb x (str ".")) eqn:E2; [apply bytes_eqb_spec in E2; subst; constructor|]. cbn [orb].
  destruct (bytes_eqb x (str "..")) eqn:E3.
  - apply bytes_eqb_spec in E3. subst x. destruct d as [|y d] using rev_ind; [now constructor|].
    rewrite removelast_last. now apply (EnterParent _ _ y).
  - apply EnterName. split; [exact NS|].
    split; [intros ->; discriminate|]. split; intros ->; discriminate.
Qed.
Lemma enters_norm d x d' : enters d x d' -> d' = norm_step d x.
Proof.
  intros H. inversion H; subst; try reflexivity.
  - unfold norm_step. cbn. now rewrite removelast_last.
  - symmetry. now apply norm_plain.
Qed.
Lemma walks_fold d s d' : walks d s d' -> d' = fold_left norm_step (split_slash [] s) d.
Proof.
  induction 1 as [d x d' NS H | d x d1 s d2 NS H W IH].
  - rewrite split_no_slash by assumption. now apply enters_norm.
  - rewrite split_app, split_no_slash by assumption. cbn [app fold_left]. apply enters_norm in H. now rewrite <- H.
Qed.
Lemma slash_cases s : no_slash s \/ exists x r, no_slash x /\ s = x ++ x2f :: r.
Proof.
  induction s as [|c s IH]; [left; intros []|].
  destruct (Byte.byte_eq_dec c x2f) as [->|N].
  - right. exists [], s. split; [intros []|reflexivity].
  - destruct IH as [NS | (x & r & NS & ->)].
    + left. intros [E|I]; [congruence|]. now apply NS.
    + right. exists (c :: x), r. split; [|reflexivity]. intros [E|I]; [congruence|]. now apply NS.
Qed.
Lemma fold_walks n : forall d s, (List.length s <= n)%nat -> walks d s (fold_left norm_step (split_slash [] s) d).
Proof.
  induction n as [|n IH]; intros d s L.
  - destruct s; [|cbn in L; lia]. apply WalkLast; [intros []|constructor].
  - destruct (slash_cases s) as [NS | (x & r & NS & ->)].
    + rewrite split_no_slash by assumption. apply WalkLast; [assumption|]. now apply norm_enters.
    + rewrite split_app, split_no_slash by assumption. cbn [app fold_left].
      apply (WalkOn _ _ (norm_step d x)); [assumption|now apply norm_enters|]. apply IH. rewrite app_length in L. cbn [List.length] in L. lia.
Qed.
Lemma walks_iff d s d' : walks d s d' <-> d' = fold_left norm_step (split_slash [] s) d.
Proof. split; [apply walks_fold|intros ->; now apply (fold_walks (List.length s))]. Qed.
(** Every text leads from every directory to one place. *)
Theorem C120_walk : forall d s, exists p, walks d s p /\ forall q, walks d s q -> q = p.
Proof. intros d s. eexists. split; [now apply walks_iff|]. intros q H. now apply walks_iff in H. Qed.
Print Assumptions C120_walk.
Example C120_walk_applies : walks [str "a"] (str "b/../c") [str "a"; str "c"].
Proof. apply walks_iff. reflexivity. Qed.

Lemma resolve_app a b : resolve (a ++ str "/" ++ b) = fold_left norm_step (split_slash [] b) (resolve a).
Proof. unfold resolve. change (str "/" ++ b) with (x2f :: b). now rewrite split_app, fold_left_app. Qed.
(** ** Every item, for all names: the path leads to the place that the walk through the names leads to, and to no other. *)
Theorem C120_exact : forall i s p, path_for i = Ok s -> (resolve s = p <-> leads_to i p).
Proof.
  assert (forall d n p, fold_left norm_step (split_slash [] n) d = p <-> walks d n p) as W
    by (intros; rewrite walks_iff; split; congruence).
  assert (forall d n x p, fold_left norm_step (split_slash [] n) d ++ [x] = p <-> exists e, walks d n e /\ p = e ++ [x]) as X.
  { intros d n x p. split.
    - intros <-. eexists. split; [now apply W|reflexivity].
    - intros (e & H & ->). apply W in H. now rewrite H. }
  intros i s p H. destruct i as [n|n|n|n m|n]; cbn [path_for leads_to] in *.
  - unfold node_conf_path in H. change (key_dir 1 n) with (Ok (str "/etc/poodle/node" ++ str "/" ++ n)) in H. cbn [rbind] in H.
    assert ((str "/etc/poodle/node" ++ str "/" ++ n) ++ str "/" ++ str "node.conf" = s) as <- by (inversion H; reflexivity).
    rewrite resolve_name by (apply plain_b_ok; reflexivity). rewrite resolve_app. apply X.
  - assert (str "/var/lib/poodle" ++ str "/" ++ n = s) as <- by (inversion H; reflexivity). rewrite resolve_app. apply W.
  - assert ((str "/var/lib/poodle" ++ str "/" ++ n) ++ str "/" ++ str "transaction" = s) as <- by (inversion H; reflexivity).
    rewrite resolve_name by (apply plain_b_ok; reflexivity). rewrite resolve_app. apply X.
  - assert (((str "/var/lib/poodle" ++ str "/" ++ n) ++ str "/" ++ str "domain") ++ str "/" ++ m = s) as <-
      by (inversion H; unfold domain_dir, lib_dir; rewrite <- !app_assoc; reflexivity).
    rewrite resolve_app, resolve_name by (apply plain_b_ok; reflexivity). rewrite resolve_app.
    change (resolve (str "/var/lib/poodle")) with var_lib. split.
    + intros E. eexists. split; [now apply W|]. now apply W.
    + intros (e & H1 & H2). apply W in H1, H2. rewrite H1. exact H2.
  - assert (str "/var/log/poodle" ++ str "/" ++ n = s) as <- by (inversion H; reflexivity). rewrite resolve_app. apply W.
Qed.
Print Assumptions C120_exact.
Example C120_exact_applies :
  path_for (Domain (str "n1") (str "../../x")) = Ok (str "/var/lib/poodle/n1/domain/../../x") /\
  leads_to (Domain (str "n1") (str "../../x")) (var_lib ++ [str "x"]).
Proof. split; [reflexivity|]. apply (C120_exact _ (str "/var/lib/poodle/n1/domain/../../x")); reflexivity. Qed.

(** ** Proper names: distinct places, below their directories, and none of them a key file. *)
Definition place (i : node_item) : list bytes :=
  match i with
  | Conf n => etc_node ++ [n; str "node.conf"]
  | Lib n => var_lib ++ [n]
  | Transactions n => var_lib ++ [n; str "transaction"]
  | Domain n m => var_lib ++ [n; str "domain"; m]
  | Logs n => var_log ++ [n]
  end.
Lemma walks_plain d n : plain_name n -> walks d n (d ++ [n]).
Proof. intros P. apply WalkLast; [apply P|now constructor]. Qed.
Theorem C120_places : forall i s, Forall plain_name (names_of i) -> path_for i = Ok s -> resolve s = place i.
Proof.
  intros i s F H. apply (C120_exact i s); [exact H|].
  destruct i as [n|n|n|n m|n]; cbn [names_of leads_to place] in *; apply Forall_inv in F as Pn || idtac.
  - eexists. split; [now apply walks_plain|reflexivity].
  - now apply walks_plain.
  - eexists. split; [now apply walks_plain|reflexivity].
  - pose proof (Forall_inv (Forall_inv_tail F)) as Pm. eexists. split; [now apply walks_plain|]. now apply (walks_plain ((var_lib ++ [n]) ++ [str "domain"])).
  - now apply walks_plain.
Qed.
Print Assumptions C120_places.
Example C120_places_applies : Forall plain_name (names_of (Domain (str "n1") (str "d.x"))) /\
  path_for (Domain (str "n1") (str "d.x")) = Ok (str "/var/lib/poodle/n1/domain/d.x").
Proof. split; [|reflexivity]. repeat constructor; apply plain_b_ok; reflexivity. Qed.
Theorem C120_distinct_partial : forall i j s t,
  Forall plain_name (names_of i) -> Forall plain_name (names_of j) -> path_for i = Ok s -> path_for j = Ok t ->
  resolve s = resolve t -> i = j.
Proof.
  intros i j s t Fi Fj Hi Hj E. rewrite (C120_places i s Fi Hi), (C120_places j t Fj Hj) in E.
  destruct i, j; cbn [place] in E; unfold etc_node, var_lib, var_log in E; cbn [app] in E; congruence || discriminate.
Qed.
Print Assumptions C120_distinct_partial.
Example C120_distinct_partial_applies : Forall plain_name (names_of (Domain (str "n1") (str "d1"))) /\
  Forall plain_name (names_of (Transactions (str "n1"))) /\
  path_for (Domain (str "n1") (str "d1")) = Ok (str "/var/lib/poodle/n1/domain/d1") /\
  path_for (Transactions (str "n1")) = Ok (str "/var/lib/poodle/n1/transaction").
Proof. split; [|split; [|split; reflexivity]]; repeat constructor; apply plain_b_ok; reflexivity. Qed.
Theorem C120_key_files_partial : forall i s pub cls id t,
  Forall plain_name (names_of i) -> path_for i = Ok s -> known_class cls -> plain_name id -> path_of pub cls id = Ok t ->
  resolve s <> resolve t.
Proof.
  intros i s pub cls id t F H K P Ht E. rewrite (C120_places i s F H) in E.
  assert (resolve t = match class_name cls with
    Ok n => etc_path n ++ [id; n ++ str (if pub then "_id.pub" else "_id")] | _ => [] end) as R.
  { destruct (class_cases cls) as [(_ & n & En & I) | (C & _)]; [|tauto]. rewrite En.
    destruct (paths_of cls n id En I) as (d & _ & Ep & Ev & Rp & Rv & Ed). rewrite Ed, (key_dir_plain n id I P) in Rp, Rv.
    destruct pub; cbn [path_of] in Ht.
    - rewrite Ep in Ht. assert (d ++ str "/" ++ n ++ str "_id.pub" = t) as <- by congruence. rewrite Ed, Rp. now rewrite <- app_assoc.
    - rewrite Ev in Ht. assert (d ++ str "/" ++ n ++ str "_id" = t) as <- by congruence. rewrite Ed, Rv. now rewrite <- app_assoc. }
  rewrite R in E. assert (cls = 1 \/ cls = 2 \/ cls = 3 \/ cls = 4 \/ cls = 5)%Z as Cs by (unfold known_class in K; lia).
  destruct Cs as [-> | [-> | [-> | [-> | ->]]]]; destruct i, pub; vm_compute in E; discriminate.
Qed.
Print Assumptions C120_key_files_partial.
Example C120_key_files_partial_applies : plain_name (str "n1") /\ path_for (Conf (str "n1")) = Ok (str "/etc/poodle/node/n1/node.conf") /\
  path_of false 1 (str "n1") = Ok (str "/etc/poodle/node/n1/node_id").
Proof. split; [apply plain_b_ok; reflexivity|]. split; reflexivity. Qed.
(** What belongs to a node lies in a directory of that node, apart from the two directories themselves. *)
Theorem C120_below_partial : forall n m, plain_name n -> plain_name m ->
  below var_lib (resolve (lib_dir n)) /\ below var_log (resolve (log_dir n)) /\
  below (resolve (lib_dir n)) (resolve (transaction_log_dir n)) /\ below (resolve (lib_dir n)) (resolve (domain_dir n m)) /\
  exists s d, node_conf_path n = Ok s /\ key_dir 1 n = Ok d /\ below etc_node (resolve d) /\ below (resolve d) (resolve s).
Proof.
  intros n m Pn Pm.
  assert (Forall plain_name [n]) as F by (constructor; [assumption|constructor]). assert (Forall plain_name [n; m]) as F2 by (constructor; [assumption|constructor; [assumption|constructor]]).
  rewrite (C120_places (Lib n) _ F eq_refl), (C120_places (Logs n) _ F eq_refl), (C120_places (Transactions n) _ F eq_refl),
    (C120_places (Domain n m) _ F2 eq_refl). cbn [place].
  split; [eexists; split; [|reflexivity]; discriminate|]. split; [eexists; split; [|reflexivity]; discriminate|].
  split; [exists [str "transaction"]; split; [discriminate|reflexivity]|]. split; [exists [str "domain"; m]; split; [discriminate|reflexivity]|].
  eexists. eexists. split; [reflexivity|]. split; [reflexivity|].
  rewrite (C120_places (Conf n) _ F eq_refl). change ((str "/etc/poodle" ++ str "/" ++ str "node") ++ str "/" ++ n) with (str "/etc/poodle/node" ++ str "/" ++ n).
  rewrite (resolve_name (str "/etc/poodle/node") n Pn). split; [exists [n]; split; [discriminate|reflexivity]|].
  exists [str "node.conf"]. split; [discriminate|reflexivity].
Qed.
Print Assumptions C120_below_partial.
Example C120_below_partial_applies : plain_name (str "n1") /\ plain_name (str "...") /\
  resolve (domain_dir (str "n1") (str "...")) = [str "var"; str "lib"; str "poodle"; str "n1"; str "domain"; str "..."].
Proof. split; [apply plain_b_ok; reflexivity|]. split; [apply plain_b_ok; reflexivity|reflexivity]. Qed.

(** ** For all names the claim is false. *)
(** Without a separator: the domain ".." is the directory of the node, and the node ".." is outside. With one: a domain is the transaction log, or
    belongs to another node. *)
Theorem C120_refuted : forall n, plain_name n ->
  resolve (domain_dir n (str "..")) = resolve (lib_dir n) /\
  ~ below var_lib (resolve (lib_dir (str ".."))) /\ no_slash (str "..") /\
  resolve (domain_dir n (str "../transaction")) = resolve (transaction_log_dir n) /\
  forall n' m, plain_name n' -> plain_name m ->
    resolve (domain_dir n (str "../../" ++ n' ++ str "/domain/" ++ m)) = resolve (domain_dir n' m).
Proof.
  intros n P. assert (forall a m, resolve (domain_dir a m) =
    fold_left norm_step (split_slash [] m) (norm_step (fold_left norm_step (split_slash [] a) var_lib) (str "domain"))) as D.
  { intros a m. unfold domain_dir, lib_dir.
    replace ((str "/var/lib/poodle" ++ str "/" ++ a) ++ str "/domain/" ++ m) with
      (((str "/var/lib/poodle" ++ str "/" ++ a) ++ str "/" ++ str "domain") ++ str "/" ++ m) by (rewrite <- !app_assoc; reflexivity).
    rewrite resolve_app, (resolve_app _ (str "domain")), resolve_app. reflexivity. }
  assert (Forall plain_name [n]) as F by (constructor; [assumption|constructor]).
  assert (fold_left norm_step (split_slash [] n) var_lib = var_lib ++ [n]) as L by (rewrite (split_no_slash n [] (proj1 P)); now apply norm_plain).
  split; [rewrite D, L, (C120_places (Lib n) _ F eq_refl); reflexivity|].
  split; [intros (r & Hr & E); vm_compute in E; destruct r; discriminate|].
  split; [apply no_slash_b_ok; reflexivity|].
  split; [rewrite D, L, (C120_places (Transactions n) _ F eq_refl); reflexivity|].
  intros n' m P' Pm. rewrite D, L, (C120_places (Domain n' m) _ ltac:(constructor; [assumption|constructor; [assumption|constructor]]) eq_refl).
  change (str "../../" ++ n' ++ str "/domain/" ++ m) with (str "../.." ++ x2f :: n' ++ x2f :: str "domain" ++ x2f :: m).
  rewrite split_app, split_app, split_app. rewrite (split_no_slash n' [] (proj1 P')), (split_no_slash m [] (proj1 Pm)).
  change (split_slash [] (str "../..")) with [str ".."; str ".."]. change (split_slash [] (str "domain")) with [str "domain"].
  cbn [app fold_left]. rewrite (norm_plain _ m Pm), (norm_plain _ (str "domain")) by (apply plain_b_ok; reflexivity).
  rewrite (norm_plain _ (str "domain")) by (apply plain_b_ok; reflexivity). rewrite (norm_plain _ n' P'). reflexivity.
Qed.
Print Assumptions C120_refuted.
Example C120_refuted_applies : resolve (domain_dir (str "a") (str "../../b/domain/x")) = resolve (domain_dir (str "b") (str "x")).
Proof. reflexivity. Qed.

(** ** C70: the key files, for all ids *)
Definition file_name (pub : bool) (n : bytes) : bytes := n ++ str (if pub then "_id.pub" else "_id").
Lemma key_path_walk pub cls n id : class_name cls = Ok n -> In n class_names ->
  exists s, path_of pub cls id = Ok s /\ resolve s = fold_left norm_step (split_slash [] id) (etc_path n) ++ [file_name pub n].
Proof.
  intros E I. destruct (paths_of cls n id E I) as (d & _ & Ep & Ev & Rp & Rv & Ed).
  assert (resolve d = fold_left norm_step (split_slash [] id) (etc_path n)) as R by (rewrite Ed, resolve_app; now rewrite etc_dir_resolve).
  rewrite <- R. destruct pub; cbn [path_of]; [rewrite Ep|rewrite Ev]; eexists; (split; [reflexivity|]); assumption.
Qed.
Theorem C70_exact : forall pub cls id s p, known_class cls -> path_of pub cls id = Ok s ->
  (resolve s = p <-> exists n d, class_name cls = Ok n /\ walks [str "etc"; str "poodle"; n] id d /\ p = d ++ [file_name pub n]).
Proof.
  intros pub cls id s p K H. destruct (class_cases cls) as [(_ & n & En & I) | (C & _)]; [|tauto].
  destruct (key_path_walk pub cls n id En I) as (s' & H' & R). assert (s' = s) as -> by congruence. rewrite R. split.
  - intros <-. exists n. eexists. split; [exact En|]. split; [now apply walks_iff|reflexivity].
  - intros (n' & d & En' & W & ->). assert (n' = n) as -> by congruence. apply walks_iff in W. now rewrite W.
Qed.
Print Assumptions C70_exact.
Example C70_exact_applies : known_class 1 /\ path_of true 1 (str "../x/y") = Ok (str "/etc/poodle/node/../x/y/node_id.pub") /\
  walks [str "etc"; str "poodle"; str "node"] (str "../x/y") [str "etc"; str "poodle"; str "x"; str "y"].
Proof. split; [unfold known_class; lia|]. split; [reflexivity|]. apply walks_iff. reflexivity. Qed.
(** Ids without a separator: two paths are one file exactly if they are the same path, or differ in "" and ".". *)
Definition here (id : bytes) : Prop := id = [] \/ id = str ".".
Lemma fold_one id d : no_slash id -> fold_left norm_step (split_slash [] id) d = norm_step d id.
Proof. intros NS. now rewrite split_no_slash by assumption. Qed.
Lemma norm_cases d id : no_slash id ->
  (here id /\ norm_step d id = d) \/ (id = str ".." /\ norm_step d id = removelast d) \/ (plain_name id /\ norm_step d id = d ++ [id]).
Proof.
  intros NS. unfold norm_step.
  destruct (bytes_eqb id []) eqn:E1; [apply bytes_eqb_spec in E1; left; split; [now left|reflexivity]|].
  destruct (bytes_eqb id (str ".")) eqn:E2; [apply bytes_eqb_spec in E2; left; split; [now right|reflexivity]|]. cbn [orb].
  destruct (bytes_eqb id (str "..")) eqn:E3; right; [left|right].
  - apply bytes_eqb_spec in E3. now split.
  - split; [|reflexivity]. split; [exact NS|]. split; [intros ->; discriminate|]. split; intros ->; discriminate.
Qed.
Theorem C70_same_exact : forall pub cls id s pub' cls' id' s',
  known_class cls -> known_class cls' -> no_slash id -> no_slash id' -> path_of pub cls id = Ok s -> path_of pub' cls' id' = Ok s' ->
  (resolve s = resolve s' <-> pub = pub' /\ cls = cls' /\ (id = id' \/ here id /\ here id')).
Proof.
  intros pub cls id s pub' cls' id' s' K K' NS NS' H H'.
  destruct (class_cases cls) as [(_ & n & En & I) | (C & _)]; [|tauto].
  destruct (class_cases cls') as [(_ & n' & En' & I') | (C & _)]; [|tauto].
  destruct (key_path_walk pub cls n id En I) as (s1 & H1 & R1). assert (s1 = s) as -> by congruence.
  destruct (key_path_walk pub' cls' n' id' En' I') as (s2 & H2 & R2). assert (s2 = s') as -> by congruence.
  rewrite R1, R2. rewrite !fold_one by assumption.
  assert (file_name pub n = file_name pub' n' -> pub = pub' /\ n = n') as FN.
  { clear - I I'. intros E. destruct I as [<- | [<- | [<- | [<- | [<- | []]]]]]; destruct I' as [<- | [<- | [<- | [<- | [<- | []]]]]];
      destruct pub, pub'; vm_compute in E; try discriminate; split; reflexivity. }
  split.
  - intros E. apply snoc_inj in E. destruct E as [E F]. destruct (FN F) as [<- <-].
    split; [reflexivity|]. split; [exact (class_name_inj _ _ _ En En')|].
    destruct (norm_cases (etc_path n) id NS) as [(Hi & A) | [(-> & A) | (P & A)]]; rewrite A in E;
      destruct (norm_cases (etc_path n) id' NS') as [(Hi' & A') | [(-> & A') | (P' & A')]]; rewrite A' in E; unfold etc_path in E; cbn [app removelast] in E;
      try discriminate; [right; now split|now left|left; congruence].
  - intros (<- & <- & G). assert (n = n') as <- by congruence. f_equal. destruct G as [<- | (Hi & Hi')]; [reflexivity|].
    destruct Hi as [-> | ->], Hi' as [-> | ->]; reflexivity.
Qed.
Print Assumptions C70_same_exact.
Example C70_same_exact_applies : no_slash (str "..") /\ no_slash [] /\ here [] /\ here (str ".") /\ ~ here (str "..") /\
  path_of false 2 [] = Ok (str "/etc/poodle/cluster//cluster_id").
Proof.
  split; [apply no_slash_b_ok; reflexivity|]. split; [apply no_slash_b_ok; reflexivity|]. split; [now left|]. split; [now right|].
  split; [intros [E|E]; discriminate|reflexivity].
Qed.
(** And ".." is the only one that leaves the directory of the class. *)
Theorem C70_below_exact : forall pub cls id s d, known_class cls -> no_slash id -> path_of pub cls id = Ok s -> etc_dir cls = Ok d ->
  (below (resolve d) (resolve s) <-> id <> str "..").
Proof.
  intros pub cls id s d K NS H Hd. destruct (class_cases cls) as [(_ & n & En & I) | (C & _)]; [|tauto].
  destruct (key_path_walk pub cls n id En I) as (s1 & H1 & R1). assert (s1 = s) as -> by congruence.
  unfold etc_dir in Hd. rewrite En in Hd. cbn [rbind] in Hd. assert (str "/etc/poodle" ++ str "/" ++ n = d) as <- by congruence.
  rewrite R1, (etc_dir_resolve n I), fold_one by assumption.
  destruct (norm_cases (etc_path n) id NS) as [(Hi & A) | [(-> & A) | (P & A)]]; rewrite A.
  - split; [intros _ ->; destruct Hi; discriminate|]. intros _. exists [file_name pub n]. split; [discriminate|reflexivity].
  - split; [|congruence]. intros (r & Hr & E). exfalso. unfold etc_path in E. cbn [app removelast] in E.
    assert (r <> []) by exact Hr. destruct r; [congruence|]. discriminate.
  - split; [intros _ ->; destruct P as (_ & _ & _ & X); now apply X|]. intros _. exists [id; file_name pub n].
    split; [discriminate|]. now rewrite <- app_assoc.
Qed.
Print Assumptions C70_below_exact.
Example C70_below_exact_applies : known_class 4 /\ etc_dir 4 = Ok (str "/etc/poodle/service") /\ no_slash (str "...").
Proof. split; [unfold known_class; lia|]. split; [reflexivity|]. apply no_slash_b_ok. reflexivity. Qed.
