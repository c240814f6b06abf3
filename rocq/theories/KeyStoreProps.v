(** * Key files: C64 to C70 and C74. *)
From Coq Require Import List NArith ZArith Lia Bool.
From Coq Require Import Strings.Byte Strings.String.
From Verif Require Import Base BaseProofs EndianModel EndianProofs CrcModel CrcProofs CrcSpec CrcPoly AesModel KeyStoreModel KeyStoreSpec KeyStoreProofs.
Import ListNotations.
Local Open Scope list_scope.

(** ** C64: padding *)
Theorem C64_length : forall s, List.length (aes_pad s) = 16%nat.
Proof.
  intros s. unfold aes_pad. destruct (Z.leb_spec 16 (zlen s)) as [H|H]; unfold zlen in H.
  - rewrite skipn_length. lia.
  - rewrite app_length, repeat_length. lia.
Qed.
Print Assumptions C64_length.
Theorem C64_identity : forall s, List.length s = 16%nat -> aes_pad s = s.
Proof. intros s L. unfold aes_pad, zlen. rewrite L. reflexivity. Qed.
Print Assumptions C64_identity.
Example C64_identity_applies : exists s, List.length s = 16%nat /\ s <> repeat x00 16.
Proof. exists (str "0123456789abcdef"). split; [reflexivity|discriminate]. Qed.
(** Longer secrets: the last 16 bytes. Shorter ones: zero bytes are appended. *)
Theorem C64_last_16 : forall p s, List.length s = 16%nat -> aes_pad (p ++ s) = s.
Proof.
  intros p s L. unfold aes_pad, zlen. rewrite app_length, L. destruct (Z.leb_spec 16 (Z.of_nat (List.length p + 16))); [|lia].
  apply skipn_app_exact. lia.
Qed.
Print Assumptions C64_last_16.
Example C64_last_16_applies : aes_pad (str "correct horse battery staple") = str "e battery staple".
Proof. apply (C64_last_16 (str "correct hors")). reflexivity. Qed.
Theorem C64_short : forall s, (List.length s < 16)%nat -> aes_pad s = s ++ repeat x00 (16 - List.length s).
Proof. intros s L. unfold aes_pad, zlen. destruct (Z.leb_spec 16 (Z.of_nat (List.length s))); [lia|reflexivity]. Qed.
Print Assumptions C64_short.
Example C64_short_applies : aes_pad (str "passw0rd") = str "passw0rd" ++ repeat x00 8.
Proof. apply C64_short. simpl. lia. Qed.
(** Every padded secret is a valid AES key. *)
Theorem C64_valid_key : forall s, aes_key (aes_pad s) /\ exists block, new_cipher (aes_pad s) = Ok block.
Proof.
  intros s. assert (aes_key (aes_pad s)) as K by (left; symmetry; apply C64_length). split; [assumption|].
  destruct (new_cipher_cases (aes_pad s)) as [(_ & E) | (C & _)]; [eauto|tauto].
Qed.
Print Assumptions C64_valid_key.

(** ** C65: passphrases and keys *)
(** Passphrases that differ before their last 16 bytes, or by zero bytes at the end, give the same key: C65 is false. *)
Theorem C65_refuted :
  (forall p q s, List.length s = 16%nat -> p <> q -> p ++ s <> q ++ s /\ aes_pad (p ++ s) = aes_pad (q ++ s)) /\
  (forall s, (8 <= List.length s < 16)%nat -> s <> s ++ [x00] /\ aes_pad s = aes_pad (s ++ [x00])).
Proof.
  split.
  - intros p q s L H. split; [intros E; apply app_inv_tail in E; tauto|]. now rewrite !C64_last_16.
  - intros s L. split.
    + intros E. apply (f_equal (@List.length byte)) in E. rewrite app_length in E. simpl in E. lia.
    + rewrite (C64_short s) by lia. destruct (Nat.eq_dec (List.length s) 15) as [E|E].
      * rewrite C64_identity by (rewrite app_length, E; reflexivity). rewrite E. reflexivity.
      * rewrite C64_short by (rewrite app_length; simpl; lia). rewrite app_length. simpl List.length.
        replace (16 - List.length s)%nat with (S (16 - (List.length s + 1))) by lia. now rewrite <- app_assoc.
Qed.
Print Assumptions C65_refuted.
Example C65_refuted_applies :
  aes_pad (str "Alice's very secret passphrase") = aes_pad (str "Bob's very secret passphrase").
Proof. reflexivity. Qed.
(** The part that holds: passphrases of at most 16 bytes without zero bytes at the end. *)
Lemma strip_zeros a : forall b i j, a ++ repeat x00 i = b ++ repeat x00 j ->
  (forall l, a <> l ++ [x00]) -> (forall l, b <> l ++ [x00]) -> a = b.
Proof.
  induction a as [|x a IH]; intros [|y b] i j E A B.
  - reflexivity.
  - exfalso. simpl in E. destruct (exists_last (l := y :: b) ltac:(discriminate)) as (l & z & Ez).
    assert (z = x00) as ->; [|exact (B _ Ez)]. change (y :: b ++ repeat x00 j) with ((y :: b) ++ repeat x00 j) in E. rewrite Ez in E.
    assert (In z (repeat x00 i)) as I by (rewrite E, in_app_iff, in_app_iff; simpl; auto). exact (repeat_spec _ _ _ I).
  - exfalso. simpl in E. destruct (exists_last (l := x :: a) ltac:(discriminate)) as (l & z & Ez).
    assert (z = x00) as ->; [|exact (A _ Ez)]. change (x :: a ++ repeat x00 i) with ((x :: a) ++ repeat x00 i) in E. rewrite Ez in E.
    assert (In z (repeat x00 j)) as I by (rewrite <- E, in_app_iff, in_app_iff; simpl; auto). exact (repeat_spec _ _ _ I).
  - cbn [app] in E. assert (x = y) as -> by congruence. f_equal. apply (IH b i j).
    + congruence.
    + intros l ->. exact (A (y :: l) eq_refl).
    + intros l ->. exact (B (y :: l) eq_refl).
Qed.
Lemma pad_zeros s : (List.length s <= 16)%nat -> aes_pad s = s ++ repeat x00 (16 - List.length s).
Proof.
  intros L. destruct (Nat.eq_dec (List.length s) 16) as [E|E]; [|apply C64_short; lia].
  rewrite C64_identity, E by assumption. simpl. now rewrite app_nil_r.
Qed.
Theorem C65_short_partial : forall a b, (List.length a <= 16)%nat -> (List.length b <= 16)%nat ->
  (forall l, a <> l ++ [x00]) -> (forall l, b <> l ++ [x00]) -> aes_pad a = aes_pad b -> a = b.
Proof.
  intros a b La Lb Za Zb E. rewrite (pad_zeros a La), (pad_zeros b Lb) in E. exact (strip_zeros _ _ _ _ E Za Zb).
Qed.
Print Assumptions C65_short_partial.
Example C65_short_partial_applies : (forall l, str "passw0rd" <> l ++ [x00]) /\ (List.length (str "passw0rd") <= 16)%nat.
Proof.
  split; [|simpl; lia]. intros l E. apply (f_equal (@rev byte)) in E. rewrite rev_app_distr in E. discriminate.
Qed.
(** The key generator keeps the first 16 bytes instead, so there too different passphrases share a key. *)
Theorem C65_pkeygen_refuted : forall s p q, List.length s = 16%nat -> pkeygen_secret (s ++ p) = pkeygen_secret (s ++ q).
Proof.
  intros s p q L. unfold pkeygen_secret. rewrite <- !app_assoc. now rewrite !firstn_app_exact by (symmetry; assumption).
Qed.
Print Assumptions C65_pkeygen_refuted.
Example C65_pkeygen_refuted_applies :
  pkeygen_secret (str "a rather long passphrase of mine") = pkeygen_secret (str "a rather long pastime").
Proof. apply (C65_pkeygen_refuted (str "a rather long pa")). reflexivity. Qed.
(** The generator and AESPad agree on passphrases of at most 16 bytes, and in general not on longer ones. *)
Theorem C65_paddings_agree : forall s, (List.length s <= 16)%nat -> pkeygen_secret s = aes_pad s.
Proof.
  intros s L. rewrite (pad_zeros s L). unfold pkeygen_secret. rewrite firstn_app, firstn_all2 by lia. f_equal.
  replace 16%nat with ((16 - List.length s) + List.length s)%nat at 2 by lia. rewrite repeat_app.
  apply firstn_app_exact. symmetry. apply repeat_length.
Qed.
Print Assumptions C65_paddings_agree.
Example C65_paddings_agree_applies : (List.length (str "passw0rd") <= 16)%nat /\
  pkeygen_secret (str "correct horse battery staple") <> aes_pad (str "correct horse battery staple").
Proof. split; [simpl; lia|discriminate]. Qed.

(** Exactly which passphrases share a key: those whose last 16 bytes agree, counting zero bytes after a shorter one. *)
Definition last16 (s : bytes) (i : nat) : byte := nth (i + (List.length s - 16)) s x00.
Lemma aes_pad_nth s i : (i < 16)%nat -> nth i (aes_pad s) x00 = last16 s i.
Proof.
  intros Hi. unfold last16. destruct (Nat.le_gt_cases 16 (List.length s)) as [L|L].
  - unfold aes_pad, zlen. destruct (Z.leb_spec 16 (Z.of_nat (List.length s))); [|lia].
    assert (forall (u v : bytes) k, k = List.length u -> nth i v x00 = nth (i + k) (u ++ v) x00) as G.
    { intros u v k ->. rewrite app_nth2 by lia. f_equal. lia. }
    rewrite (G (firstn (List.length s - 16) s) _ (List.length s - 16)%nat) by (rewrite firstn_length; lia). now rewrite firstn_skipn.
  - rewrite C64_short by lia. replace (i + (List.length s - 16))%nat with i by lia.
    destruct (Nat.lt_ge_cases i (List.length s)) as [H|H]; [now rewrite app_nth1|].
    rewrite app_nth2 by lia. rewrite (nth_overflow s) by lia. apply nth_repeat.
Qed.
Theorem C65_exact : forall p q, aes_pad p = aes_pad q <-> forall i, (i < 16)%nat -> last16 p i = last16 q i.
Proof.
  intros p q. split.
  - intros E i Hi. now rewrite <- (aes_pad_nth p), <- (aes_pad_nth q), E by assumption.
  - intros H. apply (nth_ext _ _ x00 x00); [now rewrite !C64_length|]. rewrite C64_length. intros i Hi. rewrite !aes_pad_nth by assumption. now apply H.
Qed.
Print Assumptions C65_exact.
Example C65_exact_applies : last16 (str "Alice's passw0rd") 15 = last16 (str "Bob's other passw0rd") 15 /\
  aes_pad (str "Alice's passw0rd") <> aes_pad (str "Bob's other passw0rd") /\
  aes_pad (str "passw0rd" ++ [x00; x00]) = aes_pad (str "passw0rd").
Proof. split; [reflexivity|]. split; [discriminate|reflexivity]. Qed.
(** Exactly which passphrases share a key in the key generator: the first 16 bytes count there. *)
Theorem C65_pkeygen_exact : forall p q, pkeygen_secret p = pkeygen_secret q <->
  forall i, (i < 16)%nat -> nth i p x00 = nth i q x00.
Proof.
  assert (forall s i, (i < 16)%nat -> nth i (pkeygen_secret s) x00 = nth i s x00) as K.
  { intros s i Hi. unfold pkeygen_secret. assert (nth i (s ++ repeat x00 16) x00 = nth i s x00) as E.
    { destruct (Nat.lt_ge_cases i (List.length s)) as [H|H]; [now rewrite app_nth1|].
      rewrite app_nth2 by lia. rewrite (nth_overflow s) by lia. apply nth_repeat. }
    rewrite <- E. rewrite <- (firstn_skipn 16 (s ++ repeat x00 16)) at 2. rewrite app_nth1; [reflexivity|].
    rewrite firstn_length, app_length, repeat_length. lia. }
  assert (forall s, List.length (pkeygen_secret s) = 16%nat) as L.
  { intros s. unfold pkeygen_secret. rewrite firstn_length, app_length, repeat_length. lia. }
  intros p q. split.
  - intros E i Hi. now rewrite <- (K p), <- (K q), E by assumption.
  - intros H. apply (nth_ext _ _ x00 x00); [now rewrite !L|]. rewrite L. intros i Hi. rewrite !K by assumption. now apply H.
Qed.
Print Assumptions C65_pkeygen_exact.
Example C65_pkeygen_exact_applies :
  pkeygen_secret (str "a rather long passphrase") <> pkeygen_secret (str "a rather long pillow") /\
  pkeygen_secret (str "passw0rd" ++ [x00]) = pkeygen_secret (str "passw0rd").
Proof. split; [discriminate|reflexivity]. Qed.

(** ** C70: paths *)
(** Unknown classes are refused (by a panic). *)
Theorem C70_unknown_class : forall cls id, ~ known_class cls ->
  key_dir cls id = Panic /\ pub_key_path cls id = Panic /\ priv_key_path cls id = Panic.
Proof.
  intros cls id H. destruct (class_cases cls) as [(K & _) | (_ & E)]; [tauto|].
  unfold key_dir, pub_key_path, priv_key_path, etc_dir. rewrite E. auto.
Qed.
Print Assumptions C70_unknown_class.
Example C70_unknown_class_applies : ~ known_class 0 /\ ~ known_class 6 /\ ~ known_class (-1).
Proof. unfold known_class. lia. Qed.
(** As strings all paths of ids without a separator are distinct. *)
Definition path_of (pub : bool) (cls : Z) (id : bytes) : res bytes := if pub then pub_key_path cls id else priv_key_path cls id.
Lemma split_of pub cls n id : class_name cls = Ok n -> In n class_names -> no_slash id ->
  exists s, path_of pub cls id = Ok s /\ split_slash [] s = [[]; str "etc"; str "poodle"; n; id; n ++ str (if pub then "_id.pub" else "_id")].
Proof.
  intros E I NS. destruct (names_plain n I) as ((Sn & _) & (S1 & _) & (S2 & _)).
  destruct (paths_of cls n id E I) as (d & _ & Ep & Ev & _ & _ & Ed).
  destruct pub; cbn [path_of].
  - rewrite Ep. eexists. split; [reflexivity|]. rewrite Ed. change (str "/") with [x2f]. cbn [app].
    rewrite 3 split_app. rewrite (split_no_slash n [] Sn), (split_no_slash id [] NS), (split_no_slash _ [] S2). reflexivity.
  - rewrite Ev. eexists. split; [reflexivity|]. rewrite Ed. change (str "/") with [x2f]. cbn [app].
    rewrite 3 split_app. rewrite (split_no_slash n [] Sn), (split_no_slash id [] NS), (split_no_slash _ [] S1). reflexivity.
Qed.
Theorem C70_strings_distinct : forall pub cls id pub' cls' id' s,
  known_class cls -> known_class cls' -> no_slash id -> no_slash id' ->
  path_of pub cls id = Ok s -> path_of pub' cls' id' = Ok s -> pub = pub' /\ cls = cls' /\ id = id'.
Proof.
  intros pub cls id pub' cls' id' s K K' NS NS' E E'.
  destruct (class_cases cls) as [(_ & n & En & I) | (C & _)]; [|tauto].
  destruct (class_cases cls') as [(_ & n' & En' & I') | (C & _)]; [|tauto].
  destruct (split_of pub cls n id En I NS) as (s1 & E1 & S1). destruct (split_of pub' cls' n' id' En' I' NS') as (s2 & E2 & S2).
  assert (s1 = s) as -> by congruence. assert (s2 = s) as -> by congruence. rewrite S1 in S2.
  assert (n = n') as <- by congruence. assert (id = id') as <- by congruence.
  split; [|split; [exact (class_name_inj _ _ _ En En')|reflexivity]].
  assert (n ++ str (if pub then "_id.pub" else "_id") = n ++ str (if pub' then "_id.pub" else "_id")) as S by congruence.
  apply app_inv_head in S. destruct pub, pub'; try reflexivity; discriminate.
Qed.
Print Assumptions C70_strings_distinct.
Example C70_strings_distinct_applies :
  known_class 2 /\ no_slash (str "abc") /\ path_of true 2 (str "abc") = Ok (str "/etc/poodle/cluster/abc/cluster_id.pub").
Proof. split; [unfold known_class; lia|]. split; [apply no_slash_b_ok; reflexivity|reflexivity]. Qed.
(** As files: proper names are distinct files and lie below the directory of their class. *)
Theorem C70_files_partial : forall pub cls id s d,
  known_class cls -> plain_name id -> path_of pub cls id = Ok s -> etc_dir cls = Ok d -> below (resolve d) (resolve s) /\
  forall pub' cls' id' s', known_class cls' -> plain_name id' -> path_of pub' cls' id' = Ok s' -> resolve s = resolve s' ->
    pub = pub' /\ cls = cls' /\ id = id'.
Proof.
  assert (forall pub cls n id s, class_name cls = Ok n -> In n class_names -> plain_name id -> path_of pub cls id = Ok s ->
    resolve s = etc_path n ++ [id; n ++ str (if pub then "_id.pub" else "_id")]) as G.
  { intros pub cls n id s E I P H. destruct (paths_of cls n id E I) as (d & _ & Ep & Ev & Rp & Rv & Ed).
    rewrite Ed, (key_dir_plain n id I P) in Rp, Rv. destruct pub; cbn [path_of] in H.
    - rewrite Ep in H. assert (d ++ str "/" ++ n ++ str "_id.pub" = s) as <- by congruence. rewrite Ed, Rp. now rewrite <- app_assoc.
    - rewrite Ev in H. assert (d ++ str "/" ++ n ++ str "_id" = s) as <- by congruence. rewrite Ed, Rv. now rewrite <- app_assoc. }
  intros pub cls id s d K P H Hd.
  destruct (class_cases cls) as [(_ & n & En & I) | (C & _)]; [|tauto]. pose proof (G _ _ _ _ _ En I P H) as R. split.
  - unfold etc_dir in Hd. rewrite En in Hd. cbn [rbind] in Hd. assert (str "/etc/poodle" ++ str "/" ++ n = d) as <- by congruence.
    rewrite R, (etc_dir_resolve n I). eexists. split; [|reflexivity]. discriminate.
  - intros pub' cls' id' s' K' P' H' E. destruct (class_cases cls') as [(_ & n' & En' & I') | (C & _)]; [|tauto].
    rewrite R, (G _ _ _ _ _ En' I' P' H') in E. unfold etc_path in E. cbn [app] in E.
    assert (n = n') as <- by congruence. assert (id = id') as <- by congruence.
    split; [|split; [exact (class_name_inj _ _ _ En En')|reflexivity]].
    assert (n ++ str (if pub then "_id.pub" else "_id") = n ++ str (if pub' then "_id.pub" else "_id")) as S by congruence.
    apply app_inv_head in S. destruct pub, pub'; try reflexivity; discriminate.
Qed.
Print Assumptions C70_files_partial.
Example C70_files_partial_applies : known_class 5 /\ plain_name (str "..x") /\
  exists s, path_of false 5 (str "..x") = Ok s /\ resolve s = [str "etc"; str "poodle"; str "federation"; str "..x"; str "federation_id"].
Proof. split; [unfold known_class; lia|]. split; [apply plain_b_ok; reflexivity|]. eexists. split; reflexivity. Qed.
(** The ids "" and "." name the same files, and ".." leaves the directory of the class. None has a separator, so C70 is false. *)
Theorem C70_refuted : forall pub cls, known_class cls ->
  (exists s s', path_of pub cls [] = Ok s /\ path_of pub cls (str ".") = Ok s' /\ resolve s = resolve s') /\
  (exists s d, path_of pub cls (str "..") = Ok s /\ etc_dir cls = Ok d /\ ~ below (resolve d) (resolve s)) /\
  no_slash [] /\ no_slash (str ".") /\ no_slash (str "..").
Proof.
  intros pub cls K. destruct (class_cases cls) as [(_ & n & En & I) | (C & _)]; [|tauto].
  assert (cls = 1 \/ cls = 2 \/ cls = 3 \/ cls = 4 \/ cls = 5)%Z as Cs by (unfold known_class in K; lia).
  split; [|split].
  - destruct Cs as [-> | [-> | [-> | [-> | ->]]]]; destruct pub; eexists; eexists; (split; [reflexivity|]); (split; [reflexivity|]); reflexivity.
  - destruct Cs as [-> | [-> | [-> | [-> | ->]]]]; destruct pub; eexists; eexists; (split; [reflexivity|]); (split; [reflexivity|]);
      intros (rest & Hr & E); vm_compute in E; destruct rest; discriminate.
  - repeat split; apply no_slash_b_ok; reflexivity.
Qed.
Print Assumptions C70_refuted.
Example C70_refuted_applies : known_class 3 /\ resolve (str "/etc/poodle/universe/../universe_id") = [str "etc"; str "poodle"; str "universe_id"].
Proof. split; [unfold known_class; lia|reflexivity]. Qed.

(** ** C66: saving and loading *)
(** What a successful save does to the file system. *)
Lemma save_effect f cls id pub priv secret nonce f' : save_key_pair f cls id pub priv secret nonce = (f', Ok tt) ->
  exists n d f1, class_name cls = Ok n /\ In n class_names /\ aes_key secret /\
    key_dir cls id = Ok d /\ pub_key_path cls id = Ok (d ++ str "/" ++ n ++ str "_id.pub") /\ priv_key_path cls id = Ok (d ++ str "/" ++ n ++ str "_id") /\
    mkdir_if_not_exist f d = Ok f1 /\
    f' = fs_set (fs_set f1 (resolve d ++ [n ++ str "_id"]) (File (priv_text (key_schedule secret) nonce priv)))
                (resolve d ++ [n ++ str "_id.pub"]) (File (pub_text pub)).
Proof.
  unfold save_key_pair. intros H. destruct (class_cases cls) as [(_ & n & En & I) | (_ & En)].
  - destruct (paths_of cls n id En I) as (d & Ed & Ep & Ev & Rp & Rv & _). rewrite Ed, Ep, Ev in H.
    destruct (mkdir_if_not_exist f d) as [f1| |] eqn:M; try discriminate.
    destruct (new_cipher_cases secret) as [(K & C) | (_ & C)]; rewrite C in H; [|discriminate].
    destruct (write_file f1 _ (priv_text (key_schedule secret) nonce priv)) as [f2| |] eqn:W1; try discriminate.
    destruct (write_file f2 _ (pub_text pub)) as [f3| |] eqn:W2; try discriminate.
    apply write_ok in W1, W2. rewrite Rv in W1. rewrite Rp in W2.
    exists n, d, f1. repeat (split; [assumption|]). congruence.
  - exfalso. unfold key_dir, etc_dir in H. rewrite En in H. discriminate.
Qed.
Lemma load_pub_written f cls id d n pub : pub_key_path cls id = Ok (d ++ str "/" ++ n ++ str "_id.pub") -> In n class_names ->
  (0 <= pub < 2 ^ 256)%Z -> f (resolve d ++ [n ++ str "_id.pub"]) = Some (File (pub_text pub)) -> load_pub_key f cls id = Ok pub.
Proof.
  intros E I P F. unfold load_pub_key. rewrite E. cbn [rbind]. unfold load_key_data, read_file.
  rewrite resolve_name by apply (names_plain n I). rewrite F. cbn [rbind]. unfold pub_text. rewrite parse_written. cbn [rbind].
  now rewrite big_roundtrip.
Qed.
Lemma load_priv_written f cls id d n secret nonce priv : priv_key_path cls id = Ok (d ++ str "/" ++ n ++ str "_id") -> In n class_names ->
  (0 <= priv < 2 ^ 256)%Z -> aes_key secret -> List.length nonce = 12%nat ->
  f (resolve d ++ [n ++ str "_id"]) = Some (File (priv_text (key_schedule secret) nonce priv)) -> load_priv_key f cls id secret = Ok priv.
Proof.
  intros E I P K N F. unfold load_priv_key. rewrite E. cbn [rbind]. unfold load_key_data, read_file.
  rewrite resolve_name by apply (names_plain n I). rewrite F. cbn [rbind]. unfold priv_text. rewrite parse_written. cbn [rbind].
  now apply priv_data_roundtrip.
Qed.
Lemma snoc_inj {A} (l m : list A) x y : l ++ [x] = m ++ [y] -> l = m /\ x = y.
Proof. apply app_inj_tail. Qed.

(** A saved pair is loaded back, whatever the id, the nonce and the files before. *)
Theorem C66_roundtrip : forall f cls id pub priv secret nonce f',
  (0 <= pub < 2 ^ 256)%Z -> (0 <= priv < 2 ^ 256)%Z -> List.length nonce = 12%nat ->
  save_key_pair f cls id pub priv secret nonce = (f', Ok tt) ->
  load_pub_key f' cls id = Ok pub /\ load_priv_key f' cls id secret = Ok priv.
Proof.
  intros f cls id pub priv secret nonce f' Hp Hd Hn S.
  destruct (save_effect _ _ _ _ _ _ _ _ S) as (n & d & f1 & En & I & K & Ed & Ep & Ev & M & ->). split.
  - apply (load_pub_written _ cls id d n pub Ep I Hp). apply fs_set_same.
  - apply (load_priv_written _ cls id d n secret nonce priv Ev I Hd K Hn). rewrite fs_set_other; [apply fs_set_same|].
    intros E. apply snoc_inj in E. exact (id_not_pub n (proj2 E)).
Qed.
Print Assumptions C66_roundtrip.
(** When saving succeeds: a known class, a valid key size, and no file or directory in the way. *)
Theorem C66_save_succeeds : forall f cls id pub priv secret nonce,
  known_class cls -> plain_name id -> aes_key secret -> (forall p, f p = None) ->
  exists f', save_key_pair f cls id pub priv secret nonce = (f', Ok tt).
Proof.
  intros f cls id pub priv secret nonce K P A F. destruct (class_cases cls) as [(_ & n & En & I) | (C & _)]; [|tauto].
  destruct (paths_of cls n id En I) as (d & Ed & Ep & Ev & Rp & Rv & Ed'). unfold save_key_pair. rewrite Ed, Ep, Ev.
  assert (resolve d = etc_path n ++ [id]) as Rd by (rewrite Ed'; now apply key_dir_plain).
  unfold mkdir_if_not_exist. rewrite Rd. unfold etc_path at 1. cbn [app]. rewrite F.
  replace (existsb (is_file f) _) with false; [|symmetry; apply not_true_is_false; intros C; apply existsb_exists in C;
    destruct C as (x & _ & C); unfold is_file in C; rewrite F in C; discriminate].
  destruct (new_cipher_cases secret) as [(_ & ->) | (C & _)]; [|tauto].
  set (f1 := mkdir_all f (etc_path n ++ [id])).
  assert (f1 (etc_path n ++ [id]) = Some Dir) as D1 by (apply mkdir_all_self; discriminate).
  assert (forall x, f1 ((etc_path n ++ [id]) ++ [x]) = None) as D2.
  { intros x. unfold f1. rewrite mkdir_all_other; [apply F|]. intros r. apply snoc_not_self. }
  change (mkdir_all f _) with f1. unfold write_file. rewrite Rv, Rd.
  assert (forall g x, g (etc_path n ++ [id]) = Some Dir -> g ((etc_path n ++ [id]) ++ [x]) = None -> can_write g ((etc_path n ++ [id]) ++ [x]) = true) as W.
  { intros g x G1 G2. unfold can_write. rewrite removelast_last. unfold is_dir, etc_path in *. cbn [app] in *. now rewrite G1, G2. }
  rewrite (W f1) by auto. rewrite Rp, Rd. rewrite W; [eauto| |].
  - rewrite fs_set_other; [exact D1|]. intros E. pose proof (snoc_not_self (etc_path n ++ [id]) (n ++ str "_id") []) as C. rewrite app_nil_r in C. tauto.
  - rewrite fs_set_other; [apply D2|]. intros E. apply snoc_inj in E. apply (id_not_pub n). symmetry. exact (proj2 E).
Qed.
Print Assumptions C66_save_succeeds.
Definition demo_secret : bytes := str "0123456789abcdef".
Definition demo_nonce : bytes := be_put 12 0xcafebabefacedbaddecaf888.
Definition no_files : fs := fun _ => None.
Example C66_applies :
  known_class 1 /\ plain_name (str "4a7f") /\ aes_key demo_secret /\ List.length demo_nonce = 12%nat /\ (forall p, no_files p = None) /\
  let (f, o) := save_key_pair no_files 1 (str "4a7f") 1234567 7654321 demo_secret demo_nonce in
  o = Ok tt /\ load_pub_key f 1 (str "4a7f") = Ok 1234567%Z /\ load_priv_key f 1 (str "4a7f") demo_secret = Ok 7654321%Z.
Proof.
  split; [unfold known_class; lia|]. split; [apply plain_b_ok; reflexivity|]. split; [left; reflexivity|]. split; [reflexivity|].
  split; [reflexivity|]. vm_compute. auto.
Qed.

(** An id with separators leads anywhere, up to the root of the file system, which is always there. *)
Theorem C66_root_save : exists f text,
  save_key_pair no_files 3 (str "../../..") 1234567 7654321 demo_secret demo_nonce = (f, Ok tt) /\
  f [str "universe_id"] = Some (File text) /\ load_priv_key f 3 (str "../../..") demo_secret = Ok 7654321%Z /\
  load_pub_key f 3 (str "/../x/../../..") = Ok 1234567%Z.
Proof.
  exists (fst (save_key_pair no_files 3 (str "../../..") 1234567 7654321 demo_secret demo_nonce)). eexists.
  split; [|split; [vm_compute; reflexivity|split; vm_compute; reflexivity]].
  rewrite (surjective_pairing (save_key_pair _ _ _ _ _ _ _)) at 1. apply (f_equal (pair _)). vm_compute. reflexivity.
Qed.
Print Assumptions C66_root_save.

(** Every outcome of a save for a known class and a proper name, on any file system: [D] is the directory of the owner. *)
Definition path_above (q D : list bytes) : Prop := q <> [] /\ exists r, D = q ++ r.
Definition dirs_made (f : fs) (D : list bytes) (f1 : fs) : Prop :=
  (f D = Some Dir /\ f1 = f) \/
  (f D = None /\ (forall q c, path_above q D -> f q <> Some (File c)) /\
   (forall q, path_above q D -> f1 q = Some Dir) /\ forall q, ~ path_above q D -> f1 q = f q).
Definition only_at (f : fs) (p : list bytes) (e : entry) (f' : fs) : Prop := f' p = Some e /\ forall q, q <> p -> f' q = f q.
Theorem C66_save_exact : forall f cls id pub priv secret nonce, known_class cls -> plain_name id ->
  exists n D, class_name cls = Ok n /\ D = [str "etc"; str "poodle"; n; id] /\
  let privp := D ++ [n ++ str "_id"] in
  let pubp := D ++ [n ++ str "_id.pub"] in
  let f' := fst (save_key_pair f cls id pub priv secret nonce) in
  let o := snd (save_key_pair f cls id pub priv secret nonce) in
  ((exists c, f D = Some (File c)) /\ f' = f /\ o = Err) \/
  (f D = None /\ (exists q c, path_above q D /\ f q = Some (File c)) /\ f' = f /\ o = Panic) \/
  exists f1, dirs_made f D f1 /\
    ((~ aes_key secret /\ f' = f1 /\ o = Err) \/
     (aes_key secret /\ f1 privp = Some Dir /\ f' = f1 /\ o = Err) \/
     (aes_key secret /\ f1 privp <> Some Dir /\ f1 pubp = Some Dir /\ only_at f1 privp (File (priv_text (key_schedule secret) nonce priv)) f' /\ o = Err) \/
     (aes_key secret /\ f1 privp <> Some Dir /\ f1 pubp <> Some Dir /\
      (exists f2, only_at f1 privp (File (priv_text (key_schedule secret) nonce priv)) f2 /\ only_at f2 pubp (File (pub_text pub)) f') /\ o = Ok tt)).
Proof.
  intros f cls id pub priv secret nonce K PN. destruct (class_cases cls) as [(_ & n & En & I) | (C & _)]; [|tauto].
  destruct (paths_of cls n id En I) as (d & Ed & Ep & Ev & Rp & Rv & Ed').
  assert (resolve d = etc_path n ++ [id]) as Rd by (rewrite Ed'; now apply key_dir_plain).
  exists n. set (D := [str "etc"; str "poodle"; n; id]). exists D. split; [exact En|]. split; [reflexivity|]. cbn zeta.
  change (etc_path n ++ [id]) with D in Rd. rewrite Rd in Rp, Rv. unfold save_key_pair. rewrite Ed, Ep, Ev. unfold mkdir_if_not_exist. rewrite Rd.
  unfold write_file. rewrite Rv, Rp.
  assert (PA : forall q, path_above q D <-> In q (prefixes D)).
  { intros q. split.
    - intros (Hq & r & E). unfold prefixes. apply in_map_iff. exists (List.length q). split.
      + rewrite E. apply firstn_app_exact. reflexivity.
      + apply in_seq. rewrite E, app_length. destruct q; [congruence|simpl; lia].
    - intros H. split; [|apply in_prefixes, H]. unfold prefixes in H. apply in_map_iff in H. destruct H as (k & <- & Hk). apply in_seq in Hk.
      unfold D. destruct k; [lia|discriminate]. }
  set (f1o := match f D with
              | Some Dir => Ok f | Some (File _) => Err
              | None => if existsb (is_file f) (prefixes D) then Panic else Ok (mkdir_all f D) end).
  change (match D with [] => Ok f | _ :: _ => f1o end) with f1o.
  assert (M : (exists c, f D = Some (File c)) /\ f1o = Err \/
              f D = None /\ (exists q c, path_above q D /\ f q = Some (File c)) /\ f1o = Panic \/
              exists f1, f1o = Ok f1 /\ dirs_made f D f1 /\ f1 D = Some Dir).
  { subst f1o. destruct (f D) as [[c|]|] eqn:FD.
    - left. eauto.
    - right. right. exists f. split; [reflexivity|]. split; [left; auto|exact FD].
    - right. destruct (existsb (is_file f) (prefixes D)) eqn:EX.
      + left. split; [reflexivity|]. split; [|reflexivity]. apply existsb_exists in EX. destruct EX as (q & Hq & F). unfold is_file in F.
        destruct (f q) as [[c|]|] eqn:Fq; try discriminate. exists q, c. split; [now apply PA|exact Fq].
      + right. exists (mkdir_all f D). split; [reflexivity|]. split; [|apply mkdir_all_self; discriminate].
        right. split; [exact FD|]. split; [|split].
        * intros q c Hq F. apply PA in Hq. assert (existsb (is_file f) (prefixes D) = true); [|congruence].
          apply existsb_exists. exists q. split; [exact Hq|]. unfold is_file. now rewrite F.
        * intros q Hq. apply PA in Hq. unfold mkdir_all. replace (existsb (path_eqb q) (prefixes D)) with true; [reflexivity|].
          symmetry. apply existsb_exists. exists q. split; [exact Hq|now apply path_eqb_spec].
        * intros q Hq. unfold mkdir_all. destruct (existsb (path_eqb q) (prefixes D)) eqn:E; [|reflexivity].
          apply existsb_exists in E. destruct E as (x & Hx & E). apply path_eqb_spec in E. subst x. apply PA in Hx. tauto. }
  destruct M as [(FD & ->)|[(FD & Q & ->)|(f1 & -> & DM & F1)]].
  - left. auto.
  - right. left. auto.
  - right. right. exists f1. split; [exact DM|].
    assert (W : forall g x, g D = Some Dir -> can_write g (D ++ [x]) = negb (match g (D ++ [x]) with Some Dir => true | _ => false end)).
    { intros g x G. unfold can_write. rewrite removelast_last. unfold is_dir, D in *. cbn [app] in *. rewrite G. apply andb_true_r. }
    assert (NE : forall x, D <> D ++ [x]) by (intros x E; apply (f_equal (@List.length bytes)) in E; rewrite app_length in E; simpl in E; lia).
    destruct (new_cipher_cases secret) as [(A & ->) | (A & ->)]; [|left; auto].
    rewrite (W f1) by exact F1.
    unfold bytes in *.
    assert (V : (f1 (D ++ [n ++ str "_id"]) = Some Dir) \/ (f1 (D ++ [n ++ str "_id"]) <> Some Dir /\
                negb (match f1 (D ++ [n ++ str "_id"]) with Some Dir => true | _ => false end) = true)).
    { destruct (f1 (D ++ [n ++ str "_id"])) as [[c|]|]; [right; split; [discriminate|reflexivity]|left; reflexivity|right; split; [discriminate|reflexivity]]. }
    destruct V as [V|[V V']].
    + rewrite V. right. left. cbn [negb fst snd]. split; [exact A|]. split; [reflexivity|]. split; reflexivity.
    + rewrite V'. set (f2 := fs_set f1 (D ++ [n ++ str "_id"]) _).
      assert (O2 : only_at f1 (D ++ [n ++ str "_id"]) (File (priv_text (key_schedule secret) nonce priv)) f2).
      { split; [apply fs_set_same|]. intros q Hq. now apply fs_set_other. }
      rewrite (W f2) by (rewrite (proj2 O2) by apply NE; exact F1).
      assert (Dn : D ++ [n ++ str "_id.pub"] <> D ++ [n ++ str "_id"]).
      { intros E. apply snoc_inj in E. apply (id_not_pub n). symmetry. exact (proj2 E). }
      rewrite (proj2 O2 _ Dn).
      destruct (f1 (D ++ [n ++ str "_id.pub"])) as [[c|]|] eqn:Fp; cbn [negb fst snd].
      * right. right. right. split; [exact A|]. split; [exact V|]. split; [discriminate|]. split; [|reflexivity].
        exists f2. split; [exact O2|]. split; [apply fs_set_same|]. intros q Hq. now apply fs_set_other.
      * right. right. left. auto.
      * right. right. right. split; [exact A|]. split; [exact V|]. split; [discriminate|]. split; [|reflexivity].
        exists f2. split; [exact O2|]. split; [apply fs_set_same|]. intros q Hq. now apply fs_set_other.
Qed.
Print Assumptions C66_save_exact.
(** With a file in the place of /etc/poodle the call panics; with a file in the place of the owner's directory it returns an error. *)
Example C66_save_exact_applies :
  known_class 1 /\ plain_name (str "4a7f") /\
  snd (save_key_pair (fs_set no_files [str "etc"; str "poodle"] (File [])) 1 (str "4a7f") 1 2 demo_secret demo_nonce) = Panic /\
  snd (save_key_pair (fs_set no_files [str "etc"; str "poodle"; str "node"; str "4a7f"] (File [])) 1 (str "4a7f") 1 2 demo_secret demo_nonce) = Err.
Proof.
  split; [unfold known_class; lia|]. split; [apply plain_b_ok; reflexivity|]. split; vm_compute; reflexivity.
Qed.

(** Whatever the outcome of a save, the keys of every other owner with a proper name load as before. *)
Theorem C66_others_untouched : forall f cls id pub priv secret nonce f' o cls' id' secret',
  plain_name id -> plain_name id' -> (cls, id) <> (cls', id') ->
  save_key_pair f cls id pub priv secret nonce = (f', o) ->
  load_pub_key f' cls' id' = load_pub_key f cls' id' /\ load_priv_key f' cls' id' secret' = load_priv_key f cls' id' secret'.
Proof.
  intros f cls id pub priv secret nonce f' o cls' id' secret' P P' Hne S.
  destruct (class_cases cls') as [(_ & n' & En' & I') | (_ & En')].
  2:{ unfold load_pub_key, load_priv_key, pub_key_path, priv_key_path. rewrite En'. auto. }
  assert (forall q x, q = (etc_path n' ++ [id']) ++ [x] -> f' q = f q) as G.
  { intros q x Hq. unfold save_key_pair in S. destruct (class_cases cls) as [(_ & n & En & I) | (_ & En)].
    2:{ unfold key_dir, etc_dir in S. rewrite En in S. cbn [rbind] in S. congruence. }
    destruct (paths_of cls n id En I) as (d & Ed & Ep & Ev & Rp & Rv & Ed'). rewrite Ed, Ep, Ev in S.
    assert (resolve d = etc_path n ++ [id]) as Rd by (rewrite Ed'; now apply key_dir_plain).
    assert (forall y, q <> resolve d ++ [y]) as Q.
    { intros y E. rewrite Hq, Rd in E. apply snoc_inj in E. destruct E as [E _]. apply snoc_inj in E. destruct E as [E ->].
      unfold etc_path in E. assert (n' = n) as -> by congruence. apply Hne. f_equal. exact (class_name_inj _ _ _ En En'). }
    destruct (mkdir_if_not_exist f d) as [f1| |] eqn:M; [|congruence|congruence].
    assert (f1 q = f q) as F1.
    { apply (mkdir_other _ _ _ _ M). intros r E. rewrite Rd, Hq in E. apply (f_equal (@List.length bytes)) in E.
      rewrite !app_length in E. simpl in E. lia. }
    destruct (new_cipher secret) as [block| |]; [|replace f' with f1 by congruence; assumption..].
    destruct (write_file f1 _ (priv_text block nonce priv)) as [f2| |] eqn:W1; [|replace f' with f1 by congruence; assumption..].
    apply write_ok in W1. rewrite Rv in W1.
    assert (f2 q = f q) as F2 by (rewrite W1, fs_set_other; [assumption|apply Q]).
    destruct (write_file f2 _ (pub_text pub)) as [f3| |] eqn:W2; [|replace f' with f2 by congruence; assumption..].
    apply write_ok in W2. rewrite Rp in W2. replace f' with f3 by congruence. rewrite W2, fs_set_other; [assumption|apply Q]. }
  destruct (paths_of cls' n' id' En' I') as (d & _ & Ep & Ev & Rp & Rv & Ed').
  assert (resolve d = etc_path n' ++ [id']) as Rd by (rewrite Ed'; now apply key_dir_plain).
  unfold load_pub_key, load_priv_key. rewrite Ep, Ev. cbn [rbind]. unfold load_key_data, read_file. rewrite Rp, Rv, Rd.
  rewrite !(G _ _ eq_refl). auto.
Qed.
Print Assumptions C66_others_untouched.
Example C66_others_untouched_applies : plain_name (str "4a7f") /\ plain_name (str "4a80") /\ (1%Z, str "4a7f") <> (1%Z, str "4a80").
Proof. split; [apply plain_b_ok; reflexivity|]. split; [apply plain_b_ok; reflexivity|discriminate]. Qed.
(** For the ids "" and "." this fails: saving one overwrites the other. *)
Theorem C66_refuted :
  let (f1, _) := save_key_pair no_files 1 [] 111 222 demo_secret demo_nonce in
  let (f2, _) := save_key_pair f1 1 (str ".") 333 444 demo_secret demo_nonce in
  load_pub_key f1 1 [] = Ok 111%Z /\ load_priv_key f1 1 [] demo_secret = Ok 222%Z /\
  load_pub_key f2 1 [] = Ok 333%Z /\ load_priv_key f2 1 [] demo_secret = Ok 444%Z.
Proof. vm_compute. auto. Qed.
Print Assumptions C66_refuted.

(** ** C67: corruption *)
Lemma app_last4 (d c d' c' : bytes) : d ++ c = d' ++ c' -> List.length c = List.length c' -> d = d' /\ c = c'.
Proof.
  intros E L. assert (List.length d = List.length d') as L' by (apply (f_equal (@List.length byte)) in E; rewrite !app_length in E; lia).
  clear L. revert d' L' E. induction d as [|x d IH]; intros [|y d'] L E; try discriminate; [auto|]. simpl in L, E.
  assert (x = y) as -> by congruence. destruct (IH d' ltac:(lia) ltac:(congruence)) as (-> & ->). auto.
Qed.
Lemma crc_bytes_inj d d' : crc_bytes d = crc_bytes d' -> crc32 d = crc32 d'.
Proof. unfold crc_bytes. intros H. apply be_put_inj in H; [assumption|apply crc32_bound..]. Qed.
Lemma parse_ok_inv t data : parse_key_data t = Ok data -> hex_text t (data ++ crc_bytes data).
Proof.
  intros H. destruct (parse_cases t) as [(E & _) | [(E & _) | (d & c & T & L & E)]]; [congruence..|].
  rewrite E in H. destruct (bytes_eqb (crc_bytes d) c) eqn:B; [|discriminate]. apply bytes_eqb_spec in B. subst c. now replace data with d by congruence.
Qed.
Lemma hex_text_fun t l l' : hex_text t l -> hex_text t l' -> l = l'.
Proof. intros H H'. apply hex_decode_spec in H, H'. congruence. Qed.
Lemma parse_changed t' d' c' : hex_text t' (d' ++ c') -> List.length c' = 4%nat -> crc_bytes d' <> c' -> parse_key_data t' = Err.
Proof.
  intros T L N. apply hex_decode_spec in T. rewrite (parse_data _ _ _ T L). destruct (bytes_eqb (crc_bytes d') c') eqn:B; [|reflexivity].
  apply bytes_eqb_spec in B. tauto.
Qed.

(** Changing one byte of what a valid file holds, data or checksum, makes loading fail. *)
Theorem C67_single_byte : forall t t' data a b b' z,
  parse_key_data t = Ok data -> hex_text t (a ++ b :: z) -> hex_text t' (a ++ b' :: z) -> b <> b' -> parse_key_data t' = Err.
Proof.
  intros t t' data a b b' z H T T' Hne. pose proof (hex_text_fun _ _ _ T (parse_ok_inv _ _ H)) as E.
  destruct (Nat.le_gt_cases (S (List.length a)) (List.length data)) as [L|L].
  - assert (exists y, data = a ++ b :: y /\ z = y ++ crc_bytes data) as (y & Ey & Ez).
    { destruct (app_prefix_cases _ _ _ _ E) as [(k & Ek & Ez) | (k & Ek & Ez)].
      - destruct k as [|b0 k]; [rewrite app_nil_r in Ek; subst; lia|]. cbn [app] in Ez. inversion Ez. subst. eauto.
      - subst a. rewrite app_length in L. lia. }
    rewrite Ez in T'. change (b' :: y ++ crc_bytes data) with ((b' :: y) ++ crc_bytes data) in T'. rewrite app_assoc in T'.
    apply (parse_changed _ _ _ T' (crc_bytes_length _)). intros C. apply crc_bytes_inj in C.
    rewrite Ey in C. change (a ++ b' :: y) with (a ++ [b'] ++ y) in C. change (a ++ b :: y) with (a ++ [b] ++ y) in C.
    apply crc_burst in C; [assumption|simpl; lia|reflexivity|congruence].
  - assert (exists y, a = data ++ y /\ crc_bytes data = y ++ b :: z) as (y & Ey & Ez).
    { destruct (app_prefix_cases _ _ _ _ E) as [(k & Ek & Ez) | (k & Ek & Ez)].
      - destruct k as [|b0 k]; [|subst data; rewrite app_length in L; simpl in L; lia].
        rewrite app_nil_r in Ek. cbn [app] in Ez. exists []. rewrite app_nil_r. auto.
      - eauto. }
    rewrite Ey, <- app_assoc in T'. apply (parse_changed _ _ _ T').
    + pose proof (crc_bytes_length data) as C. rewrite Ez in C. rewrite !app_length in *. simpl in *. lia.
    + rewrite Ez. intros C. apply app_inv_head in C. congruence.
Qed.
Print Assumptions C67_single_byte.
(** More: any change inside four consecutive bytes of the data, and any change of the checksum. *)
Theorem C67_burst : forall t t' data a m m' z,
  parse_key_data t = Ok data -> data = a ++ m ++ z -> hex_text t' ((a ++ m' ++ z) ++ crc_bytes data) ->
  List.length m = List.length m' -> (List.length m <= 4)%nat -> m <> m' -> parse_key_data t' = Err.
Proof.
  intros t t' data a m m' z H -> T' L L4 Hne. apply (parse_changed _ _ _ T' (crc_bytes_length _)). intros C. apply crc_bytes_inj in C.
  symmetry in C. exact (crc_burst _ _ _ _ L4 L Hne C).
Qed.
Print Assumptions C67_burst.
Theorem C67_checksum : forall t t' data c,
  parse_key_data t = Ok data -> hex_text t' (data ++ c) -> List.length c = 4%nat -> c <> crc_bytes data -> parse_key_data t' = Err.
Proof. intros t t' data c H T' L Hne. apply (parse_changed _ _ _ T' L). congruence. Qed.
Print Assumptions C67_checksum.
(** Exactly which texts are accepted: hex dumps of the data and its CRC-32 (as the remainder of a polynomial division, CrcSpec) in four bytes, most significant first. *)
Theorem C67_accepts_exact : forall t data, parse_key_data t = Ok data <->
  exists a b c d, hex_text t (data ++ [a; b; c; d]) /\
    is_crc32 data (2 ^ 24 * Byte.to_N a + 2 ^ 16 * Byte.to_N b + 2 ^ 8 * Byte.to_N c + Byte.to_N d).
Proof.
  assert (G : forall a b c d : byte, be_get [a; b; c; d] = (2 ^ 24 * Byte.to_N a + 2 ^ 16 * Byte.to_N b + 2 ^ 8 * Byte.to_N c + Byte.to_N d)%N).
  { intros a b c d. unfold be_get, b2n. cbn [fold_left]. lia. }
  intros t data. split.
  - intros H. apply parse_ok_inv in H. pose proof (crc_bytes_length data) as L.
    assert (E : be_get (crc_bytes data) = crc32 data).
    { unfold crc_bytes. rewrite be_get_put. apply N.mod_small. exact (crc32_bound data). }
    destruct (crc_bytes data) as [|a [|b [|c [|d [|e l]]]]]; try discriminate. exists a, b, c, d. split; [exact H|].
    apply crc32_unique. rewrite <- G. exact E.
  - intros (a & b & c & d & T & C). apply hex_decode_spec in T. rewrite (parse_data t data [a; b; c; d] T eq_refl).
    apply crc32_unique in C. rewrite <- G in C. unfold crc_bytes. rewrite <- C.
    change 4%nat with (List.length [a; b; c; d]). rewrite (be_put_get [a; b; c; d]).
    rewrite (proj2 (bytes_eqb_spec _ _) eq_refl). reflexivity.
Qed.
Print Assumptions C67_accepts_exact.
Example C67_accepts_exact_applies :
  parse_key_data (str "313233343536373839CBF43926") = Ok (str "123456789") /\ parse_key_data (str "313233343536373839CBF43927") = Err.
Proof. split; vm_compute; reflexivity. Qed.
(** There is exactly one CRC-32 of each text. *)
Theorem C67_crc32_unique : forall l, exists! c, is_crc32 l c.
Proof. intros l. exists (crc32 l). split; [apply crc32_is|]. intros c C. symmetry. now apply crc32_unique. Qed.
Print Assumptions C67_crc32_unique.
(** One character of the text of a valid file: loading fails, or the data is the same (the other case of a letter). *)
Theorem C67_single_character : forall t1 c c' t2 data,
  parse_key_data (t1 ++ c :: t2) = Ok data -> parse_key_data (t1 ++ c' :: t2) = Err \/ parse_key_data (t1 ++ c' :: t2) = Ok data.
Proof.
  intros t1 c c' t2 data H. pose proof (parse_ok_inv _ _ H) as T. pose proof (proj2 (hex_decode_spec _ _) T) as D.
  destruct (hex_decode_cases (t1 ++ c' :: t2)) as [(l & E & T') | (E & _)].
  - destruct (hex_replace_char _ _ _ _ _ _ D E) as (a & b & b' & z & E1 & E2). rewrite E1 in T. rewrite E2 in T'.
    destruct (Byte.byte_eq_dec b b') as [<-|Hne].
    + right. rewrite (parse_data _ data (crc_bytes data)); [|rewrite E, E2, <- E1; reflexivity|apply crc_bytes_length].
      now rewrite (proj2 (bytes_eqb_spec _ _) eq_refl).
    + left. exact (C67_single_byte _ _ _ _ _ _ _ H T T' Hne).
  - left. unfold parse_key_data. now rewrite E.
Qed.
Print Assumptions C67_single_character.
Example C67_applies :
  parse_key_data (str "00FF1034BF5F") = Err /\
  exists crc, hex_text (str "ABCD" ++ crc) ([xab; xcd] ++ crc_bytes [xab; xcd]) /\ parse_key_data (str "ABCD" ++ crc) = Ok [xab; xcd] /\
              parse_key_data (str "ABCE" ++ crc) = Err /\ parse_key_data (str "ABcD" ++ crc) = Ok [xab; xcd].
Proof.
  split; [reflexivity|]. exists (hex_encode (crc_bytes [xab; xcd])). split; [apply hex_decode_spec; vm_compute; reflexivity|].
  vm_compute. auto.
Qed.

(** ** C68: arbitrary files *)
(** Key data panics exactly on hex dumps of fewer than four bytes. *)
Theorem C68_key_data_exact : forall t, parse_key_data t = Panic <-> exists l, hex_text t l /\ (List.length l < 4)%nat.
Proof.
  intros t. destruct (parse_cases t) as [(E & N) | [(E & l & T & L) | (d & c & T & L & E)]]; rewrite E.
  - split; [discriminate|]. intros (l & T & _). destruct (N _ T).
  - split; [eauto|reflexivity].
  - split; [destruct (bytes_eqb _ _); discriminate|]. intros (l & T' & L'). rewrite <- (hex_text_fun _ _ _ T T') in L'.
    rewrite app_length in L'. lia.
Qed.
Print Assumptions C68_key_data_exact.
(** Loading a private key panics on those, and on a correct checksum over fewer than 12 bytes; whatever the secret. *)
Theorem C68_priv_exact : forall f cls id secret, known_class cls ->
  (load_priv_key f cls id secret = Panic <->
   exists path t l, priv_key_path cls id = Ok path /\ f (resolve path) = Some (File t) /\ hex_text t l /\
     ((List.length l < 4)%nat \/ exists d, l = d ++ crc_bytes d /\ (List.length d < 12)%nat)).
Proof.
  intros f cls id secret K. unfold load_priv_key. destruct (class_cases cls) as [(_ & n & En & I) | (C & _)]; [|tauto].
  destruct (paths_of cls n id En I) as (d0 & _ & _ & Ev & _). rewrite Ev. cbn [rbind]. unfold load_key_data, read_file.
  destruct (f (resolve (d0 ++ str "/" ++ n ++ str "_id"))) as [[t|]|] eqn:F; cbn [rbind].
  - split.
    + intros H. exists (d0 ++ str "/" ++ n ++ str "_id"), t.
      destruct (parse_cases t) as [(E & N) | [(E & l & T & L) | (d & c & T & L & E)]]; rewrite E in H; cbn [rbind] in H.
      * discriminate.
      * exists l. auto.
      * destruct (bytes_eqb (crc_bytes d) c) eqn:B; cbn [rbind] in H; [|discriminate]. apply bytes_eqb_spec in B. subst c.
        exists (d ++ crc_bytes d). repeat (split; [assumption || reflexivity|]). right. exists d. split; [reflexivity|].
        destruct (Nat.lt_ge_cases (List.length d) 12) as [C|C]; [assumption|]. destruct (priv_data_long secret d C H).
    + intros (path & t' & l & Ep & F' & T & H). assert (path = d0 ++ str "/" ++ n ++ str "_id") as -> by congruence.
      assert (t' = t) as -> by congruence. destruct H as [L | (d & -> & L)].
      * assert (parse_key_data t = Panic) as -> by (apply C68_key_data_exact; eauto). reflexivity.
      * apply hex_decode_spec in T. rewrite (parse_data _ _ _ T (crc_bytes_length _)), (proj2 (bytes_eqb_spec _ _) eq_refl). cbn [rbind].
        now apply priv_data_short.
  - split; [discriminate|]. intros (path & t' & l & Ep & F' & _). assert (path = d0 ++ str "/" ++ n ++ str "_id") as -> by congruence. congruence.
  - split; [discriminate|]. intros (path & t' & l & Ep & F' & _). assert (path = d0 ++ str "/" ++ n ++ str "_id") as -> by congruence. congruence.
Qed.
Print Assumptions C68_priv_exact.
Theorem C68_pub_exact : forall f cls id, known_class cls ->
  (load_pub_key f cls id = Panic <->
   exists path t l, pub_key_path cls id = Ok path /\ f (resolve path) = Some (File t) /\ hex_text t l /\ (List.length l < 4)%nat).
Proof.
  intros f cls id K. unfold load_pub_key. destruct (class_cases cls) as [(_ & n & En & I) | (C & _)]; [|tauto].
  destruct (paths_of cls n id En I) as (d0 & _ & Ep & _). rewrite Ep. cbn [rbind]. unfold load_key_data, read_file.
  destruct (f (resolve (d0 ++ str "/" ++ n ++ str "_id.pub"))) as [[t|]|] eqn:F; cbn [rbind].
  - split.
    + intros H. exists (d0 ++ str "/" ++ n ++ str "_id.pub"), t. destruct (parse_key_data t) eqn:E; cbn [rbind] in H; try discriminate.
      apply C68_key_data_exact in E. destruct E as (l & T & L). exists l. auto.
    + intros (path & t' & l & Ep' & F' & T & L). assert (path = d0 ++ str "/" ++ n ++ str "_id.pub") as -> by congruence.
      assert (t' = t) as -> by congruence. assert (parse_key_data t = Panic) as -> by (apply C68_key_data_exact; eauto). reflexivity.
  - split; [discriminate|]. intros (path & t' & l & Ep' & F' & _). assert (path = d0 ++ str "/" ++ n ++ str "_id.pub") as -> by congruence. congruence.
  - split; [discriminate|]. intros (path & t' & l & Ep' & F' & _). assert (path = d0 ++ str "/" ++ n ++ str "_id.pub") as -> by congruence. congruence.
Qed.
Print Assumptions C68_pub_exact.
(** An empty file, or "00" with its checksum as a private key, panics: C68 is false. *)
Theorem C68_refuted : parse_key_data [] = Panic /\
  forall secret, exists t data, parse_key_data t = Ok data /\ open_priv_data secret data = Panic.
Proof.
  split; [reflexivity|]. intros secret. exists (hex_encode ([x00] ++ crc_bytes [x00])), [x00]. split; [apply parse_written|].
  apply priv_data_short. simpl. lia.
Qed.
Print Assumptions C68_refuted.
(** The part that holds: files of at least 8 characters (public) or 32 characters (private) never panic. *)
Theorem C68_partial : forall f cls id secret, known_class cls ->
  (forall path t, pub_key_path cls id = Ok path -> f (resolve path) = Some (File t) -> (8 <= List.length t)%nat) ->
  (forall path t, priv_key_path cls id = Ok path -> f (resolve path) = Some (File t) -> (32 <= List.length t)%nat) ->
  load_pub_key f cls id <> Panic /\ load_priv_key f cls id secret <> Panic.
Proof.
  intros f cls id secret K Hp Hv. split; intros H.
  - apply (C68_pub_exact _ _ _ K) in H. destruct H as (path & t & l & E & F & T & L). specialize (Hp _ _ E F).
    apply hex_decode_spec in T. apply hex_decode_length in T. lia.
  - apply (C68_priv_exact _ _ _ _ K) in H. destruct H as (path & t & l & E & F & T & H). specialize (Hv _ _ E F).
    apply hex_decode_spec in T. apply hex_decode_length in T. destruct H as [L | (d & -> & L)]; [lia|].
    rewrite app_length, crc_bytes_length in T. lia.
Qed.
Print Assumptions C68_partial.
Example C68_partial_applies :
  let f := fst (save_key_pair no_files 1 (str "4a7f") 1234567 7654321 demo_secret demo_nonce) in
  known_class 1 /\
  (forall path t, pub_key_path 1 (str "4a7f") = Ok path -> f (resolve path) = Some (File t) -> (8 <= List.length t)%nat) /\
  (forall path t, priv_key_path 1 (str "4a7f") = Ok path -> f (resolve path) = Some (File t) -> (32 <= List.length t)%nat).
Proof.
  assert (forall (x : option entry) t k, match x with Some (File u) => (k <=? List.length u)%nat | _ => true end = true -> x = Some (File t) -> (k <= List.length t)%nat) as G.
  { intros x t k H ->. now apply Nat.leb_le. }
  split; [unfold known_class; lia|]. split; intros path t E F.
  - assert (pub_key_path 1 (str "4a7f") = Ok (str "/etc/poodle/node/4a7f/node_id.pub")) as E' by (vm_compute; reflexivity).
    rewrite E in E'. assert (path = str "/etc/poodle/node/4a7f/node_id.pub") as -> by congruence. revert F. apply G. vm_compute. reflexivity.
  - assert (priv_key_path 1 (str "4a7f") = Ok (str "/etc/poodle/node/4a7f/node_id")) as E' by (vm_compute; reflexivity).
    rewrite E in E'. assert (path = str "/etc/poodle/node/4a7f/node_id") as -> by congruence. revert F. apply G. vm_compute. reflexivity.
Qed.

(** ** C69: crashes *)
(** Truncating the file first means that a crash then makes the next load panic, for every pair and every earlier content: C69 is false. *)
Theorem C69_truncated_refuted : forall f1 cls id pub_path priv_path pubt privt secret,
  known_class cls -> pub_key_path cls id = Ok pub_path -> priv_key_path cls id = Ok priv_path ->
  load_priv_key (crash_state f1 pub_path priv_path pubt privt (InPriv 0)) cls id secret = Panic /\
  load_pub_key (crash_state f1 pub_path priv_path pubt privt (InPub 0)) cls id = Panic.
Proof.
  intros f1 cls id pub_path priv_path pubt privt secret K Ep Ev. split.
  - apply (C68_priv_exact _ _ _ _ K). exists priv_path, [], []. split; [assumption|]. split; [apply fs_set_same|].
    split; [constructor|left; simpl; lia].
  - apply (C68_pub_exact _ _ _ K). exists pub_path, [], []. split; [assumption|]. split; [apply fs_set_same|].
    split; [constructor|simpl; lia].
Qed.
Print Assumptions C69_truncated_refuted.
(** A crash between the two files leaves the new private key beside the old public key. *)
Theorem C69_mixed_refuted : forall f cls id pub0 priv0 secret0 nonce0 f0 pub1 priv1 secret1 nonce1 n d f1,
  (0 <= pub0 < 2 ^ 256)%Z -> (0 <= priv0 < 2 ^ 256)%Z -> (0 <= priv1 < 2 ^ 256)%Z -> List.length nonce0 = 12%nat -> List.length nonce1 = 12%nat ->
  save_key_pair f cls id pub0 priv0 secret0 nonce0 = (f0, Ok tt) -> aes_key secret1 ->
  class_name cls = Ok n -> key_dir cls id = Ok d -> mkdir_if_not_exist f0 d = Ok f1 ->
  forall pub_path priv_path, pub_key_path cls id = Ok pub_path -> priv_key_path cls id = Ok priv_path ->
  let privt := priv_text (key_schedule secret1) nonce1 priv1 in
  let f2 := crash_state f1 pub_path priv_path (pub_text pub1) privt (InPriv (List.length privt)) in
  load_priv_key f2 cls id secret1 = Ok priv1 /\ load_pub_key f2 cls id = Ok pub0.
Proof.
  intros f cls id pub0 priv0 secret0 nonce0 f0 pub1 priv1 secret1 nonce1 n d f1 Hp0 Hv0 Hv1 Hn0 Hn1 S K En Ed M pub_path priv_path Ep Ev privt f2.
  destruct (save_effect _ _ _ _ _ _ _ _ S) as (n' & d' & f1' & En' & I & _ & Ed' & Ep' & Ev' & M' & E0).
  assert (n' = n) as -> by congruence. assert (d' = d) as -> by congruence.
  assert (pub_path = d ++ str "/" ++ n ++ str "_id.pub") as -> by congruence.
  assert (priv_path = d ++ str "/" ++ n ++ str "_id") as -> by congruence.
  destruct (names_plain n I) as (_ & P1 & P2).
  assert (f2 = fs_set f1 (resolve d ++ [n ++ str "_id"]) (File privt)) as E2.
  { unfold f2, crash_state. rewrite firstn_all, resolve_name by assumption. reflexivity. }
  split.
  - apply (load_priv_written _ cls id d n secret1 nonce1 priv1 Ev I Hv1 K Hn1). rewrite E2. apply fs_set_same.
  - apply (load_pub_written _ cls id d n pub0 Ep I Hp0). rewrite E2, fs_set_other.
    + apply (mkdir_file _ _ _ _ _ M). rewrite E0. apply fs_set_same.
    + intros E. apply snoc_inj in E. apply (id_not_pub n). symmetry. exact (proj2 E).
Qed.
Print Assumptions C69_mixed_refuted.
(** The part that holds: a crash before the first write leaves the old pair, and after the last write there is the new pair. *)
Theorem C69_partial : forall f0 cls id pub1 priv1 secret1 nonce1 n d f1,
  (0 <= pub1 < 2 ^ 256)%Z -> (0 <= priv1 < 2 ^ 256)%Z -> List.length nonce1 = 12%nat -> aes_key secret1 ->
  class_name cls = Ok n -> key_dir cls id = Ok d -> mkdir_if_not_exist f0 d = Ok f1 ->
  forall pub_path priv_path, pub_key_path cls id = Ok pub_path -> priv_key_path cls id = Ok priv_path ->
  let privt := priv_text (key_schedule secret1) nonce1 priv1 in
  let crash c := crash_state f1 pub_path priv_path (pub_text pub1) privt c in
  (forall pub0 priv0 secret0, load_pub_key f0 cls id = Ok pub0 -> load_priv_key f0 cls id secret0 = Ok priv0 ->
     load_pub_key (crash BeforeWrites) cls id = Ok pub0 /\ load_priv_key (crash BeforeWrites) cls id secret0 = Ok priv0) /\
  (forall k, (List.length (pub_text pub1) <= k)%nat ->
     load_pub_key (crash (InPub k)) cls id = Ok pub1 /\ load_priv_key (crash (InPub k)) cls id secret1 = Ok priv1).
Proof.
  intros f0 cls id pub1 priv1 secret1 nonce1 n d f1 Hp1 Hv1 Hn1 K En Ed M pub_path priv_path Ep Ev privt crash. split.
  - intros pub0 priv0 secret0 L1 L2. unfold crash, crash_state. unfold load_pub_key in *. unfold load_priv_key in *. rewrite Ep in *. rewrite Ev in *.
    cbn [rbind] in *. unfold load_key_data, read_file in *. split.
    + destruct (f0 (resolve pub_path)) as [[t|]|] eqn:F; try discriminate. rewrite (mkdir_file _ _ _ _ _ M F). assumption.
    + destruct (f0 (resolve priv_path)) as [[t|]|] eqn:F; try discriminate. rewrite (mkdir_file _ _ _ _ _ M F). assumption.
  - intros k Hk. destruct (class_cases cls) as [(_ & n' & En' & I) | (_ & En')]; [|congruence]. assert (n' = n) as -> by congruence.
    destruct (paths_of cls n id En I) as (d' & Ed' & Ep' & Ev' & _). assert (d' = d) as -> by congruence.
    assert (pub_path = d ++ str "/" ++ n ++ str "_id.pub") as -> by congruence.
    assert (priv_path = d ++ str "/" ++ n ++ str "_id") as -> by congruence.
    destruct (names_plain n I) as (_ & P1 & P2). unfold crash, crash_state. rewrite firstn_all2 by assumption.
    rewrite !resolve_name by assumption. split.
    + apply (load_pub_written _ cls id d n pub1 Ep I Hp1). apply fs_set_same.
    + apply (load_priv_written _ cls id d n secret1 nonce1 priv1 Ev I Hv1 K Hn1). rewrite fs_set_other; [apply fs_set_same|].
      intros E. apply snoc_inj in E. exact (id_not_pub n (proj2 E)).
Qed.
Print Assumptions C69_partial.
(** Concretely: an old pair (111, 222), a new pair (333, 444) and three crash points. *)
Example C69_applies :
  let (f0, o) := save_key_pair no_files 1 (str "4a7f") 111 222 demo_secret demo_nonce in
  match o, mkdir_if_not_exist f0 (str "/etc/poodle/node/4a7f") with
  | Ok _, Ok f1 =>
      let pp := str "/etc/poodle/node/4a7f/node_id.pub" in let vp := str "/etc/poodle/node/4a7f/node_id" in
      let vt := priv_text (key_schedule demo_secret) (be_put 12 7) 444 in
      let g c := crash_state f1 pp vp (pub_text 333) vt c in
      load_priv_key (g (InPriv 2)) 1 (str "4a7f") demo_secret = Panic /\
      load_priv_key (g (InPriv 100)) 1 (str "4a7f") demo_secret = Err /\
      load_pub_key (g (InPub 0)) 1 (str "4a7f") = Panic /\
      load_pub_key (g BeforeWrites) 1 (str "4a7f") = Ok 111%Z /\
      load_pub_key (g (InPub 72)) 1 (str "4a7f") = Ok 333%Z
  | _, _ => False
  end.
Proof. vm_compute. repeat split. Qed.
(** Crash points inside a file: after an odd number of characters loading fails, after 0, 2, 4 or 6 it panics. *)
Theorem C69_torn : forall l k, (k <= List.length (hex_encode l))%nat ->
  (Nat.odd k = true -> parse_key_data (firstn k (hex_encode l)) = Err) /\
  (Nat.even k = true -> (k < 8)%nat -> parse_key_data (firstn k (hex_encode l)) = Panic).
Proof.
  assert (forall l j, (j <= List.length l)%nat -> hex_decode (firstn (2 * j) (hex_encode l)) = Ok (firstn j l)) as G.
  { intros l j L. rewrite <- (firstn_skipn j l) at 1. rewrite hex_encode_app. rewrite firstn_app_exact; [apply hex_decode_encode|].
    rewrite hex_encode_length, firstn_length. lia. }
  intros l k L. rewrite hex_encode_length in L. split.
  - intros O. destruct (hex_decode_cases (firstn k (hex_encode l))) as [(d & E & _) | (E & _)].
    + exfalso. apply hex_decode_length in E. rewrite firstn_length, hex_encode_length in E.
      rewrite Nat.min_l in E by lia. rewrite E, Nat.odd_mul in O. discriminate.
    + unfold parse_key_data. now rewrite E.
  - intros Ev L8. apply Nat.even_spec in Ev. destruct Ev as (j & ->). apply (parse_short _ (firstn j l)).
    + apply G. lia.
    + rewrite firstn_length. lia.
Qed.
Print Assumptions C69_torn.
Example C69_torn_applies : (6 <= List.length (hex_encode (be_put 36 0)))%nat /\ Nat.even 6 = true.
Proof. split; [vm_compute; lia|reflexivity]. Qed.

(** The complete rule for a file cut after [k] characters: what is left is taken for a key exactly if its last four bytes happen to be the checksum
    of those before. *)
Lemma crc_bytes_iff d c : List.length c = 4%nat -> (crc_bytes d = c <-> is_crc32 d (be_get c)).
Proof.
  intros L. split.
  - intros <-. unfold crc_bytes. rewrite be_get_put. pose proof (crc32_is d) as C. destruct C as [B C]. rewrite N.mod_small by exact B. split; assumption.
  - intros C. apply be_get_inj; [rewrite crc_bytes_length; lia|]. unfold crc_bytes. rewrite be_get_put.
    pose proof (crc32_is d) as [B _]. rewrite N.mod_small by exact B. now apply crc32_unique in C.
Qed.
Lemma hex_decode_cut l j : (j <= List.length l)%nat -> hex_decode (firstn (2 * j) (hex_encode l)) = Ok (firstn j l).
Proof.
  intros L. rewrite <- (firstn_skipn j l) at 1. rewrite hex_encode_app. rewrite firstn_app_exact; [apply hex_decode_encode|].
  rewrite hex_encode_length, firstn_length. lia.
Qed.
Theorem C69_torn_exact : forall l k, (k <= List.length (hex_encode l))%nat ->
  (parse_key_data (firstn k (hex_encode l)) = Panic <-> Nat.even k = true /\ (k < 8)%nat) /\
  (forall d, parse_key_data (firstn k (hex_encode l)) = Ok d <->
     exists crc, Nat.even k = true /\ firstn (Nat.div k 2) l = d ++ crc /\ List.length crc = 4%nat /\ is_crc32 d (be_get crc)).
Proof.
  intros l k L. destruct (C69_torn l k L) as (O & S). destruct (Nat.even k) eqn:Ev.
  - specialize (S eq_refl). pose proof Ev as Ev'. apply Nat.even_spec in Ev'. destruct Ev' as (j & ->). rewrite hex_encode_length in L.
    replace (Nat.div (2 * j) 2) with j by (rewrite Nat.mul_comm, Nat.div_mul; lia).
    pose proof (hex_decode_cut l j ltac:(lia)) as D. assert (List.length (firstn j l) = j) as Lj by (rewrite firstn_length; lia).
    destruct (Nat.lt_ge_cases j 4) as [Hj|Hj].
    + rewrite S by lia. split; [split; [intros _; split; [reflexivity|lia]|reflexivity]|]. intros d. split; [discriminate|].
      intros (c & _ & E & Lc & _). apply (f_equal (@List.length byte)) in E. rewrite app_length in E. lia.
    + destruct (split_tail (firstn j l) ltac:(lia)) as (d0 & c0 & E0 & L0). rewrite E0 in D |- *.
      rewrite (parse_data _ d0 c0 D L0). destruct (bytes_eqb (crc_bytes d0) c0) eqn:B.
      * apply bytes_eqb_spec in B. split; [split; [discriminate|intros (_ & H); lia]|]. intros d. split.
        -- intros H. assert (d0 = d) as <- by congruence. exists c0. split; [reflexivity|]. split; [reflexivity|]. split; [exact L0|]. now apply crc_bytes_iff.
        -- intros (c & _ & E & Lc & _). f_equal. apply (f_equal (@rev byte)) in E. rewrite !rev_app_distr in E.
           assert (rev c0 = rev c /\ rev d0 = rev d) as (_ & E').
           { assert (firstn 4 (rev c0 ++ rev d0) = firstn 4 (rev c ++ rev d)) as F1 by now rewrite E.
             assert (skipn 4 (rev c0 ++ rev d0) = skipn 4 (rev c ++ rev d)) as F2 by now rewrite E.
             rewrite !firstn_app_exact in F1 by (rewrite rev_length; lia). rewrite !skipn_app_exact in F2 by (rewrite rev_length; lia). now split. }
           apply (f_equal (@rev byte)) in E'. now rewrite !rev_involutive in E'.
      * split; [split; [discriminate|intros (_ & H); lia]|]. intros d. split; [discriminate|].
        intros (c & _ & E & Lc & C). exfalso. apply (f_equal (@rev byte)) in E. rewrite !rev_app_distr in E.
        assert (firstn 4 (rev c0 ++ rev d0) = firstn 4 (rev c ++ rev d)) as F1 by now rewrite E.
        assert (skipn 4 (rev c0 ++ rev d0) = skipn 4 (rev c ++ rev d)) as F2 by now rewrite E.
        rewrite !firstn_app_exact in F1 by (rewrite rev_length; lia). rewrite !skipn_app_exact in F2 by (rewrite rev_length; lia).
        apply (f_equal (@rev byte)) in F1, F2. rewrite !rev_involutive in F1, F2. subst d c.
        apply crc_bytes_iff in C; [|exact L0]. apply bytes_eqb_spec in C. congruence.
  - rewrite O by (rewrite <- Nat.negb_even, Ev; reflexivity). split; [split; [discriminate|intros (H & _); discriminate]|].
    intros d. split; [discriminate|]. intros (c & H & _). discriminate.
Qed.
Print Assumptions C69_torn_exact.
Example C69_torn_exact_applies : (64 <= List.length (hex_encode (be_put 36 (2 ^ 200))))%nat /\
  parse_key_data (firstn 8 (hex_encode (be_put 36 (2 ^ 200)))) = Ok [] /\ parse_key_data (firstn 16 (hex_encode (be_put 36 (2 ^ 200)))) = Err.
Proof. split; [vm_compute; lia|]. split; vm_compute; reflexivity. Qed.
(** It happens: a crash after 8 characters of a public key with four leading zeros leaves a file that loads as the key 0. *)
Theorem C69_torn_refuted : forall f1 cls id pub_path priv_path pub privt,
  known_class cls -> pub_key_path cls id = Ok pub_path -> (0 <= pub < 2 ^ 224)%Z ->
  load_pub_key (crash_state f1 pub_path priv_path (pub_text pub) privt (InPub 8)) cls id = Ok 0%Z.
Proof.
  intros f1 cls id pub_path priv_path pub privt K Ep B. unfold load_pub_key. rewrite Ep. cbn [rbind]. unfold load_key_data, read_file, crash_state.
  rewrite fs_set_same. cbn [rbind]. unfold pub_text.
  assert (exists r, big_to_bytes pub = repeat x00 4 ++ r) as (r & ->).
  { exists (skipn 4 (big_to_bytes pub)). rewrite <- (firstn_skipn 4 (big_to_bytes pub)) at 1. f_equal. apply be_get_inj.
    - rewrite firstn_length, big_to_bytes_length. reflexivity.
    - change (be_get (repeat x00 4)) with 0%N. pose proof (big_to_bytes_value pub) as V. rewrite N.mod_small in V by lia.
      rewrite <- (firstn_skipn 4 (big_to_bytes pub)) in V. rewrite be_get_app in V.
      rewrite skipn_length, big_to_bytes_length in V. change (N.of_nat (32 - 4)) with 28%N in V.
      destruct (N.eq_dec (be_get (firstn 4 (big_to_bytes pub))) 0) as [|Z0]; [assumption|exfalso].
      assert (256 ^ 28 = 2 ^ 224)%N as P by reflexivity. rewrite P in V.
      assert (Z.abs_N pub < 2 ^ 224)%N as B' by lia. nia. }
  reflexivity.
Qed.
Print Assumptions C69_torn_refuted.
Example C69_torn_refuted_applies : (0 <= 333 < 2 ^ 224)%Z /\ pub_key_path 1 (str "4a7f") = Ok (str "/etc/poodle/node/4a7f/node_id.pub").
Proof. split; [lia|reflexivity]. Qed.

(** ** C74: generated keys *)
(** A key generated with a passphrase of 16 bytes is loaded with it. *)
Theorem C74_partial : forall f cls pub priv passphrase nonce f',
  (0 <= pub < 2 ^ 256)%Z -> (0 <= priv < 2 ^ 256)%Z -> List.length nonce = 12%nat -> List.length passphrase = 16%nat ->
  pkeygen f cls pub priv passphrase nonce = (f', Ok tt) ->
  load_priv_key_prompt f' cls (pkeygen_id pub) passphrase = Ok priv.
Proof.
  intros f cls pub priv s nonce f' Hp Hv Hn L H. unfold pkeygen in H. destruct (prompt_accepts s) eqn:A; [|discriminate].
  assert (pkeygen_secret s = s) as Es by (rewrite C65_paddings_agree, C64_identity by lia; reflexivity). rewrite Es in H.
  pose proof (C66_roundtrip _ _ _ _ _ _ _ _ Hp Hv Hn H) as (_ & Lv).
  unfold load_priv_key_prompt. destruct (save_effect _ _ _ _ _ _ _ _ H) as (n & d & f1 & En & I & K & Ed & Ep & Ev & M & E).
  rewrite Ev. cbn [rbind]. rewrite resolve_name by apply (names_plain n I).
  assert (f' (resolve d ++ [n ++ str "_id"]) = Some (File (priv_text (key_schedule s) nonce priv))) as ->.
  { rewrite E, fs_set_other; [apply fs_set_same|]. intros C. apply snoc_inj in C. exact (id_not_pub n (proj2 C)). }
  rewrite A. exact Lv.
Qed.
Print Assumptions C74_partial.
Example C74_partial_applies :
  let (f, o) := pkeygen no_files 1 0x4a7f 99 (str "0123456789abcdef") demo_nonce in
  o = Ok tt /\ pkeygen_id 0x4a7f = str "4a7f" /\ load_priv_key_prompt f 1 (str "4a7f") (str "0123456789abcdef") = Ok 99%Z.
Proof. vm_compute. auto. Qed.
(** With a passphrase whose length is not an AES key size, loading the generated key fails: C74 is false. *)
Theorem C74_refuted : forall f cls pub priv passphrase nonce f',
  List.length nonce = 12%nat -> ~ aes_key passphrase ->
  pkeygen f cls pub priv passphrase nonce = (f', Ok tt) ->
  load_priv_key_prompt f' cls (pkeygen_id pub) passphrase = Err.
Proof.
  intros f cls pub priv s nonce f' Hn L H. unfold pkeygen in H. destruct (prompt_accepts s) eqn:A; [|discriminate].
  destruct (save_effect _ _ _ _ _ _ _ _ H) as (n & d & f1 & En & I & K & Ed & Ep & Ev & M & E).
  unfold load_priv_key_prompt. rewrite Ev. cbn [rbind]. rewrite resolve_name by apply (names_plain n I).
  assert (f' (resolve d ++ [n ++ str "_id"]) = Some (File (priv_text (key_schedule (pkeygen_secret s)) nonce priv))) as F.
  { rewrite E, fs_set_other; [apply fs_set_same|]. intros C. apply snoc_inj in C. exact (id_not_pub n (proj2 C)). }
  rewrite F, A. unfold load_priv_key. rewrite Ev. cbn [rbind]. unfold load_key_data, read_file.
  rewrite resolve_name by apply (names_plain n I). rewrite F. cbn [rbind]. unfold priv_text. rewrite parse_written. cbn [rbind].
  unfold open_priv_data, go_upto, go_from. set (e := nonce ++ _). assert (12 <= zlen e)%Z by (unfold e, zlen; rewrite app_length; lia).
  destruct ((0 <=? 12) && (12 <=? zlen e))%Z eqn:B; [|lia]. cbn [rbind].
  destruct (new_cipher_cases s) as [(K' & _) | (_ & ->)]; [tauto|]. reflexivity.
Qed.
Print Assumptions C74_refuted.
Example C74_refuted_applies :
  ~ aes_key (str "correct horse battery staple") /\
  let (f, o) := pkeygen no_files 1 0x4a7f 99 (str "correct horse battery staple") demo_nonce in
  o = Ok tt /\ load_priv_key_prompt f 1 (str "4a7f") (str "correct horse battery staple") = Err.
Proof. split; [unfold aes_key; vm_compute; intros [H | [H | H]]; lia|]. vm_compute. auto. Qed.
(** The padding of the generator, applied by the caller, loads it for every passphrase. *)
Theorem C74_padded : forall f cls pub priv passphrase nonce f',
  (0 <= pub < 2 ^ 256)%Z -> (0 <= priv < 2 ^ 256)%Z -> List.length nonce = 12%nat ->
  pkeygen f cls pub priv passphrase nonce = (f', Ok tt) ->
  load_pub_key f' cls (pkeygen_id pub) = Ok pub /\ load_priv_key f' cls (pkeygen_id pub) (pkeygen_secret passphrase) = Ok priv.
Proof.
  intros f cls pub priv s nonce f' Hp Hv Hn H. unfold pkeygen in H. destruct (prompt_accepts s); [|discriminate].
  exact (C66_roundtrip _ _ _ _ _ _ _ _ Hp Hv Hn H).
Qed.
Print Assumptions C74_padded.
Example C74_padded_applies :
  let (f, o) := pkeygen no_files 1 0x4a7f 99 (str "correct horse battery staple") demo_nonce in
  o = Ok tt /\ load_priv_key f 1 (str "4a7f") (str "correct horse ba") = Ok 99%Z.
Proof. vm_compute. auto. Qed.
(** Passphrases of 24 or 32 bytes are used as AES-192 or AES-256 keys while loading; here is one that fails. *)
Theorem C74_longer_refuted : exists passphrase, List.length passphrase = 24%nat /\
  let (f, o) := pkeygen no_files 1 0x4a7f 99 passphrase demo_nonce in
  o = Ok tt /\ load_priv_key_prompt f 1 (str "4a7f") passphrase = Err.
Proof. exists (str "a passphrase of 24 bytes"). vm_compute. auto. Qed.
Print Assumptions C74_longer_refuted.
