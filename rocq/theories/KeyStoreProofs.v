(** * Lemmas about hex texts, AES-GCM, paths and the file system. *)
From Coq Require Import List NArith ZArith Lia Bool.
From Coq Require Import Strings.Byte Strings.String.
From Verif Require Import Base BaseProofs EndianModel EndianProofs CrcModel CrcProofs AesModel KeyStoreModel KeyStoreSpec.
Import ListNotations.
Local Open Scope list_scope.

(** ** Hex *)
Lemma hex_val_spec c n : hex_val c = Some n <-> hex_digit_value c n.
Proof.
  unfold hex_val. fold (b2n c). change (Byte.to_N c) with (b2n c). split.
  - destruct ((48 <=? b2n c) && (b2n c <=? 57))%N eqn:E1.
    { intros H. assert (n = b2n c - 48)%N as -> by congruence. apply HexDec. change (Byte.to_N c) with (b2n c). lia. }
    destruct ((65 <=? b2n c) && (b2n c <=? 70))%N eqn:E2.
    { intros H. assert (n = b2n c - 55)%N as -> by congruence. apply HexUpper. change (Byte.to_N c) with (b2n c). lia. }
    destruct ((97 <=? b2n c) && (b2n c <=? 102))%N eqn:E3; [|discriminate].
    intros H. assert (n = b2n c - 87)%N as -> by congruence. apply HexLower. change (Byte.to_N c) with (b2n c). lia.
  - intros [H|H|H]; change (Byte.to_N c) with (b2n c) in *.
    + destruct ((48 <=? b2n c) && (b2n c <=? 57))%N eqn:E1; [reflexivity|lia].
    + destruct ((48 <=? b2n c) && (b2n c <=? 57))%N eqn:E1; [lia|].
      destruct ((65 <=? b2n c) && (b2n c <=? 70))%N eqn:E2; [reflexivity|lia].
    + destruct ((48 <=? b2n c) && (b2n c <=? 57))%N eqn:E1; [lia|].
      destruct ((65 <=? b2n c) && (b2n c <=? 70))%N eqn:E2; [lia|].
      destruct ((97 <=? b2n c) && (b2n c <=? 102))%N eqn:E3; [reflexivity|lia].
Qed.
Lemma hex_decode_spec t : forall l, hex_decode t = Ok l <-> hex_text t l.
Proof.
  assert (forall n t l, (List.length t <= n)%nat -> (hex_decode t = Ok l <-> hex_text t l)) as G.
  { induction n as [|n IH]; intros u l L.
    - destruct u; [|simpl in L; lia]. split; intros H; [inv H; constructor|inversion H; reflexivity].
    - destruct u as [|a [|b u]].
      + split; intros H; [inv H; constructor|inversion H; reflexivity].
      + split; intros H; [discriminate|inversion H].
      + simpl in L. cbn [hex_decode]. split.
        * intros H. destruct (hex_val a) as [x|] eqn:Ea; [|discriminate]. destruct (hex_val b) as [y|] eqn:Eb; [|discriminate].
          destruct (hex_decode u) as [r| |] eqn:E; cbn [rbind] in H; try discriminate.
          assert (l = n2b (16 * x + y) :: r) as -> by congruence.
          pose proof (hex_val_bound _ _ Ea). pose proof (hex_val_bound _ _ Eb).
          apply (HexCons a b x y); [now apply hex_val_spec..| |].
          -- change (Byte.to_N ?v) with (b2n v). apply b2n_n2b_small. lia.
          -- apply (IH u r ltac:(lia)). assumption.
        * intros H. inversion H as [|a' b' x y v t' l' Ha Hb Hv Hr]; subst. apply hex_val_spec in Ha, Hb. rewrite Ha, Hb.
          apply (IH u l' ltac:(lia)) in Hr. rewrite Hr. cbn [rbind]. do 2 f_equal. rewrite <- Hv. apply n2b_b2n. }
  intros l. exact (G (List.length t) t l (le_n _)).
Qed.
Lemma hex_decode_cases t : (exists l, hex_decode t = Ok l /\ hex_text t l) \/ (hex_decode t = Err /\ forall l, ~ hex_text t l).
Proof.
  destruct (hex_decode t) as [l| |] eqn:E.
  - left. exists l. split; [reflexivity|]. now apply hex_decode_spec.
  - right. split; [reflexivity|]. intros l H. apply hex_decode_spec in H. congruence.
  - destruct (hex_decode_not_panic _ E).
Qed.

(** ** AES-GCM *)
Lemma xor_twice p : forall k, (List.length p <= List.length k)%nat -> xor_bytes (xor_bytes p k) k = p.
Proof.
  induction p as [|a p IH]; intros [|b k] L; try reflexivity; [simpl in L; lia|].
  unfold xor_bytes in *. cbn [combine map fst snd]. rewrite IH by (simpl in L; lia). f_equal.
  assert (N.lxor (b2n a) (b2n b) < 256)%N by (change 256%N with (2 ^ 8)%N; apply lxor_bound; exact (b2n_bound _)).
  rewrite b2n_n2b_small by assumption. rewrite N.lxor_assoc, N.lxor_nilpotent, N.lxor_0_r. apply n2b_b2n.
Qed.
Lemma xor_length p k : (List.length p <= List.length k)%nat -> List.length (xor_bytes p k) = List.length p.
Proof. intros L. unfold xor_bytes. rewrite map_length, combine_length. lia. Qed.
Lemma keystream_length rks nonce n : List.length (keystream rks nonce n) = (16 * n)%nat.
Proof.
  unfold keystream. set (g := fun i => be_put 16 (aes_block rks (counter_block nonce (N.of_nat i + 2)))).
  assert (forall s, List.length (List.concat (map g (seq s n))) = (16 * n)%nat) as G; [|apply G].
  induction n as [|n IH]; intros s; [reflexivity|]. cbn [seq map List.concat]. rewrite app_length, IH. unfold g at 1. rewrite be_put_length. lia.
Qed.
Lemma blocks_cover n : (n <= 16 * Nat.div (n + 15) 16)%nat.
Proof. pose proof (Nat.div_mod (n + 15) 16 ltac:(lia)). pose proof (Nat.mod_upper_bound (n + 15) 16 ltac:(lia)). lia. Qed.
Lemma gcm_crypt_length rks nonce l : List.length (gcm_crypt rks nonce l) = List.length l.
Proof. unfold gcm_crypt. apply xor_length. rewrite keystream_length. apply blocks_cover. Qed.
Lemma gcm_crypt_twice rks nonce l : gcm_crypt rks nonce (gcm_crypt rks nonce l) = l.
Proof.
  unfold gcm_crypt at 1. rewrite gcm_crypt_length. unfold gcm_crypt. apply xor_twice. rewrite keystream_length. apply blocks_cover.
Qed.
Lemma equal_pairs t : forallb (fun p => byte_eqb (fst p) (snd p)) (combine t t) = true.
Proof. induction t as [|a t IH]; [reflexivity|]. cbn [combine forallb fst snd]. now rewrite byte_eqb_refl, IH. Qed.
Lemma gcm_seal_length rks nonce p : List.length (gcm_seal rks nonce p) = (List.length p + 16)%nat.
Proof. unfold gcm_seal, gcm_tag. now rewrite app_length, gcm_crypt_length, be_put_length. Qed.
Lemma gcm_roundtrip rks nonce p : (zlen p <= (2 ^ 32 - 2) * 16)%Z -> gcm_open rks nonce (gcm_seal rks nonce p) = Ok p.
Proof.
  intros H. unfold gcm_open. assert (zlen (gcm_seal rks nonce p) = zlen p + 16)%Z as L by (unfold zlen; rewrite gcm_seal_length; lia).
  rewrite L. pose proof (zlen_nonneg p). destruct (Z.ltb_spec (zlen p + 16) 16); [lia|].
  destruct (Z.ltb_spec ((2 ^ 32 - 2) * 16 + 16) (zlen p + 16)); [lia|]. rewrite gcm_seal_length.
  unfold gcm_seal. replace (List.length p + 16 - 16)%nat with (List.length (gcm_crypt rks nonce p)) by (rewrite gcm_crypt_length; lia).
  rewrite (firstn_app_exact _ _ _ eq_refl), (skipn_app_exact _ _ _ eq_refl), equal_pairs. now rewrite gcm_crypt_twice.
Qed.

(** ** Key data *)
Lemma bytes_eqb_spec a b : bytes_eqb a b = true <-> a = b.
Proof. unfold bytes_eqb. destruct (list_eq_dec _ a b); split; congruence. Qed.
Lemma crc_bytes_length l : List.length (crc_bytes l) = 4%nat.
Proof. apply be_put_length. Qed.
Lemma parse_data t d c : hex_decode t = Ok (d ++ c) -> List.length c = 4%nat ->
  parse_key_data t = if bytes_eqb (crc_bytes d) c then Ok d else Err.
Proof.
  intros E L. unfold parse_key_data. rewrite E. cbn [rbind].
  assert (zlen c = 4)%Z as Lz by (unfold zlen; rewrite L; reflexivity).
  rewrite zlen_app, Lz. replace (zlen d + 4 - 4)%Z with (zlen d) by lia.
  assert (go_upto (d ++ c) (zlen d) = Ok d) as ->.
  { unfold go_upto. rewrite zlen_app. pose proof (zlen_nonneg d).
    destruct ((0 <=? zlen d) && (zlen d <=? zlen d + zlen c))%Z eqn:E1; [|lia].
    f_equal. apply firstn_app_exact. unfold zlen. lia. }
  cbn [rbind]. pose proof (go_slice_app d c []) as S. rewrite app_nil_r, Lz in S. rewrite S. reflexivity.
Qed.
Lemma split_tail (l : bytes) : (4 <= List.length l)%nat -> exists d c, l = d ++ c /\ List.length c = 4%nat.
Proof.
  intros L. exists (firstn (List.length l - 4) l), (skipn (List.length l - 4) l). split; [now rewrite firstn_skipn|].
  rewrite skipn_length. lia.
Qed.
Lemma parse_short t l : hex_decode t = Ok l -> (List.length l < 4)%nat -> parse_key_data t = Panic.
Proof.
  intros E L. unfold parse_key_data. rewrite E. cbn [rbind]. unfold go_upto.
  assert (zlen l < 4)%Z by (unfold zlen; lia). destruct ((0 <=? zlen l - 4) && (zlen l - 4 <=? zlen l))%Z eqn:E1; [lia|reflexivity].
Qed.
Lemma parse_cases t :
  (parse_key_data t = Err /\ (forall l, ~ hex_text t l)) \/
  (parse_key_data t = Panic /\ exists l, hex_text t l /\ (List.length l < 4)%nat) \/
  (exists d c, hex_text t (d ++ c) /\ List.length c = 4%nat /\ parse_key_data t = if bytes_eqb (crc_bytes d) c then Ok d else Err).
Proof.
  destruct (hex_decode_cases t) as [(l & E & H) | (E & H)].
  - right. destruct (Nat.lt_ge_cases (List.length l) 4) as [L|L].
    + left. split; [exact (parse_short _ _ E L)|]. eauto.
    + right. destruct (split_tail l L) as (d & c & -> & Lc). exists d, c. split; [assumption|]. split; [assumption|].
      exact (parse_data _ _ _ E Lc).
  - left. split; [|assumption]. unfold parse_key_data. now rewrite E.
Qed.
Lemma parse_written d : parse_key_data (hex_encode (d ++ crc_bytes d)) = Ok d.
Proof.
  rewrite (parse_data _ d (crc_bytes d) (hex_decode_encode _) (crc_bytes_length _)).
  now rewrite (proj2 (bytes_eqb_spec _ _) eq_refl).
Qed.
Lemma priv_data_short secret d : (List.length d < 12)%nat -> open_priv_data secret d = Panic.
Proof.
  intros L. unfold open_priv_data, go_upto. assert (zlen d < 12)%Z by (unfold zlen; lia).
  destruct ((0 <=? 12) && (12 <=? zlen d))%Z eqn:E; [lia|reflexivity].
Qed.
Lemma new_cipher_cases secret : (aes_key secret /\ new_cipher secret = Ok (key_schedule secret)) \/ (~ aes_key secret /\ new_cipher secret = Err).
Proof.
  unfold new_cipher, aes_key_size, aes_key. simpl In.
  destruct (Nat.eqb_spec (List.length secret) 16); destruct (Nat.eqb_spec (List.length secret) 24);
    destruct (Nat.eqb_spec (List.length secret) 32); simpl; (left; split; [lia|reflexivity]) || (right; split; [lia|reflexivity]).
Qed.
Lemma gcm_open_not_panic rks nonce c : gcm_open rks nonce c <> Panic.
Proof. unfold gcm_open. destruct (zlen c <? 16)%Z; [discriminate|]. destruct (_ <? zlen c)%Z; [discriminate|]. destruct (forallb _ _); discriminate. Qed.
Lemma priv_data_long secret d : (12 <= List.length d)%nat -> open_priv_data secret d <> Panic.
Proof.
  intros L. unfold open_priv_data, go_upto, go_from. assert (12 <= zlen d)%Z by (unfold zlen; lia).
  destruct ((0 <=? 12) && (12 <=? zlen d))%Z eqn:E; [|lia]. cbn [rbind].
  destruct (new_cipher_cases secret) as [(_ & ->) | (_ & ->)]; cbn [rbind]; [|discriminate].
  destruct (gcm_open _ _ _) eqn:G; cbn [rbind]; try discriminate. destruct (gcm_open_not_panic _ _ _ G).
Qed.
Lemma priv_data_roundtrip secret nonce priv : aes_key secret -> List.length nonce = 12%nat -> (0 <= priv < 2 ^ 256)%Z ->
  open_priv_data secret (nonce ++ gcm_seal (key_schedule secret) nonce (big_to_bytes priv)) = Ok priv.
Proof.
  intros K N P. unfold open_priv_data.
  assert (zlen nonce = 12)%Z as Lz by (unfold zlen; rewrite N; reflexivity).
  pose proof (zlen_nonneg (gcm_seal (key_schedule secret) nonce (big_to_bytes priv))) as G0.
  assert (go_upto (nonce ++ gcm_seal (key_schedule secret) nonce (big_to_bytes priv)) 12 = Ok nonce) as ->.
  { unfold go_upto. rewrite zlen_app, Lz. destruct (_ && _) eqn:E; [|lia]. f_equal. apply firstn_app_exact. rewrite N. reflexivity. }
  cbn [rbind]. pose proof (go_from_app nonce (gcm_seal (key_schedule secret) nonce (big_to_bytes priv))) as F. rewrite Lz in F. rewrite F.
  cbn [rbind]. destruct (new_cipher_cases secret) as [(_ & ->) | (C & _)]; [|tauto]. cbn [rbind].
  rewrite gcm_roundtrip; [|unfold zlen; rewrite big_to_bytes_length; lia]. cbn [rbind]. now rewrite big_roundtrip.
Qed.

(** ** Paths *)
Lemma split_no_slash l : forall cur, no_slash l -> split_slash cur l = [cur ++ l].
Proof.
  induction l as [|c l IH]; intros cur H; cbn [split_slash]; [now rewrite app_nil_r|].
  destruct (byte_eqb c x2f) eqn:E; [apply byte_eqb_eq in E; subst; destruct H; left; reflexivity|].
  rewrite IH by (intros I; apply H; right; exact I). now rewrite <- app_assoc.
Qed.
Lemma split_app a : forall cur b, split_slash cur (a ++ x2f :: b) = split_slash cur a ++ split_slash [] b.
Proof.
  induction a as [|c a IH]; intros cur b; cbn [app split_slash]; [reflexivity|].
  destruct (byte_eqb c x2f); [cbn [app]; now rewrite IH|apply IH].
Qed.
Lemma norm_plain acc x : plain_name x -> norm_step acc x = acc ++ [x].
Proof.
  intros (_ & H1 & H2 & H3). unfold norm_step.
  destruct (bytes_eqb x []) eqn:E1; [apply bytes_eqb_spec in E1; tauto|].
  destruct (bytes_eqb x (str ".")) eqn:E2; [apply bytes_eqb_spec in E2; tauto|].
  destruct (bytes_eqb x (str "..")) eqn:E3; [apply bytes_eqb_spec in E3; tauto|]. reflexivity.
Qed.
Lemma resolve_name a x : plain_name x -> resolve (a ++ str "/" ++ x) = resolve a ++ [x].
Proof.
  intros P. unfold resolve. change (str "/" ++ x) with (x2f :: x). rewrite split_app, fold_left_app.
  rewrite (split_no_slash x [] (proj1 P)). cbn [app fold_left]. now apply norm_plain.
Qed.
Definition class_names : list bytes := [str "node"; str "cluster"; str "universe"; str "service"; str "federation"].
Lemma class_cases cls : (known_class cls /\ exists n, class_name cls = Ok n /\ In n class_names) \/ (~ known_class cls /\ class_name cls = Panic).
Proof.
  unfold class_name, known_class.
  destruct (Z.eqb_spec cls 1); [left; split; [lia|]; eexists; split; [reflexivity|]; simpl; auto|].
  destruct (Z.eqb_spec cls 2); [left; split; [lia|]; eexists; split; [reflexivity|]; simpl; auto|].
  destruct (Z.eqb_spec cls 3); [left; split; [lia|]; eexists; split; [reflexivity|]; simpl; auto|].
  destruct (Z.eqb_spec cls 4); [left; split; [lia|]; eexists; split; [reflexivity|]; simpl; auto 6|].
  destruct (Z.eqb_spec cls 5); [left; split; [lia|]; eexists; split; [reflexivity|]; simpl; auto 7|].
  right. split; [lia|reflexivity].
Qed.
Lemma class_name_inj c1 c2 n : class_name c1 = Ok n -> class_name c2 = Ok n -> c1 = c2.
Proof.
  unfold class_name. intros H1 H2.
  destruct (Z.eqb_spec c1 1); destruct (Z.eqb_spec c2 1); try lia;
  destruct (Z.eqb_spec c1 2); destruct (Z.eqb_spec c2 2); try lia;
  destruct (Z.eqb_spec c1 3); destruct (Z.eqb_spec c2 3); try lia;
  destruct (Z.eqb_spec c1 4); destruct (Z.eqb_spec c2 4); try lia;
  destruct (Z.eqb_spec c1 5); destruct (Z.eqb_spec c2 5); try lia; try discriminate;
  rewrite <- H2 in H1; discriminate H1.
Qed.
Definition no_slash_b (l : bytes) : bool := forallb (fun c => negb (byte_eqb c x2f)) l.
Lemma no_slash_b_ok l : no_slash_b l = true -> no_slash l.
Proof. unfold no_slash_b, no_slash. rewrite forallb_forall. intros H I. specialize (H _ I). discriminate. Qed.
Definition plain_b (l : bytes) : bool := no_slash_b l && negb (bytes_eqb l []) && negb (bytes_eqb l [x2e]) && negb (bytes_eqb l [x2e; x2e]).
Lemma plain_b_ok l : plain_b l = true -> plain_name l.
Proof.
  unfold plain_b. intros H. apply andb_prop in H. destruct H as (H & H3). apply andb_prop in H. destruct H as (H & H2).
  apply andb_prop in H. destruct H as (H & H1). split; [now apply no_slash_b_ok|].
  repeat split; intros ->; discriminate.
Qed.
Lemma names_plain n : In n class_names -> plain_name n /\ plain_name (n ++ str "_id") /\ plain_name (n ++ str "_id.pub").
Proof.
  intros [<- | [<- | [<- | [<- | [<- | []]]]]]; (split; [|split]); apply plain_b_ok; reflexivity.
Qed.
Definition etc_path (n : bytes) : list bytes := [str "etc"; str "poodle"; n].
Lemma etc_dir_resolve n : In n class_names -> resolve (str "/etc/poodle" ++ str "/" ++ n) = etc_path n.
Proof. intros I. rewrite resolve_name by apply (names_plain n I). reflexivity. Qed.
(** The pieces of the three paths of a known class. *)
Lemma paths_of cls n id : class_name cls = Ok n -> In n class_names ->
  exists d, key_dir cls id = Ok d /\
    pub_key_path cls id = Ok (d ++ str "/" ++ n ++ str "_id.pub") /\ priv_key_path cls id = Ok (d ++ str "/" ++ n ++ str "_id") /\
    resolve (d ++ str "/" ++ n ++ str "_id.pub") = resolve d ++ [n ++ str "_id.pub"] /\
    resolve (d ++ str "/" ++ n ++ str "_id") = resolve d ++ [n ++ str "_id"] /\
    d = (str "/etc/poodle" ++ str "/" ++ n) ++ str "/" ++ id.
Proof.
  intros E I. destruct (names_plain n I) as (_ & P2 & P3). unfold pub_key_path, priv_key_path, key_dir, etc_dir. rewrite E. cbn [rbind].
  eexists. split; [reflexivity|]. split; [reflexivity|]. split; [reflexivity|].
  split; [now apply resolve_name|]. split; [now apply resolve_name|reflexivity].
Qed.
Lemma key_dir_plain n id : In n class_names -> plain_name id ->
  resolve ((str "/etc/poodle" ++ str "/" ++ n) ++ str "/" ++ id) = etc_path n ++ [id].
Proof. intros I P. rewrite resolve_name by assumption. now rewrite etc_dir_resolve. Qed.

(** ** File system *)
Lemma path_eqb_spec p q : path_eqb p q = true <-> p = q.
Proof. unfold path_eqb. destruct (list_eq_dec (list_eq_dec Byte.byte_eq_dec) p q); split; congruence. Qed.
Lemma fs_set_same f p e : fs_set f p e p = Some e.
Proof. unfold fs_set. now rewrite (proj2 (path_eqb_spec p p) eq_refl). Qed.
Lemma fs_set_other f p q e : q <> p -> fs_set f p e q = f q.
Proof. intros H. unfold fs_set. destruct (path_eqb q p) eqn:E; [apply path_eqb_spec in E; tauto|reflexivity]. Qed.
Lemma in_prefixes p q : In q (prefixes p) -> exists r, p = q ++ r.
Proof.
  unfold prefixes. intros I. apply in_map_iff in I. destruct I as (k & <- & _). exists (skipn k p). now rewrite firstn_skipn.
Qed.
Lemma mkdir_all_other f p q : (forall r, p <> q ++ r) -> mkdir_all f p q = f q.
Proof.
  intros H. unfold mkdir_all. destruct (existsb (path_eqb q) (prefixes p)) eqn:E; [|reflexivity].
  apply existsb_exists in E. destruct E as (x & I & Ex). apply path_eqb_spec in Ex. subst x. destruct (in_prefixes _ _ I) as (r & ->).
  destruct (H r eq_refl).
Qed.
Lemma mkdir_all_self f p : p <> [] -> mkdir_all f p p = Some Dir.
Proof.
  intros H. unfold mkdir_all. replace (existsb (path_eqb p) (prefixes p)) with true; [reflexivity|]. symmetry.
  apply existsb_exists. exists p. split; [|now apply path_eqb_spec]. unfold prefixes. apply in_map_iff. exists (List.length p).
  split; [apply firstn_all|]. apply in_seq. destruct p; [tauto|simpl; lia].
Qed.
Lemma mkdir_all_file f p q c : existsb (is_file f) (prefixes p) = false -> f q = Some (File c) -> mkdir_all f p q = Some (File c).
Proof.
  intros N F. unfold mkdir_all. destruct (existsb (path_eqb q) (prefixes p)) eqn:E; [|assumption].
  apply existsb_exists in E. destruct E as (x & I & Ex). apply path_eqb_spec in Ex. subst x.
  assert (existsb (is_file f) (prefixes p) = true) as C; [|congruence].
  apply existsb_exists. exists q. split; [assumption|]. unfold is_file. now rewrite F.
Qed.
Lemma mkdir_file f path f1 q c : mkdir_if_not_exist f path = Ok f1 -> f q = Some (File c) -> f1 q = Some (File c).
Proof.
  unfold mkdir_if_not_exist. intros M F. destruct (resolve path) as [|x p] eqn:E; [congruence|].
  destruct (f (x :: p)) as [[c'|]|]; try discriminate; [congruence|].
  destruct (existsb (is_file f) (prefixes (x :: p))) eqn:N; [discriminate|]. assert (f1 = mkdir_all f (x :: p)) as -> by congruence.
  now apply mkdir_all_file.
Qed.
Lemma mkdir_other f path f1 q : mkdir_if_not_exist f path = Ok f1 -> (forall r, resolve path <> q ++ r) -> f1 q = f q.
Proof.
  unfold mkdir_if_not_exist. intros M H. destruct (resolve path) as [|x p] eqn:E; [congruence|].
  destruct (f (x :: p)) as [[c'|]|]; try discriminate; [congruence|].
  destruct (existsb (is_file f) (prefixes (x :: p))) eqn:N; [discriminate|]. assert (f1 = mkdir_all f (x :: p)) as -> by congruence.
  now apply mkdir_all_other.
Qed.
Lemma mkdir_ok f path f1 : mkdir_if_not_exist f path = Ok f1 -> is_dir f1 (resolve path) = true.
Proof.
  unfold mkdir_if_not_exist. intros M. destruct (resolve path) as [|x p] eqn:E; [reflexivity|]. unfold is_dir.
  destruct (f (x :: p)) as [[c'|]|] eqn:F; try discriminate; [replace f1 with f by congruence; now rewrite F|].
  destruct (existsb (is_file f) (prefixes (x :: p))) eqn:N; [discriminate|]. assert (f1 = mkdir_all f (x :: p)) as -> by congruence.
  now rewrite mkdir_all_self by discriminate.
Qed.
Lemma write_ok f path c f1 : write_file f path c = Ok f1 -> f1 = fs_set f (resolve path) (File c).
Proof. unfold write_file. destruct (can_write f (resolve path)); congruence. Qed.
Lemma snoc_not_self {A} (l : list A) x r : l <> (l ++ [x]) ++ r.
Proof. intros H. apply (f_equal (@List.length A)) in H. rewrite !app_length in H. simpl in H. lia. Qed.
Lemma id_not_pub n : n ++ str "_id" <> n ++ str "_id.pub".
Proof. intros H. apply app_inv_head in H. discriminate. Qed.
