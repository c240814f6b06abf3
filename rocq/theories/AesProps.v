(** * C115: what the key files contain. *)
From Coq Require Import List NArith ZArith Lia Bool.
From Coq Require Import Strings.Byte Strings.String.
From Verif Require Import Base BaseProofs EndianModel EndianProofs CrcModel CrcProofs CrcSpec CrcPoly AesModel AesSpec AesProofs KeyStoreModel KeyStoreSpec KeyStoreProofs KeyStoreProps.
Import ListNotations.
Local Open Scope list_scope.

(** The table of the model is the S-box of the standard, and the block function is AES, for the three sizes of keys. *)
Theorem C115_sbox : is_sbox sub_byte.
Proof. exact sub_byte_sbox. Qed.
Print Assumptions C115_sbox.
Example C115_sbox_applies : gmul 0x53 0xca = 1%N /\ sub_byte 0x53 = 0xed%N.
Proof. split; vm_compute; reflexivity. Qed.
Definition encrypt (key b : bytes) : bytes := be_put 16 (aes_block (key_schedule key) (be_get b)).
Theorem C115_aes : forall key, aes_key key -> is_aes key (encrypt key).
Proof.
  intros key K. unfold aes_key in K. cbn [In] in K.
  assert (exists nk, List.length key = (4 * nk)%nat /\ (0 < nk)%nat) as (nk & L & P).
  { destruct K as [K|[K|[K|[]]]]; [exists 4%nat|exists 6%nat|exists 8%nat]; split; lia. }
  exact (enc_aes key nk L P).
Qed.
Print Assumptions C115_aes.
(** The test vectors of FIPS 197, appendix C. *)
Theorem C115_aes_vectors :
  encrypt (be_put 16 0x000102030405060708090a0b0c0d0e0f) (be_put 16 0x00112233445566778899aabbccddeeff) = be_put 16 0x69c4e0d86a7b0430d8cdb78070b4c55a /\
  encrypt (be_put 24 0x000102030405060708090a0b0c0d0e0f1011121314151617) (be_put 16 0x00112233445566778899aabbccddeeff) = be_put 16 0xdda97ca4864cdfe06eaf70a0ec0d7191 /\
  encrypt (be_put 32 0x000102030405060708090a0b0c0d0e0f101112131415161718191a1b1c1d1e1f) (be_put 16 0x00112233445566778899aabbccddeeff) = be_put 16 0x8ea2b7ca516745bfeafc49904b496089.
Proof. split; [|split]; vm_compute; reflexivity. Qed.
Print Assumptions C115_aes_vectors.

(** Sealing is GCM. *)
Lemma encrypt_counter key nonce i : be_put 16 (aes_block (key_schedule key) (counter_block nonce i)) = encrypt key (nonce ++ counter i).
Proof. unfold encrypt. now rewrite counter_value. Qed.
Lemma aes_block_bound key x : (aes_block (key_schedule key) x < 2 ^ 128)%N.
Proof.
  unfold aes_block.
  assert (List.length (map n2b (match key_schedule key with [] => map b2n (be_put 16 x) | rk :: rks' => rounds rks' (xor_list (map b2n (be_put 16 x)) rk) end)) <= 16)%nat as L.
  { rewrite map_length. destruct (key_schedule key) as [|rk rks]; [rewrite map_length, be_put_length; lia|].
    assert (List.length (xor_list (map b2n (be_put 16 x)) rk) <= 16)%nat as L0 by (rewrite xor_list_length, map_length, be_put_length; lia).
    generalize dependent (xor_list (map b2n (be_put 16 x)) rk). induction rks as [|rk' rks IH]; intros l Hl; [exact Hl|].
    destruct rks as [|rk'' rks]; [cbn [rounds]; rewrite xor_list_length; unfold shift_rows; rewrite map_length, seq_length; lia|].
    change (List.length (rounds (rk'' :: rks) (xor_list (mix_columns (shift_rows (map sub_byte l))) rk')) <= 16)%nat. apply IH.
    rewrite xor_list_length. assert (List.length (mix_columns (shift_rows (map sub_byte l))) = 16%nat) as -> by reflexivity. lia. }
  eapply N.lt_le_trans; [apply be_get_bound|]. change (2 ^ 128)%N with (256 ^ 16)%N. apply N.pow_le_mono_r; [discriminate|]. unfold bytes in *. lia.
Qed.
Lemma aes_block_value key x : be_get (be_put 16 (aes_block (key_schedule key) x)) = aes_block (key_schedule key) x.
Proof. rewrite be_get_put. apply N.mod_small. exact (aes_block_bound key x). Qed.
Lemma times_x_bound v : (v < 2 ^ 128 -> times_x v < 2 ^ 128)%N.
Proof.
  intros H. unfold times_x. apply lxor_bound.
  - eapply N.le_lt_trans; [|exact H]. apply N.div_le_upper_bound; lia.
  - destruct (N.testbit v 0); reflexivity.
Qed.
Lemma block_mul_bound x y : (y < 2 ^ 128 -> block_mul x y < 2 ^ 128)%N.
Proof.
  intros H. unfold block_mul. generalize 128%nat. induction n as [|n IH]; [reflexivity|]. cbn [block_product]. apply lxor_bound; [exact IH|].
  destruct (N.testbit x (127 - N.of_nat n)); [|reflexivity]. clear IH. induction n as [|n IH]; [exact H|]. cbn [times_x_power]. now apply times_x_bound.
Qed.
Theorem C115_seal : forall key nonce p, (8 * N.of_nat (List.length p) < 2 ^ 64)%N ->
  is_gcm (encrypt key) nonce p (gcm_seal (key_schedule key) nonce p).
Proof.
  intros key nonce p B. exists (gcm_crypt (key_schedule key) nonce p), (gcm_tag (key_schedule key) nonce (gcm_crypt (key_schedule key) nonce p)).
  split; [reflexivity|]. split; [apply gcm_crypt_length|]. split; [apply be_put_length|]. split.
  - intros j Hj. change (Byte.to_N ?v) with (b2n v). unfold gcm_crypt at 1. pose proof (blocks_cover (List.length p)) as C.
    rewrite xor_bytes_nth by (rewrite ?keystream_length; lia). rewrite keystream_nth by lia. now rewrite encrypt_counter.
  - unfold gcm_tag. rewrite block_value_16 by apply be_put_length.
    rewrite ghash_spec by (rewrite gcm_crypt_length; exact B).
    rewrite !block_value_16 by apply be_put_length. rewrite <- encrypt_counter. rewrite aes_block_value.
    change (be_get (encrypt key (repeat x00 16))) with (be_get (be_put 16 (aes_block (key_schedule key) 0))). rewrite aes_block_value.
    rewrite be_get_put. apply N.mod_small. change (256 ^ N.of_nat 16)%N with (2 ^ 128)%N. apply lxor_bound; [|apply aes_block_bound].
    apply block_mul_bound, aes_block_bound.
Qed.
Print Assumptions C115_seal.
(** The test cases 1, 2 and 3 of the GCM specification. *)
Theorem C115_seal_vectors :
  gcm_seal (key_schedule (be_put 16 0)) (be_put 12 0) [] = be_put 16 0x58e2fccefa7e3061367f1d57a4e7455a /\
  gcm_seal (key_schedule (be_put 16 0)) (be_put 12 0) (be_put 16 0) =
    be_put 16 0x0388dace60b6a392f328c2b971b2fe78 ++ be_put 16 0xab6e47d42cec13bdf53a67b21257bddf /\
  gcm_seal (key_schedule (be_put 16 0xfeffe9928665731c6d6a8f9467308308)) (be_put 12 0xcafebabefacedbaddecaf888)
    (be_put 64 0xd9313225f88406e5a55909c5aff5269a86a7a9531534f7da2e4c303d8a318a721c3c0c95956809532fcf0e2449a6b525b16aedf5aa0de657ba637b391aafd255) =
    be_put 64 0x42831ec2217774244b7221b784d0d49ce3aa212f2c02a4e035c17e2329aca12e21d514b25466931c7d8f6a5aac84aa051ba30b396a0aac973d58e091473f5985 ++
    be_put 16 0x4d5c2af327cd64a62cf35abd2ba6fab4.
Proof. split; [|split]; vm_compute; reflexivity. Qed.
Print Assumptions C115_seal_vectors.

(** The description leaves no choice: a text sealed with a key and nonce is one sequence of bytes. *)
Lemma app_same_length {A} (a b c d : list A) : List.length a = List.length c -> a ++ b = c ++ d -> a = c /\ b = d.
Proof.
  revert c. induction a as [|x a IH]; intros [|y c] L E; try discriminate; [auto|]. cbn [app] in E. injection E as <- E.
  destruct (IH c ltac:(simpl in L; lia) E) as [-> ->]. auto.
Qed.
Lemma is_gcm_unique E nonce p out out' : is_gcm E nonce p out -> is_gcm E nonce p out' -> out = out'.
Proof.
  intros (c & t & -> & L & Lt & C & T) (c' & t' & -> & L' & Lt' & C' & T').
  assert (c = c') as <-.
  { apply (nth_ext _ _ x00 x00); [lia|]. intros j Hj. apply b2n_inj. unfold b2n. rewrite C, C' by lia. reflexivity. }
  f_equal. apply be_get_inj; [lia|]. rewrite <- !block_value_16 by assumption. congruence.
Qed.
(** Opening accepts exactly the texts that are the result of sealing, and gives back what was sealed. *)
Lemma forallb_equal : forall t u : bytes, List.length t = List.length u -> forallb (fun p => byte_eqb (fst p) (snd p)) (combine t u) = true -> t = u.
Proof.
  induction t as [|a t IH]; intros [|b u] L F; try discriminate; [reflexivity|]. cbn [combine forallb fst snd] in F.
  apply andb_prop in F. destruct F as [A F]. apply byte_eqb_eq in A. subst b. f_equal. apply IH; [simpl in L; lia|exact F].
Qed.
Theorem C115_open : forall key nonce c p, (zlen c <= (2 ^ 32 - 2) * 16 + 16)%Z ->
  (gcm_open (key_schedule key) nonce c = Ok p <-> is_gcm (encrypt key) nonce p c).
Proof.
  intros key nonce c p B. split.
  - intros O. unfold gcm_open in O. destruct (Z.ltb_spec (zlen c) 16) as [|G]; [discriminate|].
    destruct (Z.ltb_spec ((2 ^ 32 - 2) * 16 + 16) (zlen c)) as [|G']; [discriminate|].
    set (d := firstn (List.length c - 16) c) in *. set (t := skipn (List.length c - 16) c) in *.
    destruct (forallb _ _) eqn:F; [|discriminate]. inv O. unfold zlen in *.
    assert (t = gcm_tag (key_schedule key) nonce d) as T.
    { apply forallb_equal; [|exact F]. unfold t, gcm_tag. rewrite skipn_length, be_put_length. lia. }
    assert (c = gcm_seal (key_schedule key) nonce (gcm_crypt (key_schedule key) nonce d)) as E.
    { unfold gcm_seal. rewrite gcm_crypt_twice, <- T. symmetry. apply firstn_skipn. }
    rewrite E at 1. apply C115_seal. rewrite gcm_crypt_length. unfold d. rewrite firstn_length. lia.
  - intros G. assert (List.length c = (List.length p + 16)%nat) as L.
    { destruct G as (c' & t & -> & L & Lt & _). rewrite app_length. lia. }
    unfold zlen in B. assert (c = gcm_seal (key_schedule key) nonce p) as -> by (eapply is_gcm_unique; [exact G|]; apply C115_seal; lia).
    apply gcm_roundtrip. unfold zlen. lia.
Qed.
Print Assumptions C115_open.
Example C115_open_applies : exists c, (zlen c <= (2 ^ 32 - 2) * 16 + 16)%Z /\ gcm_open (key_schedule demo_secret) demo_nonce c = Ok (str "attack at dawn") /\
  gcm_open (key_schedule demo_secret) demo_nonce (str "attack at dawn, attack at dawn") = Err.
Proof.
  exists (gcm_seal (key_schedule demo_secret) demo_nonce (str "attack at dawn")). split; [vm_compute; discriminate|]. split; vm_compute; reflexivity.
Qed.

(** ** The files *)
Definition upper_hex_digit (c : byte) : Prop := In c (str "0123456789ABCDEF").
(** [t] is a hex dump in capitals of [d] and of the CRC-32 of [d], most significant byte first. *)
Definition key_file (t d : bytes) : Prop :=
  Forall upper_hex_digit t /\ exists crc, List.length crc = 4%nat /\ is_crc32 d (be_get crc) /\ hex_text t (d ++ crc).
Lemma hex_capitals l : Forall upper_hex_digit (hex_encode l).
Proof.
  induction l as [|b l IH]; [constructor|]. change (hex_encode (b :: l)) with (hex_encode [b] ++ hex_encode l). apply Forall_app. split; [|exact IH].
  unfold upper_hex_digit. apply Forall_forall. intros c. revert b.
  assert (forall b, forallb (fun c => existsb (byte_eqb c) (str "0123456789ABCDEF")) (hex_encode [b]) = true) as G by (intros b; destruct b; vm_compute; reflexivity).
  intros b Hc. specialize (G b). rewrite forallb_forall in G. specialize (G c Hc). apply existsb_exists in G. destruct G as (y & Hy & E).
  apply byte_eqb_eq in E. now subst y.
Qed.
Lemma key_file_text d : key_file (hex_encode (d ++ crc_bytes d)) d.
Proof.
  split; [apply hex_capitals|]. exists (crc_bytes d). split; [apply crc_bytes_length|]. split; [|apply hex_decode_spec, hex_decode_encode].
  unfold crc_bytes. rewrite be_get_put. pose proof (crc32_is d) as C. destruct C as [B C]. rewrite N.mod_small by exact B. split; assumption.
Qed.
(** The private key file: 12 bytes of nonce, then the 32 bytes of the scalar sealed by AES-GCM with the secret. *)
Theorem C115_private_file : forall secret nonce priv, aes_key secret -> List.length nonce = 12%nat -> (0 <= priv < 2 ^ 256)%Z ->
  let t := priv_text (key_schedule secret) nonce priv in
  List.length t = 128%nat /\
  exists E scalar sealed, is_aes secret E /\ List.length scalar = 32%nat /\ Z.of_N (be_get scalar) = priv /\
    is_gcm E nonce scalar sealed /\ key_file t (nonce ++ sealed).
Proof.
  intros secret nonce priv K Ln P. cbv zeta. unfold priv_text. split.
  - rewrite hex_encode_length, !app_length, crc_bytes_length, gcm_seal_length, big_to_bytes_length, Ln. reflexivity.
  - exists (encrypt secret), (big_to_bytes priv), (gcm_seal (key_schedule secret) nonce (big_to_bytes priv)).
    split; [now apply C115_aes|]. split; [apply big_to_bytes_length|]. split; [|split; [apply C115_seal; rewrite big_to_bytes_length; reflexivity|apply key_file_text]].
    rewrite big_to_bytes_value. rewrite N.mod_small by lia. lia.
Qed.
Print Assumptions C115_private_file.
Example C115_private_file_applies : aes_key demo_secret /\ List.length demo_nonce = 12%nat /\
  firstn 24 (priv_text (key_schedule demo_secret) demo_nonce 7654321) = str "CAFEBABEFACEDBADDECAF888".
Proof. split; [left; reflexivity|]. split; [reflexivity|]. vm_compute. reflexivity. Qed.
(** The public key file: the 32 bytes of the coordinate. *)
Theorem C115_public_file : forall pub, (0 <= pub < 2 ^ 256)%Z ->
  List.length (pub_text pub) = 72%nat /\
  exists x, List.length x = 32%nat /\ Z.of_N (be_get x) = pub /\ key_file (pub_text pub) x.
Proof.
  intros pub P. unfold pub_text. split.
  - rewrite hex_encode_length, app_length, crc_bytes_length, big_to_bytes_length. reflexivity.
  - exists (big_to_bytes pub). split; [apply big_to_bytes_length|]. split; [|apply key_file_text]. rewrite big_to_bytes_value. rewrite N.mod_small by lia. lia.
Qed.
Print Assumptions C115_public_file.
Example C115_public_file_applies : firstn 64 (pub_text 255) = str "00000000000000000000000000000000000000000000000000000000000000FF".
Proof. vm_compute. reflexivity. Qed.
(** What a successful save leaves in the two files. *)
Theorem C115_saved : forall f f' cls id pub priv secret nonce, known_class cls -> plain_name id -> List.length nonce = 12%nat ->
  (0 <= pub < 2 ^ 256)%Z -> (0 <= priv < 2 ^ 256)%Z -> save_key_pair f cls id pub priv secret nonce = (f', Ok tt) ->
  exists n tp tv, class_name cls = Ok n /\
    f' [str "etc"; str "poodle"; n; id; n ++ str "_id.pub"] = Some (File tp) /\
    f' [str "etc"; str "poodle"; n; id; n ++ str "_id"] = Some (File tv) /\
    (exists x, List.length x = 32%nat /\ Z.of_N (be_get x) = pub /\ key_file tp x) /\
    (exists E scalar sealed, is_aes secret E /\ List.length scalar = 32%nat /\ Z.of_N (be_get scalar) = priv /\
       is_gcm E nonce scalar sealed /\ key_file tv (nonce ++ sealed)).
Proof.
  intros f f' cls id pub priv secret nonce K P Ln Hp Hv S. destruct (C66_save_exact f cls id pub priv secret nonce K P) as (n & D & En & ED & H).
  cbv zeta in H. rewrite S in H. cbn [fst snd] in H. destruct H as [(_ & _ & C)|[(_ & _ & _ & C)|(f1 & _ & H)]]; [discriminate..|].
  destruct H as [(_ & _ & C)|[(_ & _ & _ & C)|[(_ & _ & _ & _ & C)|(A & _ & _ & (f2 & [O2 _] & [O3 U3]) & _)]]]; [discriminate..|].
  subst D. exists n, (pub_text pub), (priv_text (key_schedule secret) nonce priv). split; [exact En|]. split; [exact O3|]. split.
  - rewrite (U3 [str "etc"; str "poodle"; n; id; n ++ str "_id"]); [exact O2|]. intros C.
    assert (n ++ str "_id" = n ++ str "_id.pub") as E by (cbn [app] in C; congruence). apply app_inv_head in E. discriminate.
  - split; [exact (proj2 (C115_public_file pub Hp))|]. exact (proj2 (C115_private_file secret nonce priv A Ln Hv)).
Qed.
Print Assumptions C115_saved.
Example C115_saved_applies : known_class 1 /\ plain_name (str "4a7f") /\ List.length demo_nonce = 12%nat /\
  snd (save_key_pair no_files 1 (str "4a7f") 1234567 7654321 demo_secret demo_nonce) = Ok tt.
Proof. split; [unfold known_class; lia|]. split; [apply plain_b_ok; reflexivity|]. split; [reflexivity|]. vm_compute. reflexivity. Qed.

(** ** C74: which generated keys load with their passphrase *)
Lemma generated_load f cls pub priv s nonce f' : List.length nonce = 12%nat -> pkeygen f cls pub priv s nonce = (f', Ok tt) ->
  load_priv_key_prompt f' cls (pkeygen_id pub) s = open_priv_data s (nonce ++ gcm_seal (key_schedule (firstn 16 (s ++ repeat x00 16))) nonce (big_to_bytes priv)).
Proof.
  intros Hn H. unfold pkeygen in H. destruct (prompt_accepts s) eqn:A; [|discriminate].
  destruct (save_effect _ _ _ _ _ _ _ _ H) as (n & d & f1 & En & I & K & Ed & Ep & Ev & M & E).
  unfold load_priv_key_prompt. rewrite Ev. cbn [rbind]. rewrite resolve_name by apply (names_plain n I).
  assert (f' (resolve d ++ [n ++ str "_id"]) = Some (File (priv_text (key_schedule (pkeygen_secret s)) nonce priv))) as F.
  { rewrite E, fs_set_other; [apply fs_set_same|]. intros C. apply snoc_inj in C. exact (id_not_pub n (proj2 C)). }
  rewrite F, A. unfold load_priv_key. rewrite Ev. cbn [rbind]. unfold load_key_data, read_file.
  rewrite resolve_name by apply (names_plain n I). rewrite F. cbn [rbind]. unfold priv_text. rewrite parse_written. cbn [rbind].
  reflexivity.
Qed.
Lemma open_parts secret nonce c : List.length nonce = 12%nat ->
  open_priv_data secret (nonce ++ c) = (let? block := new_cipher secret in let? p := gcm_open block nonce c in Ok (bytes_to_big p)).
Proof.
  intros L. unfold open_priv_data, go_upto, go_from.
  assert (((0 <=? 12) && (12 <=? zlen (nonce ++ c)))%Z = true) as -> by (unfold zlen; rewrite app_length; lia).
  cbn [rbind]. change (Z.to_nat 12) with 12%nat.
  replace (firstn 12 (nonce ++ c)) with nonce by (symmetry; now apply firstn_app_exact).
  replace (skipn 12 (nonce ++ c)) with c by (symmetry; now apply skipn_app_exact). reflexivity.
Qed.
(** A generated key loads with its own passphrase exactly if that is the size of an AES key and, as such, opens what the first 16
    bytes of the passphrase, filled up with zeros, sealed. Everything else is an error. *)
Theorem C74_exact : forall f cls pub priv passphrase nonce f',
  List.length nonce = 12%nat -> pkeygen f cls pub priv passphrase nonce = (f', Ok tt) ->
  exists sealed, is_gcm (encrypt (firstn 16 (passphrase ++ repeat x00 16))) nonce (big_to_bytes priv) sealed /\
  (forall v, load_priv_key_prompt f' cls (pkeygen_id pub) passphrase = Ok v <->
     aes_key passphrase /\ exists scalar, is_gcm (encrypt passphrase) nonce scalar sealed /\ Z.of_N (be_get scalar) = v) /\
  load_priv_key_prompt f' cls (pkeygen_id pub) passphrase <> Panic.
Proof.
  intros f cls pub priv s nonce f' L H. rewrite (generated_load _ _ _ _ _ _ _ L H), (open_parts _ _ _ L).
  set (sealed := gcm_seal _ _ _). exists sealed. split; [apply C115_seal; rewrite big_to_bytes_length; reflexivity|].
  assert (zlen sealed <= (2 ^ 32 - 2) * 16 + 16)%Z as B by (unfold sealed, zlen; rewrite gcm_seal_length, big_to_bytes_length; lia).
  clearbody sealed.
  destruct (new_cipher_cases s) as [(K & ->) | (K & ->)]; cbn [rbind].
  - pose proof (fun p => C115_open s nonce sealed p B) as O. pose proof (gcm_open_not_panic (key_schedule s) nonce sealed) as NP.
    destruct (gcm_open (key_schedule s) nonce sealed) as [p| |]; cbn [rbind].
    + split; [|discriminate]. intros v. split.
      * intros E. split; [exact K|]. exists p. split; [now apply O|]. unfold bytes_to_big in E. congruence.
      * intros (_ & q & G & <-). apply O in G. assert (p = q) as -> by congruence. reflexivity.
    + split; [|discriminate]. intros v. split; [discriminate|]. intros (_ & q & G & _). apply O in G. discriminate.
    + now destruct NP.
  - split; [|discriminate]. intros v. split; [discriminate|]. now intros (K' & _).
Qed.
Print Assumptions C74_exact.
Example C74_exact_applies : List.length demo_nonce = 12%nat /\
  let (f, o) := pkeygen no_files 1 0x4a7f 99 (str "a passphrase of 24 bytes") demo_nonce in
  o = Ok tt /\ aes_key (str "a passphrase of 24 bytes") /\ load_priv_key_prompt f 1 (str "4a7f") (str "a passphrase of 24 bytes") = Err.
Proof. split; [reflexivity|]. destruct (pkeygen _ _ _ _ _ _) as [f o] eqn:E. vm_compute in E. inversion E; subst. split; [reflexivity|]. split; [right; left; reflexivity|]. vm_compute. reflexivity. Qed.
