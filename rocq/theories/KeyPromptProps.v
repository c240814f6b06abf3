(** * C114: a pair saved under a typed passphrase is there and is loaded with it. *)
From Coq Require Import List NArith ZArith Lia Bool.
From Coq Require Import Strings.Byte Strings.String.
From Verif Require Import Base BaseProofs EndianModel AesModel KeyStoreModel KeyStoreSpec KeyStoreProofs KeyStoreProps KeyPromptModel.
Import ListNotations.
Local Open Scope list_scope.

(** If the save succeeds, everything holds that should. *)
Theorem C114_roundtrip : forall f cls id pub priv secret nonce f',
  (0 <= pub < 2 ^ 256)%Z -> (0 <= priv < 2 ^ 256)%Z -> List.length nonce = 12%nat ->
  save_key_pair_prompt f cls id pub priv secret nonce = (f', Ok tt) ->
  exist_pub_key f' cls id = Ok true /\ exist_priv_key f' cls id = Ok true /\
  load_pub_key f' cls id = Ok pub /\ load_priv_key_prompt f' cls id secret = Ok priv.
Proof.
  intros f cls id pub priv s nonce f' Hp Hv Hn H. unfold save_key_pair_prompt in H. destruct (prompt_accepts s) eqn:A; [|discriminate].
  pose proof (C66_roundtrip _ _ _ _ _ _ _ _ Hp Hv Hn H) as (Lp & Lv).
  destruct (save_effect _ _ _ _ _ _ _ _ H) as (n & d & f1 & En & I & K & Ed & Ep & Ev & M & E).
  assert (f' (resolve d ++ [n ++ str "_id"]) = Some (File (priv_text (key_schedule s) nonce priv))) as F.
  { rewrite E, fs_set_other; [apply fs_set_same|]. intros C. apply snoc_inj in C. exact (id_not_pub n (proj2 C)). }
  unfold exist_pub_key, exist_priv_key, there, load_priv_key_prompt. rewrite Ep, Ev. cbn [rbind].
  rewrite !resolve_name by apply (names_plain n I). rewrite F, A.
  split; [rewrite E, fs_set_same; reflexivity|]. split; [reflexivity|]. split; [exact Lp|exact Lv].
Qed.
Print Assumptions C114_roundtrip.

(** When it succeeds: nothing is in the way and the passphrase has 16, 24 or 32 bytes. *)
Theorem C114_succeeds_partial : forall f cls id pub priv secret nonce,
  known_class cls -> plain_name id -> (forall p, f p = None) -> aes_key secret ->
  exists f', save_key_pair_prompt f cls id pub priv secret nonce = (f', Ok tt).
Proof.
  intros f cls id pub priv s nonce K P F A.
  assert (prompt_accepts s = true) as B.
  { unfold prompt_accepts, zlen. unfold aes_key in A. cbn in A. apply Z.leb_le. lia. }
  unfold save_key_pair_prompt. rewrite B. apply C66_save_succeeds; assumption.
Qed.
Print Assumptions C114_succeeds_partial.
Example C114_applies :
  let (f, o) := save_key_pair_prompt no_files 1 (str "4a7f") 1234567 7654321 (str "0123456789abcdef") demo_nonce in
  o = Ok tt /\ exist_pub_key f 1 (str "4a7f") = Ok true /\ exist_priv_key f 1 (str "4a7f") = Ok true /\
  exist_priv_key f 2 (str "4a7f") = Ok false /\ load_priv_key_prompt f 1 (str "4a7f") (str "0123456789abcdef") = Ok 7654321%Z /\
  exist_pub_key f 6 (str "4a7f") = Panic.
Proof. vm_compute. repeat (split; [reflexivity|]). reflexivity. Qed.

(** The prompt stands before saving, loading and generating alike: passphrases of fewer than 8 bytes end the call without touching a file, all others are
    used. *)
Theorem C114_prompt_exact : forall f cls id pub priv secret nonce,
  ((List.length secret < 8)%nat ->
     save_key_pair_prompt f cls id pub priv secret nonce = (f, Err) /\ pkeygen f cls pub priv secret nonce = (f, Err) /\
     forall d, load_priv_key_prompt f cls id secret <> Ok d) /\
  ((8 <= List.length secret)%nat ->
     save_key_pair_prompt f cls id pub priv secret nonce = save_key_pair f cls id pub priv secret nonce /\
     pkeygen f cls pub priv secret nonce = save_key_pair f cls (pkeygen_id pub) pub priv (firstn 16 (secret ++ repeat x00 16)) nonce /\
     forall d, load_priv_key_prompt f cls id secret = Ok d <-> load_priv_key f cls id secret = Ok d).
Proof.
  intros f cls id pub priv s nonce. unfold save_key_pair_prompt, pkeygen, load_priv_key_prompt. split; intros L.
  - assert (prompt_accepts s = false) as -> by (unfold prompt_accepts, zlen; apply Z.leb_gt; lia). split; [reflexivity|]. split; [reflexivity|].
    intros d. destruct (priv_key_path cls id) as [p| |]; cbn [rbind]; [destruct (f (resolve p))|..]; discriminate.
  - assert (prompt_accepts s = true) as -> by (unfold prompt_accepts, zlen; apply Z.leb_le; lia). split; [reflexivity|]. split; [reflexivity|].
    intros d. unfold load_priv_key. destruct (priv_key_path cls id) as [p| |]; cbn [rbind]; [|reflexivity..].
    unfold load_key_data, read_file. destruct (f (resolve p)); [reflexivity|]. cbn [rbind]. split; discriminate.
Qed.
Print Assumptions C114_prompt_exact.
Example C114_prompt_applies : (List.length (str "1234567") < 8)%nat /\ (8 <= List.length (str "12345678"))%nat /\
  load_priv_key_prompt (fst (save_key_pair no_files 1 (str "4a7f") 5 6 demo_secret demo_nonce)) 1 (str "4a7f") demo_secret = Ok 6%Z.
Proof. split; [repeat constructor|]. split; [repeat constructor|]. vm_compute. reflexivity. Qed.

(** Every other passphrase, also those of 8 bytes and more, which the prompt accepts, is refused: no pair is saved, on no
    file system, and the key files are what they were. *)
Theorem C114_refused : forall f cls id pub priv secret nonce,
  known_class cls -> plain_name id -> ~ aes_key secret ->
  let (f', o) := save_key_pair_prompt f cls id pub priv secret nonce in
  o <> Ok tt /\
  exist_pub_key f' cls id = exist_pub_key f cls id /\ exist_priv_key f' cls id = exist_priv_key f cls id /\
  load_pub_key f' cls id = load_pub_key f cls id /\
  forall s, load_priv_key f' cls id s = load_priv_key f cls id s.
Proof.
  intros f cls id pub priv s nonce K P A. unfold save_key_pair_prompt. destruct (prompt_accepts s) eqn:B.
  2:{ split; [discriminate|]. split; [reflexivity|]. split; [reflexivity|]. split; reflexivity. }
  destruct (C66_save_exact f cls id pub priv s nonce K P) as (n & D & En & ED & S). cbv zeta in S.
  destruct (save_key_pair f cls id pub priv s nonce) as [f' o]. cbn [fst snd] in S.
  destruct (class_cases cls) as [(_ & n' & En' & I) | (C & _)]; [|tauto]. rewrite En in En'. injection En' as <-.
  destruct (paths_of cls n id En I) as (d & Ed & Ep & Ev & Rp & Rv & Ed').
  assert (resolve d = D) as RD by (rewrite Ed', key_dir_plain by assumption; rewrite ED; reflexivity).
  assert (N : forall x, ~ path_above (D ++ [x]) D).
  { intros x (_ & r & E). apply (f_equal (@List.length bytes)) in E. rewrite !app_length in E. cbn in E. lia. }
  assert (Q : o <> Ok tt /\ forall x, f' (D ++ [x]) = f (D ++ [x])).
  { destruct S as [(_ & -> & ->)|[(_ & _ & -> & ->)|(f1 & M & S)]]; [split; [discriminate|reflexivity]|split; [discriminate|reflexivity]|].
    destruct S as [(_ & -> & ->)|[(X & _)|[(X & _)|(X & _)]]]; try tauto. split; [discriminate|]. intros x.
    destruct M as [(_ & ->)|(_ & _ & _ & M)]; [reflexivity|]. apply M, N. }
  destruct Q as (Q1 & Q2). split; [exact Q1|].
  unfold exist_pub_key, exist_priv_key, there, load_pub_key, load_priv_key, load_key_data, read_file. rewrite Ep, Ev. cbn [rbind].
  rewrite Rp, Rv, RD, !Q2. split; [reflexivity|]. split; [reflexivity|]. split; [reflexivity|]. intros s'. reflexivity.
Qed.
Print Assumptions C114_refused.
(** In particular on an empty file system, with a passphrase of ten characters typed correctly. *)
Theorem C114_refuted : exists secret,
  prompt_accepts secret = true /\ ~ aes_key secret /\
  forall cls id pub priv nonce, known_class cls -> plain_name id ->
    let (f, o) := save_key_pair_prompt no_files cls id pub priv secret nonce in
    o <> Ok tt /\ exist_priv_key f cls id = Ok false /\ load_priv_key_prompt f cls id secret = Err.
Proof.
  exists (str "correct ho"). assert (A : ~ aes_key (str "correct ho")) by (unfold aes_key; vm_compute; intros [H | [H | [H | H]]]; lia).
  split; [reflexivity|]. split; [exact A|].
  intros cls id pub priv nonce K P. pose proof (C114_refused no_files cls id pub priv _ nonce K P A) as R.
  destruct (save_key_pair_prompt no_files cls id pub priv (str "correct ho") nonce) as [f o].
  destruct R as (R1 & _ & R2 & _). split; [exact R1|].
  destruct (class_cases cls) as [(_ & n & En & I) | (C & _)]; [|tauto].
  destruct (paths_of cls n id En I) as (d & Ed & Ep & Ev & Rp & Rv & Ed').
  unfold exist_priv_key, there in *. rewrite Ev in *. cbn [rbind] in *. split; [rewrite R2; reflexivity|].
  unfold load_priv_key_prompt. rewrite Ev. cbn [rbind]. unfold no_files in R2 at 1. cbv beta in R2.
  destruct (f (resolve (d ++ str "/" ++ n ++ str "_id"))); [discriminate R2|reflexivity].
Qed.
Print Assumptions C114_refuted.

(** Whether there is a file says nothing of its contents: a key file of no bytes counts as a key. *)
Theorem C114_exists_exact : forall f cls id, known_class cls -> plain_name id -> exists n, class_name cls = Ok n /\
  (exist_pub_key f cls id = Ok true <-> f [str "etc"; str "poodle"; n; id; n ++ str "_id.pub"] <> None) /\
  (exist_priv_key f cls id = Ok true <-> f [str "etc"; str "poodle"; n; id; n ++ str "_id"] <> None).
Proof.
  intros f cls id K P. destruct (class_cases cls) as [(_ & n & En & I) | (C & _)]; [|tauto]. exists n. split; [exact En|].
  destruct (paths_of cls n id En I) as (d & Ed & Ep & Ev & Rp & Rv & Ed').
  assert (resolve d = [str "etc"; str "poodle"; n; id]) as RD by (rewrite Ed', key_dir_plain by assumption; reflexivity).
  unfold exist_pub_key, exist_priv_key, there. rewrite Ep, Ev. cbn [rbind]. rewrite Rp, Rv, RD. cbn [app].
  assert (G : forall o : option entry, @Ok bool (match o with Some _ => true | None => false end) = Ok true <-> o <> None).
  { intros [e|]; split; intros H; try discriminate; try reflexivity. congruence. }
  split; apply G.
Qed.
Print Assumptions C114_exists_exact.
