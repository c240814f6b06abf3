(** * C119: SumSHA256, SumSHA256d and SumMD5. *)
From Coq Require Import String.
From Coq Require Import List NArith ZArith Bool Lia Sorted Znumtheory.
From Coq Require Import Strings.Byte.
From Verif Require Import Base BaseProofs EndianModel EndianProofs DigestModel DigestSpec DigestProofs KeyStoreModel.
Import ListNotations.
Local Open Scope N_scope.
Local Open Scope list_scope.

(** ** The constants of SHA-256 are the roots of primes *)
Definition primes64 : list Z :=
  [ 2; 3; 5; 7; 11; 13; 17; 19; 23; 29; 31; 37; 41; 43; 47; 53; 59; 61; 67; 71; 73; 79; 83; 89; 97; 101; 103; 107; 109; 113; 127; 131; 137; 139;
    149; 151; 157; 163; 167; 173; 179; 181; 191; 193; 197; 199; 211; 223; 227; 229; 233; 239; 241; 251; 257; 263; 269; 271; 277; 281; 283; 293;
    307; 311 ]%Z.
Definition no_divisor (q : Z) : bool := forallb (fun d => negb (Z.eqb (q mod Z.of_nat d) 0)) (seq 2 (Z.to_nat q - 2)).
Lemma prime_exact q : prime q <-> ((1 < q)%Z /\ no_divisor q = true).
Proof.
  unfold no_divisor. rewrite forallb_forall. split.
  - intros P. split; [apply P|]. intros d D. apply in_seq in D. destruct (Z.eqb_spec (q mod Z.of_nat d) 0) as [E|E]; [|reflexivity]. exfalso.
    apply Z.mod_divide in E; [|lia]. destruct (prime_divisors _ P _ E) as [C|[C|[C|C]]]; lia.
  - intros (Q & H). apply prime_alt. split; [assumption|]. intros n N D. specialize (H (Z.to_nat n)). rewrite in_seq in H.
    specialize (H ltac:(lia)). rewrite Z2Nat.id in H by lia. apply Z.mod_divide in D; [|lia]. rewrite D in H. discriminate.
Qed.
Lemma primes_below : forallb (fun q => Bool.eqb (Nat.ltb 1 q && no_divisor (Z.of_nat q)) (existsb (Z.eqb (Z.of_nat q)) primes64)) (seq 0 312) = true.
Proof. vm_compute. reflexivity. Qed.
Lemma sorted_ok (l : list Z) : forall x, fst (fold_left (fun a y => (fst a && Z.ltb (snd a) y, y)) l (true, x)) = true -> Forall (Z.lt x) l /\ StronglySorted Z.lt l.
Proof.
  induction l as [|y l IH]; intros x H; [split; constructor|]. cbn [fold_left fst snd andb] in H. destruct (Z.ltb_spec x y) as [L|L].
  - destruct (IH y H) as (F & S). split; [constructor; [assumption|eapply Forall_impl; [|exact F]; cbv beta; lia]|now constructor].
  - exfalso. assert (forall m z, fst (fold_left (fun a y => (fst a && Z.ltb (snd a) y, y)) m (false, z)) = false) as K by (induction m; intros; [reflexivity|apply IHm]).
    rewrite K in H. discriminate.
Qed.
Lemma primes64_first : first_primes 64 primes64.
Proof.
  split; [reflexivity|]. split; [apply (sorted_ok _ 0%Z); vm_compute; reflexivity|].
  intros q Q. change (last primes64 0%Z) with 311%Z in Q. rewrite prime_exact.
  assert (In q primes64 -> (1 < q)%Z) as G.
  { intros I. assert (Forall (fun x => (1 < x)%Z) primes64) as F by (unfold primes64; repeat (constructor; [lia|]); constructor).
    rewrite Forall_forall in F. now apply F. }
  destruct (Z.lt_ge_cases q 0) as [N|N]; [split; [lia|intros I; specialize (G I); lia]|].
  pose proof (proj1 (forallb_forall _ _) primes_below (Z.to_nat q)) as B. cbv beta in B. rewrite in_seq in B. specialize (B ltac:(lia)).
  apply eqb_prop in B. rewrite Z2Nat.id in B by lia. split.
  - intros (Q1 & Q2). destruct (Nat.ltb_spec 1 (Z.to_nat q)); [|lia]. rewrite Q2 in B. symmetry in B. apply existsb_exists in B.
    destruct B as (x & I & E). apply Z.eqb_eq in E. now subst.
  - intros I. assert (existsb (Z.eqb q) primes64 = true) as X by (apply existsb_exists; exists q; split; [assumption|apply Z.eqb_refl]).
    rewrite X in B. apply andb_prop in B. split; [now apply G|apply B].
Qed.
Definition root_floor (e : N) (p : Z) : N -> bool := fun r => (r ^ e <=? Z.to_N p * 2 ^ (32 * e)) && (Z.to_N p * 2 ^ (32 * e) <? (r + 1) ^ e).
(** The integer part of the root is at most 17. *)
Definition check_root (e : N) (p : Z) (k : N) : bool := (k <? 2 ^ 32) && existsb (fun i => root_floor e p (N.of_nat i * 2 ^ 32 + k)) (seq 0 18).
Lemma check_root_ok e p k : check_root e p k = true -> is_root_fraction e p k.
Proof.
  unfold check_root, root_floor. intros H. apply andb_prop in H. destruct H as (W & H). apply existsb_exists in H. destruct H as (i & _ & H).
  apply andb_prop in H. split; [now apply N.ltb_lt|]. exists (N.of_nat i). split; [now apply N.leb_le|now apply N.ltb_lt].
Qed.
Lemma check_roots_ok e : forall ps ks, forallb (fun x => check_root e (fst x) (snd x)) (combine ps ks) = true -> length ps = length ks ->
  Forall2 (is_root_fraction e) ps ks.
Proof.
  induction ps as [|p ps IH]; intros [|k ks] H L; try discriminate L; constructor.
  - apply check_root_ok. cbn [combine forallb] in H. apply andb_prop in H. apply H.
  - apply IH; [|now injection L]. cbn [combine forallb] in H. apply andb_prop in H. apply H.
Qed.
Theorem C119_constants : is_sha_constants sha_iv sha_k.
Proof.
  exists primes64. split; [apply primes64_first|].
  split; apply check_roots_ok; [vm_compute; reflexivity|reflexivity|vm_compute; reflexivity|reflexivity].
Qed.
Print Assumptions C119_constants.
Example C119_constants_applies : is_root_fraction 2 2 0x6a09e667 /\ is_root_fraction 3 311 0xc67178f2.
Proof. split; apply check_root_ok; vm_compute; reflexivity. Qed.

(** ** The sums are those of the standards *)
Lemma Ok_same {A} (x y : A) : Ok x = Ok y -> x = y.
Proof. congruence. Qed.
Lemma sha_iv_good : good_state 8 sha_iv.
Proof. split; [reflexivity|]. repeat (constructor; [reflexivity|]). constructor. Qed.
Lemma md5_iv_good : good_state 4 md5_iv.
Proof. split; [reflexivity|]. repeat (constructor; [reflexivity|]). constructor. Qed.
Lemma flat_length (put : N -> bytes) l : (forall x, length (put x) = 4%nat) -> length (flat_map put l) = (4 * length l)%nat.
Proof. intros P. induction l as [|x l IH]; [reflexivity|]. cbn [flat_map length]. rewrite app_length, P, IH. lia. Qed.
Lemma flat_inj (put : N -> bytes) : (forall x, length (put x) = 4%nat) -> (forall x y, is_word x -> is_word y -> put x = put y -> x = y) ->
  forall l l', Forall is_word l -> Forall is_word l' -> length l = length l' -> flat_map put l = flat_map put l' -> l = l'.
Proof.
  intros P I. induction l as [|x l IH]; intros [|y l'] F F' L E; try discriminate L; [reflexivity|]. inv F. inv F'. cbn [flat_map] in E.
  f_equal.
  - apply (f_equal (firstn 4)) in E. rewrite !firstn_app_exact in E by now rewrite P. now apply I.
  - apply (f_equal (skipn 4)) in E. rewrite !skipn_app_exact in E by now rewrite P. apply IH; try assumption. now injection L.
Qed.
Lemma sha_sum m : exists h, sum_sha256 m = Ok (flat_map (be_put 4) h) /\ steps sha_block (good_state 8) sha_iv (m ++ padding (be_put 8) m) h /\
  good_state 8 h /\ Nat.modulo (length (m ++ padding (be_put 8) m)) 64 = O.
Proof.
  destruct (sum_steps sha_block (is_sha_step sha_k) (good_state 8) (be_put 8) sha_iv m sha_block_ok (be_put_length 8) sha_iv_good) as (h & E & S & G & L).
  exists h. unfold sum_sha256. rewrite E. auto.
Qed.
Lemma md5_sum m : exists h, sum_md5 m = Ok (flat_map (le_put 4) h) /\ steps md5_block (good_state 4) md5_iv (m ++ padding (le_put 8) m) h /\
  good_state 4 h /\ Nat.modulo (length (m ++ padding (le_put 8) m)) 64 = O.
Proof.
  destruct (sum_steps md5_block (is_md5_step md5_t) (good_state 4) (le_put 8) md5_iv m md5_block_ok (le_put_length 8) md5_iv_good) as (h & E & S & G & L).
  exists h. unfold sum_md5. rewrite E. auto.
Qed.
(** Whatever the data, there is a sum, of 32 and 16 bytes. *)
Theorem C119_lengths : forall m, (exists d, sum_sha256 m = Ok d /\ length d = 32%nat) /\ (exists d, sum_sha256d m = Ok d /\ length d = 32%nat) /\
  (exists d, sum_md5 m = Ok d /\ length d = 16%nat).
Proof.
  assert (forall m, exists d, sum_sha256 m = Ok d /\ length d = 32%nat) as S.
  { intros m. destruct (sha_sum m) as (h & E & _ & (L & _) & _). eexists. split; [exact E|]. rewrite flat_length, L by apply be_put_length. reflexivity. }
  intros m. split; [apply S|]. split.
  - unfold sum_sha256d. destruct (S m) as (d & -> & _). cbn [rbind]. apply S.
  - destruct (md5_sum m) as (h & E & _ & (L & _) & _). eexists. split; [exact E|]. rewrite flat_length, L by apply le_put_length. reflexivity.
Qed.
Print Assumptions C119_lengths.
Example C119_lengths_applies : exists d, sum_sha256d (repeat x61 200) = Ok d /\ length d = 32%nat.
Proof. exact (proj1 (proj2 (C119_lengths (repeat x61 200)))). Qed.
Theorem C119_sha256 : forall m d, 8 * N.of_nat (length m) < 2 ^ 64 -> (sum_sha256 m = Ok d <-> is_sha256 m d).
Proof.
  intros m d L. destruct (sha_sum m) as (h & E & S & G & M).
  assert (is_sha256 m (flat_map (be_put 4) h)) as I.
  { exists sha_iv, sha_k, (m ++ padding (be_put 8) m), h. split; [apply C119_constants|]. split; [|split].
    - apply padding_ok; [apply big_endian_put|assumption|assumption].
    - eapply steps_chain; [exact sha_block_ok|exact S].
    - apply flat_map_ext. intros x. symmetry. apply big_endian_put. }
  rewrite E. split.
  { intros K. apply Ok_same in K. rewrite <- K. exact I. }
  intros D. f_equal. eapply sha256_unique; eassumption.
Qed.
Print Assumptions C119_sha256.
Theorem C119_md5 : forall m d, 8 * N.of_nat (length m) < 2 ^ 64 -> (sum_md5 m = Ok d <-> is_md5 md5_t m d).
Proof.
  intros m d L. destruct (md5_sum m) as (h & E & S & G & M).
  assert (is_md5 md5_t m (flat_map (le_put 4) h)) as I.
  { exists (m ++ padding (le_put 8) m), h. split; [|split].
    - apply padding_ok; [apply little_endian_put|assumption|assumption].
    - eapply steps_chain; [exact md5_block_ok|exact S].
    - apply flat_map_ext. intros x. symmetry. apply little_endian_put. }
  rewrite E. split.
  { intros K. apply Ok_same in K. rewrite <- K. exact I. }
  intros D. f_equal. eapply md5_unique; eassumption.
Qed.
Print Assumptions C119_md5.
(** SumSHA256d is the sum of the sum. *)
Theorem C119_double : forall m d, 8 * N.of_nat (length m) < 2 ^ 64 -> (sum_sha256d m = Ok d <-> exists s, is_sha256 m s /\ is_sha256 s d).
Proof.
  intros m d L. unfold sum_sha256d. destruct (C119_lengths m) as ((s & E & Ls) & _). rewrite E. cbn [rbind].
  assert (8 * N.of_nat (length s) < 2 ^ 64) as L' by (rewrite Ls; reflexivity).
  rewrite (C119_sha256 s d L'). apply (C119_sha256 m s L) in E. split; [eauto|]. intros (s' & E' & D). now rewrite (sha256_unique _ _ _ E E').
Qed.
Print Assumptions C119_double.
(** The examples of FIPS 180-4 and RFC 1321, and the sums of no bytes. *)
Theorem C119_vectors :
  rmap be_get (sum_sha256 (str "abc")) = Ok 0xba7816bf8f01cfea414140de5dae2223b00361a396177a9cb410ff61f20015ad /\
  rmap be_get (sum_sha256 (str "abcdbcdecdefdefgefghfghighijhijkijkljklmklmnlmnomnopnopq")) = Ok 0x248d6a61d20638b8e5c026930c3e6039a33ce45964ff2167f6ecedd419db06c1 /\
  rmap be_get (sum_sha256 []) = Ok 0xe3b0c44298fc1c149afbf4c8996fb92427ae41e4649b934ca495991b7852b855 /\
  rmap be_get (sum_sha256d (str "hello")) = Ok 0x9595c9df90075148eb06860365df33584b75bff782a510c6cd4883a419833d50 /\
  rmap be_get (sum_md5 []) = Ok 0xd41d8cd98f00b204e9800998ecf8427e /\
  rmap be_get (sum_md5 (str "message digest")) = Ok 0xf96b697d7cb7938d525a2f31aaf161d0 /\
  rmap be_get (sum_md5 (str "12345678901234567890123456789012345678901234567890123456789012345678901234567890")) = Ok 0x57edf4a22be3c955ac49da2e2107b67a.
Proof.
  do 6 (split; [vm_compute; reflexivity|]). vm_compute. reflexivity.
Qed.
Print Assumptions C119_vectors.

(** ** Different data, equal sums *)
(** Two data with one SHA-256 sum show two inputs on which one step of SHA-256 collides. *)
Lemma be_word_inj x y : is_word x -> is_word y -> be_put 4 x = be_put 4 y -> x = y.
Proof. intros X Y. now apply (be_put_inj 4). Qed.
Lemma le_word_inj x y : is_word x -> is_word y -> le_put 4 x = le_put 4 y -> x = y.
Proof. intros X Y. now apply (le_put_inj 4). Qed.
Lemma padded_collision (block : list N -> bytes -> list N) (step : list N -> bytes -> list N -> Prop) (good : list N -> Prop) (put_len : N -> bytes) iv m m' h :
  (forall h b, good h -> length b = 64%nat -> step h b (block h b) /\ good (block h b)) -> (forall x, length (put_len x) = 8%nat) ->
  (forall x y, x < 2 ^ 64 -> y < 2 ^ 64 -> put_len x = put_len y -> x = y) ->
  8 * N.of_nat (length m) < 2 ^ 64 -> 8 * N.of_nat (length m') < 2 ^ 64 ->
  steps block good iv (m ++ padding put_len m) h -> steps block good iv (m' ++ padding put_len m') h -> m = m' \/ step_collision step.
Proof.
  intros B P I L L' S S'. destruct (Nat.eq_dec (length m) (length m')) as [E|E].
  - assert (length (padding put_len m) = length (padding put_len m')) as EP by (unfold padding; now rewrite E).
    destruct (same_length block step good B iv _ h S iv _ S') as [C|C]; [rewrite !app_length; lia| |now right].
    left. injection C as C. apply (f_equal (firstn (length m))) in C. now rewrite !firstn_app_exact in C by congruence.
  - right. unfold padding in S, S'. rewrite small_length in S, S' by assumption. rewrite app_assoc in S, S'.
    eapply (other_end block step good B); [exact S|exact S'|apply P|apply P|].
    intros C. apply I in C; [|assumption|assumption]. apply E. lia.
Qed.
Theorem C119_collision : forall m m', 8 * N.of_nat (length m) < 2 ^ 64 -> 8 * N.of_nat (length m') < 2 ^ 64 ->
  sum_sha256 m = sum_sha256 m' -> m = m' \/ step_collision (is_sha_step sha_k).
Proof.
  intros m m' L L' E. destruct (sha_sum m) as (h & E1 & S & (G & F) & _). destruct (sha_sum m') as (h' & E2 & S' & (G' & F') & _).
  rewrite E1, E2 in E. apply Ok_same in E. apply flat_inj in E; try assumption; [|apply be_put_length|apply be_word_inj|congruence]. subst h'.
  eapply (padded_collision sha_block); [exact sha_block_ok|apply be_put_length| |assumption|assumption|exact S|exact S'].
  intros x y X Y. now apply (be_put_inj 8).
Qed.
Print Assumptions C119_collision.
Theorem C119_double_collision : forall m m', 8 * N.of_nat (length m) < 2 ^ 64 -> 8 * N.of_nat (length m') < 2 ^ 64 ->
  sum_sha256d m = sum_sha256d m' -> m = m' \/ step_collision (is_sha_step sha_k).
Proof.
  intros m m' L L' E. unfold sum_sha256d in E. destruct (C119_lengths m) as ((s & E1 & Ls) & _). destruct (C119_lengths m') as ((s' & E2 & Ls') & _).
  rewrite E1, E2 in E. cbn [rbind] in E. apply C119_collision in E; [|rewrite Ls; reflexivity|rewrite Ls'; reflexivity].
  destruct E as [<-|C]; [|now right]. apply C119_collision; try assumption. congruence.
Qed.
Print Assumptions C119_double_collision.
Example C119_collision_applies : sum_sha256 (str "abc") <> sum_sha256 (str "abd") /\ 8 * N.of_nat (length (str "abc")) < 2 ^ 64.
Proof. split; [vm_compute; discriminate|reflexivity]. Qed.
(** SumMD5 does give different data equal sums: the data of Wang and Yu, followed by whatever bytes. *)
Definition wang_a : bytes := be_put 128 0xd131dd02c5e6eec4693d9a0698aff95c2fcab58712467eab4004583eb8fb7f8955ad340609f4b30283e488832571415a085125e8f7cdc99fd91dbdf280373c5bd8823e3156348f5bae6dacd436c919c6dd53e2b487da03fd02396306d248cda0e99f33420f577ee8ce54b67080a80d1ec69821bcb6a8839396f9652b6ff72a70.
Definition wang_b : bytes := be_put 128 0xd131dd02c5e6eec4693d9a0698aff95c2fcab50712467eab4004583eb8fb7f8955ad340609f4b30283e4888325f1415a085125e8f7cdc99fd91dbd7280373c5bd8823e3156348f5bae6dacd436c919c6dd53e23487da03fd02396306d248cda0e99f33420f577ee8ce54b67080280d1ec69821bcb6a8839396f965ab6ff72a70.
Theorem C119_md5_collision : wang_a <> wang_b /\ forall s, sum_md5 (wang_a ++ s) = sum_md5 (wang_b ++ s).
Proof.
  split; [vm_compute; discriminate|]. intros s.
  destruct (md5_sum (wang_a ++ s)) as (h & E & S & _). destruct (md5_sum (wang_b ++ s)) as (h' & E' & S' & _). rewrite E, E'.
  enough (h = h') as -> by reflexivity.
  assert (padding (le_put 8) (wang_a ++ s) = padding (le_put 8) (wang_b ++ s)) as P by (unfold padding; now rewrite !app_length).
  rewrite <- P in S'. rewrite <- app_assoc in S, S'. set (r := s ++ _) in *. clearbody r.
  apply (steps_chain md5_block (is_md5_step md5_t) (good_state 4) md5_block_ok) in S, S'.
  assert (forall w t o, length w = 128%nat -> chain (is_md5_step md5_t) md5_iv (w ++ t) o -> chain (is_md5_step md5_t) (absorb md5_block 2 md5_iv w) t o) as K.
  { clear. intros w t o Lw C. apply (chain_drop (is_md5_step md5_t)) with (k := 2%nat) (w := w) (h := md5_iv); try assumption.
    - now intros ? ? ? (L & _).
    - intros. eapply md5_step_unique; eassumption.
    - apply (steps_chain md5_block (is_md5_step md5_t) (good_state 4) md5_block_ok).
      apply (absorb_steps md5_block (is_md5_step md5_t) (good_state 4) md5_block_ok 2); [apply md5_iv_good|assumption|lia]. }
  apply K in S; [|reflexivity]. apply K in S'; [|reflexivity].
  assert (absorb md5_block 2 md5_iv wang_a = absorb md5_block 2 md5_iv wang_b) as A by (vm_compute; reflexivity). rewrite <- A in S'.
  eapply (chain_unique (is_md5_step md5_t)); [now intros ? ? ? (L & _)| |exact S|exact S']. intros. eapply md5_step_unique; eassumption.
Qed.
Print Assumptions C119_md5_collision.
Example C119_md5_collision_applies : rmap be_get (sum_md5 wang_a) = Ok 0x79054025255fb1a26e4bc422aef54eb4.
Proof. vm_compute. reflexivity. Qed.
