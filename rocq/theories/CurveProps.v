(** * Signatures: C116 and C117. *)
From Coq Require Import Strings.String List ZArith Znumtheory Lia Bool.
From Verif Require Import Base BaseProofs EndianModel EndianProofs NumberTheory KeyStoreModel KeyStoreSpec KeyStoreProofs KeyStoreProps EcdsaModel EcdsaProps.
From Verif Require Import CurveModel CurveProofs CurveOrder.
Import ListNotations.
Local Open Scope Z_scope.
Local Notation length := List.length.

(** ** The group *)
(** The points of P-256: the point at infinity and the pairs on the curve. *)
Definition point256 (P : point) : Prop := match P with None => True | Some (x, y) => on_curve x y end.
Definition minus256 (P : point) : point := match P with None => None | Some (x, y) => Some (x, if y =? 0 then 0 else p256 - y) end.
Lemma point_ok P : point256 P <-> ok256 P.
Proof.
  destruct P as [[x y]|]; [|reflexivity]. unfold point256, on_curve, ok, curve. split; intros (X & Y & C); (split; [exact X|split; [exact Y|]]).
  - apply (cg_iff p256 p256_prime). replace (y * y) with (y ^ 2) by ring. rewrite C. unfold curve_poly. f_equal. ring.
  - apply (cg_iff p256 p256_prime) in C. replace (y ^ 2) with (y * y) by ring. rewrite C. unfold curve_poly. f_equal. ring.
Qed.
Lemma minus_neg P : point256 P -> minus256 P = neg p256 P.
Proof.
  destruct P as [[x y]|]; [|reflexivity]. intros (_ & Y & _). cbn [minus256 neg]. do 2 f_equal. destruct (Z.eqb_spec y 0) as [->|N]; [reflexivity|].
  apply (Z.mod_unique_pos _ _ (-1)); lia.
Qed.
Definition sum_ok := add_ok p256 (-3) b256 p256_prime p256_gt.
Definition sum_assoc := add_assoc p256 (-3) b256 p256_prime p256_gt smooth.
Definition sum_comm := add_comm p256 (-3) b256 p256_prime p256_gt.
Definition times_ok := mul_ok p256 (-3) b256 p256_prime p256_gt.
Definition times_add := mul_add p256 (-3) b256 p256_prime p256_gt smooth.
Definition times_mul := mul_mul p256 (-3) b256 p256_prime p256_gt smooth.
Definition times_order := mul_order p256 (-3) b256 p256_prime p256_gt smooth.
Definition times_neg := mul_neg p256 (-3) b256 p256_prime p256_gt.

(** The points form a commutative group, and the sum is found with a line: the two points and the mirrored sum are on it. *)
Theorem C116_group :
  (forall P Q, point256 P -> point256 Q -> point256 (add256 P Q) /\ add256 P Q = add256 Q P) /\
  (forall P Q R, point256 P -> point256 Q -> point256 R -> add256 (add256 P Q) R = add256 P (add256 Q R)) /\
  (forall P, add256 P None = P /\ add256 None P = P) /\
  (forall P, point256 P -> point256 (minus256 P) /\ add256 P (minus256 P) = None) /\
  (forall x1 y1 x2 y2 x3 y3, on_curve x1 y1 -> on_curve x2 y2 -> add256 (Some (x1, y1)) (Some (x2, y2)) = Some (x3, y3) ->
     exists l m, y1 mod p256 = (l * x1 + m) mod p256 /\ y2 mod p256 = (l * x2 + m) mod p256 /\ (- y3) mod p256 = (l * x3 + m) mod p256).
Proof.
  split; [|split; [|split; [|split]]].
  - intros P Q HP HQ. apply point_ok in HP, HQ. split; [apply point_ok; now apply sum_ok|now apply sum_comm].
  - intros P Q R HP HQ HR. apply point_ok in HP, HQ, HR. now apply sum_assoc.
  - intros [[x y]|]; split; reflexivity.
  - intros P HP. rewrite minus_neg by exact HP. apply point_ok in HP. split.
    + apply point_ok. now apply (neg_ok p256 (-3) b256 p256_prime p256_gt).
    + apply (add_neg p256 (-3) b256 p256_prime p256_gt P HP).
  - intros x1 y1 x2 y2 x3 y3 O1 O2 E. apply (point_ok (Some (x1, y1))) in O1. apply (point_ok (Some (x2, y2))) in O2.
    destruct (opposite_dec p256 x1 y1 x2 y2) as [D|D].
    { unfold add256 in E. rewrite (add_opposite p256 (-3) b256 p256_gt) in E by assumption. discriminate. }
    destruct (add_chord p256 (-3) b256 p256_prime p256_gt x1 y1 x2 y2 O1 O2 D) as (l & (S1 & _) & E').
    unfold add256 in E. rewrite E' in E. unfold third in E. injection E as Ex Ey. exists l, (y1 - l * x1). split; [|split].
    + f_equal. ring.
    + apply (cg_iff p256 p256_prime). apply (of_ring p256 ((-1) * (l * (x2 - x1) - (y2 - y1)))); [now apply dm|ring].
    + apply (cg_iff p256 p256_prime). rewrite Ex in Ey. rewrite <- Ey.
      apply (of_ring p256 ((-1) * ((l * (x1 - x3) - y1) mod p256 - (l * (x1 - x3) - y1)))); [apply dm; apply (cg_mod p256 p256_prime)|ring].
Qed.
Print Assumptions C116_group.
Lemma base_point : point256 base256.
Proof. apply point_ok. exact base_ok. Qed.
(** The base point and its inverse are two points of the curve. *)
Example C116_group_applies : point256 base256 /\ point256 (minus256 base256) /\ minus256 base256 <> base256 /\ add256 base256 (minus256 base256) = None.
Proof.
  split; [exact base_point|]. destruct C116_group as (_ & _ & _ & H & _). destruct (H _ base_point) as [H1 H2].
  split; [exact H1|]. split; [vm_compute; discriminate|exact H2].
Qed.

(** ** The base point has the order N *)
Lemma n256_gt : 2 < n256. Proof. reflexivity. Qed.
Lemma n256_pos : 0 < n256. Proof. reflexivity. Qed.
Lemma n256_ne : n256 <> 0. Proof. discriminate. Qed.
Lemma mod_n x : 0 <= x mod n256 < n256. Proof. apply Z.mod_pos_bound. exact n256_pos. Qed.
Opaque n256.
Lemma times_mod k : 0 <= k -> mul256 (k mod n256) base256 = mul256 k base256.
Proof. intros K. unfold mul256. pose proof base_order as B. unfold mul256 in B. exact (times_order n256 base256 k n256_pos K base_ok B). Qed.
Lemma times_zero k : 0 <= k -> mul256 k base256 = None -> k mod n256 = 0.
Proof.
  intros K M. destruct (Z.eq_dec (k mod n256) 0) as [E|E]; [exact E|]. exfalso.
  assert (~ (n256 | k)) as N by (intros C; apply E; apply Z.mod_divide in C; [exact C|exact n256_ne]).
  pose proof (inv_ok n256 n256_prime n256_gt k N) as I. set (i := inv_mod k n256) in *.
  assert (mul256 ((i mod n256) * k) base256 = None) as M1.
  { unfold mul256. rewrite times_mul; [|apply mod_n|exact K|exact base_ok]. unfold mul256 in M. rewrite M. apply mul_none. }
  assert (((i mod n256) * k) mod n256 = 1) as M2.
  { rewrite Z.mul_mod_idemp_l by exact n256_ne. apply (cg_iff n256 n256_prime) in I. rewrite Z.mul_comm, I. apply Z.mod_small. pose proof n256_gt. lia. }
  rewrite <- times_mod in M1; [|apply Z.mul_nonneg_nonneg; [apply mod_n|exact K]]. rewrite M2 in M1. discriminate.
Qed.
(** The multiples of the base point repeat with the period N, and not before. *)
Theorem C116_order : prime n256 /\
  forall j k, 0 <= j -> 0 <= k -> (mul256 j base256 = mul256 k base256 <-> j mod n256 = k mod n256).
Proof.
  split; [exact n256_prime|]. intros j k J K. split; intros E.
  - assert (mul256 (j + (n256 - 1) * k) base256 = None) as M.
    { unfold mul256 in *. rewrite times_add; [|exact J|apply Z.mul_nonneg_nonneg; [pose proof n256_gt; lia|exact K]|exact base_ok]. rewrite E.
      rewrite <- times_add; [|exact K|apply Z.mul_nonneg_nonneg; [pose proof n256_gt; lia|exact K]|exact base_ok].
      replace (k + (n256 - 1) * k) with (k * n256) by ring. rewrite times_mul; [|exact K|pose proof n256_pos; lia|exact base_ok].
      pose proof base_order as B. unfold mul256 in B. rewrite B. apply mul_none. }
    apply times_zero in M; [|pose proof (Z.mul_nonneg_nonneg (n256 - 1) k ltac:(pose proof n256_pos; lia) K); lia].
    replace (j + (n256 - 1) * k) with ((j - k) + k * n256) in M by ring. rewrite Z.mod_add in M by exact n256_ne.
    apply (cg_iff n256 n256_prime). apply Z.mod_divide; [exact n256_ne|exact M].
  - rewrite <- (times_mod j), <- (times_mod k), E by assumption. reflexivity.
Qed.
Print Assumptions C116_order.
Example C116_order_applies : mul256 (n256 + 1) base256 = base256 /\ mul256 n256 base256 = None.
Proof. split; [|exact base_order]. change base256 with (mul256 1 base256) at 2. apply C116_order; [pose proof n256_pos; lia|lia|]. rewrite <- (Z.mul_1_l n256) at 1. now rewrite Z.add_comm, Z.mod_add by exact n256_ne. Qed.

(** ** Verifying *)
(** The numbers [s] with which the signature equation [s * k = z + r * d] modulo N holds for a point k G with the X coordinate [r] modulo N. *)
Definition signature (d z r s k : Z) : Prop :=
  (s * k - (z + r * d)) mod n256 = 0 /\ exists x y, mul256 k base256 = Some (x, y) /\ x mod n256 = r.
(** Which signatures are accepted with the public key of [d]. *)
Theorem C116_verify_exact : forall d hash r s, 0 <= d ->
  ecdsa_verify (mul256 d base256) hash r s = true <->
  0 < r < n256 /\ 0 < s < n256 /\ exists k, 0 < k < n256 /\ signature d (hash_to_int hash) r s k.
Proof.
  intros d hash r s D. unfold ecdsa_verify. destruct ((r <=? 0) || (s <=? 0)) eqn:E1; [split; [discriminate|]; intros (R & S' & _); lia|].
  destruct ((n256 <=? r) || (n256 <=? s)) eqn:E2; [split; [discriminate|]; intros (R & S' & _); lia|].
  assert (0 < r < n256) as R by lia. assert (0 < s < n256) as S' by lia. clear E1 E2.
  assert (~ (n256 | s)) as Ns by (intros C; apply Z.divide_pos_le in C; lia).
  pose proof (inv_ok n256 n256_prime n256_gt s Ns) as I. set (w := inv_mod s n256) in *. set (z := hash_to_int hash).
  set (u1 := (z * w) mod n256). set (u2 := (r * w) mod n256).
  assert (0 <= u1) as U1 by apply mod_n. assert (0 <= u2) as U2 by apply mod_n.
  assert (0 <= u1 + u2 * d) as U by (pose proof (Z.mul_nonneg_nonneg u2 d U2 D); lia).
  set (k := (u1 + u2 * d) mod n256). assert (0 <= k < n256) as K by apply mod_n.
  assert (add256 (mul256 u1 base256) (mul256 u2 (mul256 d base256)) = mul256 k base256) as Ea.
  { unfold k. rewrite times_mod by exact U. unfold add256, mul256. rewrite times_add; [|exact U1|now apply Z.mul_nonneg_nonneg|exact base_ok].
    rewrite times_mul; [reflexivity|exact U2|exact D|exact base_ok]. }
  assert (cg n256 (s * k) (z + r * d)) as Ek.
  { unfold k. eapply cg_trans; [apply cg_mul; [apply cg_refl|apply (cg_mod n256 n256_prime)]|]. unfold u1, u2.
    eapply cg_trans; [apply cg_mul; [apply cg_refl|]; apply cg_add; [apply (cg_mod n256 n256_prime)|]; apply cg_mul; [apply (cg_mod n256 n256_prime)|apply cg_refl]|].
    apply (of_ring n256 ((z + r * d) * (s * w - 1))); [now apply dm|ring]. }
  rewrite Ea. split.
  - intros H. split; [exact R|]. split; [exact S'|]. exists k. destruct (mul256 k base256) as [[x y]|] eqn:M; [|discriminate].
    split.
    + split; [|lia]. destruct (Z.eq_dec k 0) as [Z0|Z0]; [rewrite Z0 in M; discriminate|lia].
    + split; [apply Z.mod_divide; [exact n256_ne|exact Ek]|]. exists x, y. split; [exact M|now apply Z.eqb_eq].
  - intros (_ & _ & k' & K' & E' & x & y & M & Ex).
    assert (k = k') as Ekk.
    { apply (cg_eq n256); [lia|lia|]. apply (cancel n256 n256_prime s); [exact Ns|]. apply Z.mod_divide in E'; [|exact n256_ne].
      replace (s * (k - k')) with ((s * k - (z + r * d)) - (s * k' - (z + r * d))) by ring. now apply ds. }
    rewrite Ekk, M. now apply Z.eqb_eq.
Qed.
Print Assumptions C116_verify_exact.

(** ** Signing *)
(** What signing answers: a signature for one of the numbers drawn. *)
Theorem C116_sign : forall ks d hash r s, Forall (fun k => 0 < k < n256) ks -> ecdsa_sign ks d hash = Ok (r, s) ->
  0 < r < n256 /\ 0 < s < n256 /\ exists k, In k ks /\ signature d (hash_to_int hash) r s k.
Proof.
  intros ks d hash r s F. induction F as [|k ks K F IH]; cbn [ecdsa_sign]; [discriminate|]. cbv zeta.
  assert (ecdsa_sign ks d hash = Ok (r, s) -> 0 < r < n256 /\ 0 < s < n256 /\ exists k', In k' (k :: ks) /\ signature d (hash_to_int hash) r s k') as Next.
  { intros H. destruct (IH H) as (R & S' & k' & I & G). split; [exact R|]. split; [exact S'|]. exists k'. split; [now right|exact G]. }
  destruct (mul256 k base256) as [[x y]|] eqn:M; [|exact Next]. destruct (Z.eqb_spec (x mod n256) 0) as [R0|R0]; [exact Next|].
  set (z := hash_to_int hash) in *. destruct (Z.eqb_spec (((d * (x mod n256) + z) * inv_mod k n256) mod n256) 0) as [S0|S0]; [exact Next|].
  intros H. injection H as <- <-. pose proof (mod_n x) as B. pose proof (mod_n ((d * (x mod n256) + z) * inv_mod k n256)) as B2.
  split; [lia|]. split; [lia|]. exists k. split; [now left|]. split; [|exists x, y; split; [exact M|reflexivity]].
  apply Z.mod_divide; [exact n256_ne|]. assert (~ (n256 | k)) as Nk by (intros C; apply Z.divide_pos_le in C; lia).
  pose proof (inv_ok n256 n256_prime n256_gt k Nk) as I. set (i := inv_mod k n256) in *. set (r := x mod n256) in *.
  change (cg n256 (((d * r + z) * i) mod n256 * k) (z + r * d)).
  eapply cg_trans; [apply cg_mul; [apply (cg_mod n256 n256_prime)|apply cg_refl]|]. apply (of_ring n256 ((z + r * d) * (k * i - 1))); [now apply dm|ring].
Qed.
Print Assumptions C116_sign.

(** A signature is accepted with the public key of the pair. *)
Theorem C116_sign_verify : forall ks d hash r s,
  0 <= d -> Forall (fun k => 0 < k < n256) ks -> ecdsa_sign ks d hash = Ok (r, s) -> ecdsa_verify (snd (private_key d)) hash r s = true.
Proof.
  intros ks d hash r s D F H. destruct (C116_sign ks d hash r s F H) as (R & S' & k & I & G). apply C116_verify_exact; [exact D|].
  split; [exact R|]. split; [exact S'|]. exists k. split; [|exact G]. rewrite Forall_forall in F. exact (F k I).
Qed.
Print Assumptions C116_sign_verify.
(** Private key 5, number drawn 1, a hash of 40 bytes. *)
Example C116_sign_verify_applies : let hash := repeat Byte.x61 40 in
  exists s, ecdsa_sign [0; 1] 5 hash = Ok (gx256, s) /\ 0 < s < n256 /\ ecdsa_verify (snd (private_key 5)) hash gx256 s = true.
Proof.
  intros hash. assert (exists s, ecdsa_sign [1] 5 hash = Ok (gx256, s)) as [s E] by (eexists; vm_compute; reflexivity).
  assert (Forall (fun k => 0 < k < n256) [1]) as F by (constructor; [pose proof n256_gt; lia|constructor]).
  exists s. split; [exact E|]. split; [exact (proj1 (proj2 (C116_sign _ _ _ _ _ F E)))|]. exact (C116_sign_verify [1] 5 hash gx256 s ltac:(lia) F E).
Qed.

Lemma public_key d : snd (private_key d) = mul256 d base256. Proof. reflexivity. Qed.
(** With s = 0, or with r = N, nothing is accepted; the signature above is. *)
Example C116_verify_exact_applies :
  ecdsa_verify (mul256 5 base256) [] gx256 0 = false /\ ecdsa_verify (mul256 5 base256) [] n256 1 = false /\
  exists hash s k, signature 5 (hash_to_int hash) gx256 s k /\ ecdsa_verify (mul256 5 base256) hash gx256 s = true.
Proof.
  split; [|split].
  - apply not_true_is_false. intros V. apply C116_verify_exact in V; lia.
  - apply not_true_is_false. intros V. apply C116_verify_exact in V; lia.
  - destruct C116_sign_verify_applies as (s & _ & _ & V). exists (repeat Byte.x61 40), s. rewrite public_key in V.
    pose proof V as W. apply C116_verify_exact in W; [|lia]. destruct W as (_ & _ & k & _ & G). exists k. split; [exact G|exact V].
Qed.

(** ** Keys that were saved and loaded *)
Lemma n256_p256 : n256 < p256 /\ p256 < 2 * n256.
Proof. split; reflexivity. Qed.
Lemma n256_size : n256 < 2 ^ 256. Proof. reflexivity. Qed.
Lemma p256_size : p256 < 2 ^ 256. Proof. reflexivity. Qed.
Lemma minus_times d X Y : 0 <= d <= n256 -> mul256 d base256 = Some (X, Y) -> mul256 (n256 - d) base256 = minus256 (Some (X, Y)).
Proof.
  intros D M. assert (point256 (mul256 d base256)) as O by (apply point_ok; apply times_ok; exact base_ok).
  rewrite <- M, minus_neg by exact O. unfold mul256 in *. apply point_ok in O.
  assert (ok256 (point_mul p256 (-3) (n256 - d) base256)) as O' by (apply times_ok; exact base_ok).
  rewrite <- (add_cancel p256 (-3) b256 p256_prime p256_gt smooth _ _ O O') at 1. rewrite <- times_add by (try exact base_ok; lia).
  replace (d + (n256 - d)) with n256 by ring. pose proof base_order as B. unfold mul256 in B. rewrite B. apply add_0_r.
Qed.
(** A pair that was saved loads the same private key; the public key is the right one exactly if its Y is a square, otherwise it is that of N - d. *)
Theorem C116_loaded_exact : forall f cls id d X Y secret nonce f',
  0 < d < n256 -> mul256 d base256 = Some (X, Y) -> length nonce = 12%nat -> save_key_pair f cls id X d secret nonce = (f', Ok tt) ->
  load_priv_key f' cls id secret = Ok d /\
  exists y, load_pub_point f' cls id = Ok (X, Some y) /\
    ((square Y /\ Some (X, y) = mul256 d base256) \/ (~ square Y /\ Some (X, y) = mul256 (n256 - d) base256)).
Proof.
  intros f cls id d X Y secret nonce f' D M L H.
  assert (point256 (mul256 d base256)) as O by (apply point_ok; apply times_ok; exact base_ok). rewrite M in O. cbn [point256] in O. pose proof O as (BX & BY & _).
  pose proof p256_size as Ps. pose proof n256_size as Ns. pose proof (C66_roundtrip f cls id X d secret nonce f' ltac:(lia) ltac:(lia) L H) as (Lp & Lv).
  split; [exact Lv|]. destruct (C71_exact X Y O) as (y & Ey & Oy & Alt & Sq). exists y. split.
  - unfold load_pub_point. rewrite Lp. unfold rmap, get_public_key. cbn [rbind]. now rewrite Ey.
  - destruct (Z.eq_dec y Y) as [E|E].
    + left. split; [now apply Sq|]. now rewrite E, M.
    + right. split; [intros C; apply E; now apply Sq|]. rewrite (minus_times d X Y) by (try exact M; lia). cbn [minus256]. do 2 f_equal.
      destruct Alt as [C|C]; [contradiction|]. destruct (Z.eqb_spec Y 0) as [Y0|Y0]; [|lia]. destruct Oy as (_ & By & _). lia.
Qed.
Print Assumptions C116_loaded_exact.
Lemma base_minus : mul256 (n256 - 1) base256 = Some (gx256, p256 - gy256).
Proof. pose proof n256_gt. rewrite (minus_times 1 gx256 gy256); [reflexivity|lia|reflexivity]. Qed.
Lemma gy_square : square gy256 /\ ~ square (p256 - gy256).
Proof.
  split; [exact (proj2 C71_partial_applies)|]. destruct C71_refuted_applies as (O & E & N). destruct (C71_exact _ _ O) as (y & Ey & _ & _ & Sq). intros C. apply Sq in C. congruence.
Qed.
(** The pairs of the private keys 1 and N - 1. *)
Example C116_loaded_exact_applies :
  0 < 1 < n256 /\ mul256 1 base256 = Some (gx256, gy256) /\ square gy256 /\
  0 < n256 - 1 < n256 /\ mul256 (n256 - 1) base256 = Some (gx256, p256 - gy256) /\ ~ square (p256 - gy256) /\
  exists f f', save_key_pair no_files 1 (str "4a7f"%string) gx256 1 demo_secret demo_nonce = (f, Ok tt) /\
    save_key_pair no_files 1 (str "4a7f"%string) gx256 (n256 - 1) demo_secret demo_nonce = (f', Ok tt).
Proof.
  pose proof n256_gt as G. split; [lia|]. split; [reflexivity|]. split; [exact (proj1 gy_square)|]. split; [lia|]. split; [exact base_minus|]. split; [exact (proj2 gy_square)|].
  destruct C66_applies as (K & P & A & _ & F & _).
  destruct (C66_save_succeeds no_files 1 (str "4a7f"%string) gx256 1 demo_secret demo_nonce K P A F) as [f E].
  destruct (C66_save_succeeds no_files 1 (str "4a7f"%string) gx256 (n256 - 1) demo_secret demo_nonce K P A F) as [f' E']. exists f, f'. split; assumption.
Qed.
(** The part that holds: with a Y that is a square, signatures of the loaded private key are accepted with the loaded public key. *)
Theorem C116_loaded_partial : forall f cls id d X Y secret nonce f' ks hash r s,
  0 < d < n256 -> mul256 d base256 = Some (X, Y) -> length nonce = 12%nat -> save_key_pair f cls id X d secret nonce = (f', Ok tt) -> square Y ->
  Forall (fun k => 0 < k < n256) ks -> ecdsa_sign ks d hash = Ok (r, s) ->
  exists y, load_pub_point f' cls id = Ok (X, Some y) /\ ecdsa_verify (Some (X, y)) hash r s = true.
Proof.
  intros f cls id d X Y secret nonce f' ks hash r s D M L H Q F E. destruct (C116_loaded_exact f cls id d X Y secret nonce f' D M L H) as (_ & y & Ly & [[_ Ey]|[C _]]); [|contradiction].
  exists y. split; [exact Ly|]. rewrite Ey. exact (C116_sign_verify ks d hash r s ltac:(lia) F E).
Qed.
Print Assumptions C116_loaded_partial.
Example C116_loaded_partial_applies :
  square gy256 /\ mul256 1 base256 = Some (gx256, gy256) /\ exists s, ecdsa_sign [1] 1 [] = Ok (gx256, s).
Proof. split; [exact (proj1 gy_square)|]. split; [reflexivity|]. eexists. vm_compute. reflexivity. Qed.

Lemma hash_of z : 0 <= z < n256 -> hash_to_int (be_put 32 (Z.to_N z)) = z.
Proof.
  intros B. pose proof n256_size as Ns. unfold hash_to_int. rewrite firstn_all2 by (rewrite be_put_length; lia). rewrite be_get_put.
  change (256 ^ N.of_nat 32)%N with (2 ^ 256)%N. rewrite N.mod_small; [apply Z2N.id; lia|]. apply N2Z.inj_lt. rewrite Z2N.id by lia. change (Z.of_N (2 ^ 256)) with (2 ^ 256). lia.
Qed.
(** For every other pair, and whatever number is drawn, a hash is signed such that the loaded public key rejects the signature: C116 is false. *)
Theorem C116_loaded_refuted : forall f cls id d X Y secret nonce f' k x y,
  0 < d < n256 -> mul256 d base256 = Some (X, Y) -> length nonce = 12%nat -> save_key_pair f cls id X d secret nonce = (f', Ok tt) -> ~ square Y ->
  0 < k < n256 -> mul256 k base256 = Some (x, y) -> x mod n256 <> 0 ->
  exists hash r s Yl, load_priv_key f' cls id secret = Ok d /\ ecdsa_sign [k] d hash = Ok (r, s) /\
    load_pub_point f' cls id = Ok (X, Some Yl) /\ ecdsa_verify (Some (X, Yl)) hash r s = false.
Proof.
  intros f cls id d X Y secret nonce f' k x y D M L H Q K Mk R0. destruct (C116_loaded_exact f cls id d X Y secret nonce f' D M L H) as (Lv & Yl & Ly & [[C _]|[_ Ey]]); [contradiction|].
  set (r := x mod n256) in *. pose proof (mod_n x) as Br. fold r in Br. set (z := (r * d) mod n256). pose proof (mod_n (r * d)) as Bz. fold z in Bz.
  set (hash := be_put 32 (Z.to_N z)). assert (hash_to_int hash = z) as Eh by now apply hash_of.
  assert (~ (n256 | k)) as Nk by (intros C; apply Z.divide_pos_le in C; lia).
  pose proof (inv_ok n256 n256_prime n256_gt k Nk) as I. set (i := inv_mod k n256) in *. set (s := ((d * r + z) * i) mod n256).
  assert (cg n256 (s * k) (2 * (r * d))) as Es.
  { unfold s. eapply cg_trans; [apply cg_mul; [apply (cg_mod n256 n256_prime)|apply cg_refl]|].
    eapply cg_trans; [apply (cg_mul n256 _ ((d * r + r * d) * i)); [apply cg_mul; [apply cg_add; [apply cg_refl|apply (cg_mod n256 n256_prime)]|apply cg_refl]|apply cg_refl]|].
    apply (of_ring n256 ((2 * (r * d)) * (k * i - 1))); [now apply dm|ring]. }
  assert (s <> 0) as S0.
  { intros C. rewrite C in Es. apply cg_sym in Es. unfold cg in Es. replace (2 * (r * d) - 0 * k) with (2 * (r * d)) in Es by ring.
    destruct (prime_mult n256 n256_prime _ _ Es) as [C2|C2]; [apply Z.divide_pos_le in C2; [pose proof n256_gt; lia|lia]|].
    destruct (prime_mult n256 n256_prime _ _ C2) as [C3|C3]; apply Z.divide_pos_le in C3; lia. }
  exists hash, r, s, Yl. split; [exact Lv|]. split; [|split; [exact Ly|]].
  - cbn [ecdsa_sign]. rewrite Mk. cbv zeta. fold r. rewrite (proj2 (Z.eqb_neq _ _) R0). rewrite Eh. fold i. fold s. now rewrite (proj2 (Z.eqb_neq _ _) S0).
  - rewrite Ey. apply not_true_is_false. intros V. apply C116_verify_exact in V; [|lia]. destruct V as (_ & Bs & k' & K' & E & _). rewrite Eh in E.
    apply Z.mod_divide in E; [|exact n256_ne]. assert (n256 | s * k') as C.
    { replace (s * k') with ((s * k' - (z + r * (n256 - d))) + ((z - r * d) + r * n256)) by ring. apply da; [exact E|]. apply da; [apply (cg_mod n256 n256_prime)|exists r; reflexivity]. }
    destruct (prime_mult n256 n256_prime _ _ C) as [C3|C3]; apply Z.divide_pos_le in C3; lia.
Qed.
Print Assumptions C116_loaded_refuted.
Example C116_loaded_refuted_applies :
  mul256 (n256 - 1) base256 = Some (gx256, p256 - gy256) /\ ~ square (p256 - gy256) /\ mul256 1 base256 = Some (gx256, gy256) /\ gx256 mod n256 <> 0.
Proof. split; [exact base_minus|]. split; [exact (proj2 gy_square)|]. split; [reflexivity|]. vm_compute. discriminate. Qed.

(** ** C117: what else is accepted *)
Lemma same_x x y y' : on_curve x y -> on_curve x y' -> Some (x, y') = Some (x, y) \/ Some (x, y') = minus256 (Some (x, y)).
Proof.
  intros O O'. destruct (C71_exact x y O) as (w & _ & _ & A & _). pose proof O as (_ & B & E). pose proof O' as (_ & B' & E').
  assert (y' mod p256 = y mod p256 \/ y' mod p256 = (- y) mod p256) as C.
  { apply (roots_sign p256 p256_prime). replace (y' * y') with (y' ^ 2) by ring. replace (y * y) with (y ^ 2) by ring. congruence. }
  rewrite (Z.mod_small y'), (Z.mod_small y) in C by assumption. destruct C as [-> | C]; [now left|right]. cbn [minus256]. do 2 f_equal. rewrite C.
  destruct (Z.eqb_spec y 0) as [->|N]; [reflexivity|]. symmetry. apply (Z.mod_unique_pos _ _ (-1)); lia.
Qed.
(** A signature that is accepted for a hash is accepted for another one in three cases only: the numbers of the hashes agree modulo N; the second
    is the one for which the number drawn would be the opposite one; or the second signature is one for another point, whose X differs by N. *)
Theorem C117_exact : forall d hash r s k x y hash', 0 <= d -> 0 < r < n256 -> 0 < s < n256 -> 0 < k < n256 ->
  signature d (hash_to_int hash) r s k -> mul256 k base256 = Some (x, y) ->
  (ecdsa_verify (mul256 d base256) hash' r s = true <->
   (hash_to_int hash' - hash_to_int hash) mod n256 = 0 \/
   (hash_to_int hash' + hash_to_int hash + 2 * (r * d)) mod n256 = 0 \/
   exists k' x' y', 0 < k' < n256 /\ (s * k' - (hash_to_int hash' + r * d)) mod n256 = 0 /\ mul256 k' base256 = Some (x', y') /\ Z.abs (x' - x) = n256).
Proof.
  intros d hash r s k x y hash' D R S' K (E & x0 & y0 & M0 & Er) M. rewrite M in M0. injection M0 as <- <-. rewrite C116_verify_exact by exact D.
  set (z := hash_to_int hash) in *. set (z' := hash_to_int hash'). pose proof n256_ne as Nn. apply Z.mod_divide in E; [|exact Nn].
  assert (point256 (mul256 k base256)) as O by (apply point_ok; apply times_ok; exact base_ok). rewrite M in O. cbn [point256] in O.
  assert (mul256 (n256 - k) base256 = minus256 (Some (x, y))) as Mn by (apply minus_times; [lia|exact M]).
  split.
  - intros (_ & _ & k' & K' & E' & x' & y' & M' & Er'). pose proof E' as E2. apply Z.mod_divide in E'; [|exact Nn].
    assert (point256 (mul256 k' base256)) as O' by (apply point_ok; apply times_ok; exact base_ok). rewrite M' in O'. cbn [point256] in O'.
    destruct (Z.eq_dec x' x) as [->|Dx].
    + destruct (same_x x y y' O O') as [C|C].
      * left. assert (k' mod n256 = k mod n256) as Ek by (apply C116_order; [lia|lia|]; congruence). rewrite !Z.mod_small in Ek by lia. subst k'.
        apply Z.mod_divide; [exact Nn|]. replace (z' - z) with ((s * k - (z + r * d)) - (s * k - (z' + r * d))) by ring. now apply ds.
      * right. left. assert (k' mod n256 = (n256 - k) mod n256) as Ek by (apply C116_order; [lia|lia|]; congruence). rewrite !Z.mod_small in Ek by lia. subst k'.
        apply Z.mod_divide; [exact Nn|].
        replace (z' + z + 2 * (r * d)) with (s * n256 - ((s * k - (z + r * d)) + (s * (n256 - k) - (z' + r * d)))) by ring.
        apply ds; [exists s; reflexivity|now apply da].
    + right. right. exists k', x', y'. split; [exact K'|]. split; [exact E2|]. split; [exact M'|].
      destruct O as (Bx & _). destruct O' as (Bx' & _). destruct n256_p256 as [N1 N2]. pose proof (Z.div_mod x n256 Nn) as D1. pose proof (Z.div_mod x' n256 Nn) as D2.
      rewrite Er in D1. rewrite Er' in D2.
      assert (0 <= x / n256 <= 1) as Q1 by (split; [apply Z.div_pos; lia|]; assert (x / n256 < 2) by (apply Z.div_lt_upper_bound; lia); lia).
      assert (0 <= x' / n256 <= 1) as Q2 by (split; [apply Z.div_pos; lia|]; assert (x' / n256 < 2) by (apply Z.div_lt_upper_bound; lia); lia).
      assert (x / n256 = 0 \/ x / n256 = 1) as [V1|V1] by lia; assert (x' / n256 = 0 \/ x' / n256 = 1) as [V2|V2] by lia; rewrite V1 in D1; rewrite V2 in D2; lia.
  - intros C. split; [exact R|]. split; [exact S'|]. destruct C as [C|[C|C]].
    + apply Z.mod_divide in C; [|exact Nn]. exists k. split; [exact K|]. split; [|exists x, y; split; assumption]. apply Z.mod_divide; [exact Nn|].
      replace (s * k - (z' + r * d)) with ((s * k - (z + r * d)) - (z' - z)) by ring. now apply ds.
    + apply Z.mod_divide in C; [|exact Nn]. exists (n256 - k). split; [lia|]. split; [|eexists x, _; split; [exact Mn|exact Er]]. apply Z.mod_divide; [exact Nn|].
      replace (s * (n256 - k) - (z' + r * d)) with (s * n256 - ((s * k - (z + r * d)) + (z' + z + 2 * (r * d)))) by ring. apply ds; [exists s; reflexivity|now apply da].
    + destruct C as (k' & x' & y' & K' & E' & M' & A). exists k'. split; [exact K'|]. split; [exact E'|]. exists x', y'. split; [exact M'|]. rewrite <- Er.
      assert (x' = x + 1 * n256 \/ x' = x + (-1) * n256) as [-> | ->] by lia; apply Z.mod_add; exact Nn.
Qed.
Print Assumptions C117_exact.
Lemma sign_5 : exists s, ecdsa_sign [1] 5 [Byte.x61] = Ok (gx256, s).
Proof. eexists. vm_compute. reflexivity. Qed.
Lemma one_drawn : Forall (fun k => 0 < k < n256) [1].
Proof. constructor; [pose proof n256_gt; lia|constructor]. Qed.
Example C117_exact_applies : exists s, signature 5 (hash_to_int [Byte.x61]) gx256 s 1 /\ 0 < gx256 < n256 /\ 0 < s < n256.
Proof.
  destruct sign_5 as [s E]. exists s. destruct (C116_sign _ _ _ _ _ one_drawn E) as (R & S' & k & [<-|[]] & G). auto.
Qed.
(** Bytes of a hash after the 32nd and leading zeroes of a shorter one are not signed, and every signature has a twin: C117 is false. *)
Lemma twin d hash r s : 0 <= d -> ecdsa_verify (mul256 d base256) hash r s = true -> ecdsa_verify (mul256 d base256) hash r (n256 - s) = true.
Proof.
  intros D. rewrite !C116_verify_exact by exact D. intros (R & S' & k & K & E & x & y & M & Ex). split; [exact R|]. split; [lia|]. exists (n256 - k). split; [lia|]. split.
  - apply Z.mod_divide in E; [|exact n256_ne]. apply Z.mod_divide; [exact n256_ne|].
    replace ((n256 - s) * (n256 - k) - (hash_to_int hash + r * d)) with ((s * k - (hash_to_int hash + r * d)) + (n256 - s - k) * n256) by ring.
    apply da; [exact E|exists (n256 - s - k); reflexivity].
  - rewrite (minus_times k x y) by (try exact M; lia). eexists x, _. split; [reflexivity|exact Ex].
Qed.
Lemma n256_odd x : n256 <> 2 * x.
Proof.
  intros C. assert (2 | n256) as D by (exists x; lia). apply prime_divisors in D; [|exact n256_prime]. pose proof n256_gt. lia.
Qed.
Theorem C117_refuted : forall ks d hash r s,
  0 <= d -> Forall (fun k => 0 < k < n256) ks -> ecdsa_sign ks d hash = Ok (r, s) ->
  (n256 - s <> s /\ ecdsa_verify (snd (private_key d)) hash r (n256 - s) = true) /\
  (forall more, (32 <= length hash)%nat -> ecdsa_verify (snd (private_key d)) (hash ++ more) r s = true) /\
  ((length hash < 32)%nat -> ecdsa_verify (snd (private_key d)) (Byte.x00 :: hash) r s = true).
Proof.
  intros ks d hash r s D F H. pose proof (C116_sign_verify ks d hash r s D F H) as V. split; [|split].
  - split; [pose proof (n256_odd s); lia|]. now apply twin.
  - intros more L. rewrite <- V. unfold ecdsa_verify, hash_to_int. rewrite firstn_app. replace (32 - length hash)%nat with 0%nat by lia. cbn [firstn]. now rewrite app_nil_r.
  - intros L. rewrite <- V. unfold ecdsa_verify, hash_to_int. rewrite (firstn_all2 hash), firstn_all2 by (cbn [List.length]; lia). reflexivity.
Qed.
Print Assumptions C117_refuted.
Example C117_refuted_applies : exists s, ecdsa_sign [1] 5 [Byte.x61] = Ok (gx256, s) /\ (length [Byte.x61] < 32)%nat.
Proof. destruct sign_5 as [s E]. exists s. split; [exact E|]. repeat constructor. Qed.
(** The part that holds: among hashes of 32 bytes with a number below N, all but the opposite one are rejected, unless r is tiny. *)
Theorem C117_partial : forall ks d hash r s hash',
  0 <= d -> Forall (fun k => 0 < k < n256) ks -> ecdsa_sign ks d hash = Ok (r, s) ->
  length hash = 32%nat -> length hash' = 32%nat -> hash_to_int hash < n256 -> hash_to_int hash' < n256 ->
  p256 - n256 <= r -> (hash_to_int hash' + hash_to_int hash + 2 * (r * d)) mod n256 <> 0 ->
  (ecdsa_verify (snd (private_key d)) hash' r s = true <-> hash' = hash).
Proof.
  intros ks d hash r s hash' D F H L L' B B' Rp Op. split; [|intros ->; now apply (C116_sign_verify ks)].
  destruct (C116_sign ks d hash r s F H) as (R & S' & k & Ik & G). rewrite Forall_forall in F. pose proof (F k Ik) as K. pose proof G as (_ & x & y & M & Ex).
  intros V. apply (C117_exact d hash r s k x y hash' D R S' K G M) in V. destruct V as [V|[V|V]]; [|contradiction|].
  - assert (hash_to_int hash' = hash_to_int hash) as E.
    { apply Z.mod_divide in V; [|exact n256_ne]. apply (cg_eq n256); [|..|exact V]; (split; [unfold hash_to_int; lia|assumption]). }
    unfold hash_to_int in E. apply N2Z.inj in E. rewrite !firstn_all2 in E by lia. rewrite <- (be_put_get hash), <- (be_put_get hash'), L, L', E. reflexivity.
  - exfalso. destruct V as (k' & x' & y' & _ & _ & M' & A).
    assert (point256 (mul256 k base256)) as O by (apply point_ok; apply times_ok; exact base_ok). rewrite M in O. destruct O as (Bx & _).
    assert (point256 (mul256 k' base256)) as O' by (apply point_ok; apply times_ok; exact base_ok). rewrite M' in O'. destruct O' as (Bx' & _).
    assert (r = x) as Er. { destruct (Z_lt_dec x n256) as [Lx|Lx]; [rewrite Z.mod_small in Ex by lia; congruence|]. destruct n256_p256 as [N1 N2].
      assert (x mod n256 = x - n256) as E by (symmetry; apply (Z.mod_unique_pos _ _ 1); lia). lia. }
    lia.
Qed.
Print Assumptions C117_partial.
Example C117_partial_applies : let hash := repeat Byte.x61 32 in let hash' := repeat Byte.x62 32 in exists s,
  ecdsa_sign [1] 5 hash = Ok (gx256, s) /\ hash_to_int hash < n256 /\ hash_to_int hash' < n256 /\ p256 - n256 <= gx256 /\
  (hash_to_int hash' + hash_to_int hash + 2 * (gx256 * 5)) mod n256 <> 0 /\ ecdsa_verify (snd (private_key 5)) hash' gx256 s = false.
Proof.
  intros hash hash'. assert (exists s, ecdsa_sign [1] 5 hash = Ok (gx256, s)) as [s E] by (eexists; vm_compute; reflexivity). exists s.
  assert (hash_to_int hash < n256) as B by (vm_compute; reflexivity). assert (hash_to_int hash' < n256) as B' by (vm_compute; reflexivity).
  assert (p256 - n256 <= gx256) as R by (vm_compute; discriminate).
  assert ((hash_to_int hash' + hash_to_int hash + 2 * (gx256 * 5)) mod n256 <> 0) as Op by (vm_compute; discriminate).
  repeat (split; [assumption|]). apply not_true_is_false. intros V.
  apply (C117_partial [1] 5 hash gx256 s hash' ltac:(lia) one_drawn E eq_refl eq_refl B B' R Op) in V. discriminate V.
Qed.
