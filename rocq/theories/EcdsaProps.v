(** * Public keys: C71 and C75. *)
From Coq Require Import List ZArith Znumtheory Zpow_facts Lia Bool Strings.String.
From Verif Require Import Base BaseProofs NumberTheory EndianModel KeyStoreModel KeyStoreSpec KeyStoreProofs KeyStoreProps EcdsaModel.
Import ListNotations.
Local Open Scope Z_scope.

(** ** The modulus is prime *)
Lemma prime_78283 : prime 78283. Proof. apply (trial_prime (Z.to_nat 1000)); [vm_compute; reflexivity|lia]. Qed.
Lemma prime_704251 : prime 704251. Proof. apply (trial_prime (Z.to_nat 1000)); [vm_compute; reflexivity|lia]. Qed.
Lemma prime_204061199 : prime 204061199. Proof. apply (trial_prime (Z.to_nat 20000)); [vm_compute; reflexivity|lia]. Qed.
Lemma prime_34282281433 : prime 34282281433.
Proof. apply (pock_check_ok _ [(204061199, 2)]); [vm_compute; reflexivity|repeat constructor; simpl; tauto|]. constructor; [exact prime_204061199|constructor]. Qed.
Lemma prime_46076956964474543 : prime 46076956964474543.
Proof.
  apply (pock_check_ok _ [(704251, 2); (78283, 2)]); [vm_compute; reflexivity| |].
  - constructor; [intros [H | H]; [discriminate|contradiction]|constructor; [intros []|constructor]].
  - constructor; [exact prime_704251|]. constructor; [exact prime_78283|constructor].
Qed.
Lemma prime_150 : prime 774023187263532362759620327192479577272145303.
Proof.
  apply (pock_check_ok _ [(46076956964474543, 2); (34282281433, 2)]); [vm_compute; reflexivity| |].
  - constructor; [intros [H | H]; [discriminate|contradiction]|constructor; [intros []|constructor]].
  - constructor; [exact prime_46076956964474543|]. constructor; [exact prime_34282281433|constructor].
Qed.
Lemma prime_160 : prime 835945042244614951780389953367877943453916927241.
Proof.
  apply (pock_check_ok _ [(774023187263532362759620327192479577272145303, 2)]); [vm_compute; reflexivity| |].
  - constructor; [intros []|constructor].
  - constructor; [exact prime_150|constructor].
Qed.
Lemma p256_prime : prime p256.
Proof.
  apply (pock_check_ok _ [(835945042244614951780389953367877943453916927241, 2)]); [vm_compute; reflexivity| |].
  - constructor; [intros []|constructor].
  - constructor; [exact prime_160|constructor].
Qed.

(** ** Vocabulary *)
Definition square (x : Z) : Prop := exists y, (y * y) mod p256 = x mod p256.
Definition curve_poly (x : Z) : Z := x ^ 3 - 3 * x + b256.
(** A point of the curve with reduced coordinates. *)
Definition on_curve (x y : Z) : Prop := 0 <= x < p256 /\ 0 <= y < p256 /\ (y ^ 2) mod p256 = curve_poly x mod p256.

Lemma p256_pos : 0 < p256. Proof. reflexivity. Qed.
Lemma p256_mod4 : p256 mod 4 = 3. Proof. reflexivity. Qed.
Lemma p256_exp : (p256 + 1) / 4 = 2 * ((p256 + 1) / 8) /\ 0 <= (p256 + 1) / 8. Proof. vm_compute. split; [reflexivity|discriminate]. Qed.
Lemma p256_ne : p256 <> 0. Proof. discriminate. Qed.
Opaque p256.
#[local] Hint Resolve p256_pos p256_ne : core.

(** ** C71 *)
(** The square root: nil exactly for non-squares, otherwise a reduced root. *)
Theorem C71_mod_sqrt : forall x,
  (mod_sqrt x p256 = None <-> ~ square x) /\
  (forall z, mod_sqrt x p256 = Some z -> 0 <= z < p256 /\ (z * z) mod p256 = x mod p256 /\ square z).
Proof.
  intros x. destruct p256_exp as (Ee & E0).
  assert (0 <= (p256 + 1) / 4) as E4 by (rewrite Ee; lia).
  set (z := (x ^ ((p256 + 1) / 4)) mod p256).
  assert (mod_sqrt x p256 = if (z * z) mod p256 =? x mod p256 then Some z else None) as ->.
  { unfold mod_sqrt. rewrite Zpow_mod_correct by auto. rewrite <- Zpower_mod by auto. reflexivity. }
  assert ((z * z) mod p256 = (x ^ ((p256 + 1) / 4) * x ^ ((p256 + 1) / 4)) mod p256) as Ez by (unfold z; rewrite <- Z.mul_mod by auto; reflexivity).
  destruct (Z.eqb_spec ((z * z) mod p256) (x mod p256)) as [E|E].
  - split.
    + split; [discriminate|]. intros C. destruct C. exists z. exact E.
    + intros z' H. assert (z' = z) as -> by congruence. split; [apply Z.mod_pos_bound; auto|]. split; [exact E|].
      exists (x ^ ((p256 + 1) / 8)). unfold z. rewrite Z.mod_mod, Ee by auto. rewrite (Z.mul_comm 2), Z.pow_mul_r by lia. f_equal. ring.
  - split; [|intros z' H; discriminate]. split; [|reflexivity]. intros _ (y & Hy). apply E. rewrite Ez.
    exact (root_of_square p256 p256_prime p256_mod4 x y Hy).
Qed.
Print Assumptions C71_mod_sqrt.
Example C71_mod_sqrt_applies : square 4 /\ mod_sqrt 4 p256 <> None.
Proof. assert (square 4) as S by (exists 2; reflexivity). split; [exact S|]. intros N. exact (proj1 (proj1 (C71_mod_sqrt 4)) N S). Qed.

Lemma calculate_y_poly x : calculate_y x = mod_sqrt (curve_poly x mod p256) p256.
Proof. unfold calculate_y, curve_poly. do 2 f_equal. ring. Qed.
(** For every point a root is found; it is the right one exactly if Y is itself a square, otherwise it is the Y of the inverse point. *)
Theorem C71_exact : forall X Y, on_curve X Y ->
  exists y, calculate_y X = Some y /\ on_curve X y /\ (y = Y \/ y + Y = p256) /\ (y = Y <-> square Y).
Proof.
  intros X Y (HX & HY & E). rewrite calculate_y_poly. destruct (C71_mod_sqrt (curve_poly X mod p256)) as (N & S).
  destruct (mod_sqrt (curve_poly X mod p256) p256) as [y|].
  2:{ exfalso. apply (proj1 N eq_refl). exists Y. rewrite Z.mod_mod by auto. rewrite <- E. f_equal. ring. }
  exists y. split; [reflexivity|]. destruct (S y eq_refl) as (Hy & Ey & Sy). rewrite Z.mod_mod in Ey by auto.
  split; [split; [assumption|split; [assumption|]]; rewrite <- Ey; f_equal; ring|].
  assert (y mod p256 = Y mod p256 \/ y mod p256 = (- Y) mod p256) as C.
  { apply (roots_sign p256 p256_prime). rewrite Ey, <- E. f_equal. ring. }
  rewrite (Z.mod_small y), (Z.mod_small Y) in C by assumption.
  assert (y = Y \/ y + Y = p256) as C'.
  { destruct C as [C|C]; [auto|]. destruct (Z.eq_dec Y 0) as [Y0|Y0].
    - left. rewrite Y0 in *. change (-0) with 0 in C. rewrite Z.mod_0_l in C by auto. exact C.
    - right. assert ((- Y) mod p256 = p256 - Y) as Em by (symmetry; apply (Z.mod_unique_pos _ _ (-1)); clear - HY Y0; lia). rewrite Em in C. clear - C. lia. }
  split; [exact C'|]. split.
  - intros <-. exact Sy.
  - intros (u & Hu). destruct C' as [C'|C']; [assumption|]. destruct (Z.eq_dec Y 0) as [Y0|Y0]; [clear - C' Y0 Hy; lia|]. exfalso.
    destruct Sy as (v & Hv). apply (one_square p256 p256_prime p256_mod4 Y u v); [rewrite Z.mod_small; assumption|assumption|].
    rewrite Hv. replace y with (- Y + 1 * p256) by (clear - C'; lia). apply Z.mod_add. auto.
Qed.
Print Assumptions C71_exact.
(** The base point; a root of its Y is given. *)
Example C71_exact_applies : on_curve gx256 gy256 /\ calculate_y gx256 = Some gy256.
Proof.
  assert (on_curve gx256 gy256) as C by (split; [split; [discriminate|reflexivity]|]; split; [split; [discriminate|reflexivity]|]; vm_compute; reflexivity).
  split; [exact C|]. destruct (C71_exact _ _ C) as (y & E & _ & _ & I). rewrite E. f_equal. apply I.
  exists 0xc3e1d7f90a3168716b487f801e58bcf7ad01ba84bd037ef93fc33ebb3e6f982e. vm_compute. reflexivity.
Qed.
(** So every saved key whose Y is a square loads back as it was; the sign of the others is lost. *)
Theorem C71_partial : forall f cls id X Y priv secret nonce f',
  on_curve X Y -> square Y -> save_key_pair f cls id X priv secret nonce = (f', Ok tt) -> load_pub_point f' cls id = Ok (X, Some Y).
Proof.
  intros f cls id X Y priv secret nonce f' C Sq S. destruct (C71_exact X Y C) as (y & E & _ & _ & I). apply I in Sq. subst y.
  destruct (save_effect _ _ _ _ _ _ _ _ S) as (n & d & f1 & En & In_ & K & Ed & Ep & Ev & M & ->).
  unfold load_pub_point. rewrite (load_pub_written _ cls id d n X Ep In_); [|destruct C as (C & _)|apply fs_set_same].
  - unfold rmap, get_public_key. cbn [rbind]. now rewrite E.
  - split; [clear - C; lia|]. apply (Z.lt_trans _ p256); [clear - C; lia|]. vm_compute. reflexivity.
Qed.
Print Assumptions C71_partial.
Example C71_partial_applies : on_curve gx256 gy256 /\ square gy256.
Proof.
  destruct C71_exact_applies as (C & E). split; [assumption|]. destruct (C71_exact _ _ C) as (y & E' & _ & _ & I). apply I. congruence.
Qed.
(** For every point other than the (non-existent) ones with Y = 0, it or its inverse is not restored: C71 is false. *)
Theorem C71_refuted : forall X Y, on_curve X Y -> Y <> 0 ->
  on_curve X (p256 - Y) /\ (calculate_y X = Some Y -> calculate_y X <> Some (p256 - Y)) /\
  (calculate_y X = Some Y \/ calculate_y X = Some (p256 - Y)).
Proof.
  intros X Y C Y0. destruct (C71_exact X Y C) as (y & E & _ & D & _). pose proof C as (HX & HY & Ey). split; [|split].
  - split; [assumption|]. split; [clear - HY Y0; lia|]. rewrite <- Ey. replace ((p256 - Y) ^ 2) with (Y ^ 2 + (p256 - 2 * Y) * p256) by ring. apply Z.mod_add. auto.
  - intros E1 E2. assert (Y = p256 - Y) as H by congruence. assert (p256 mod 2 = 0) as H2 by (replace p256 with (Y * 2) by (clear - H; lia); apply Z.mod_mul; discriminate).
    vm_compute in H2. discriminate.
  - destruct D as [D|D]; [left; congruence|right]. rewrite E. f_equal. clear - D. lia.
Qed.
Print Assumptions C71_refuted.
(** The inverse of the base point, which is the public key of the scalar n-1. *)
Example C71_refuted_applies : on_curve gx256 (p256 - gy256) /\ calculate_y gx256 = Some gy256 /\ gy256 <> p256 - gy256.
Proof.
  destruct C71_exact_applies as (C & E). split; [apply (C71_refuted _ _ C); discriminate|]. split; [assumption|]. vm_compute. discriminate.
Qed.

(** ** C75: loaded keys are points *)
(** Loading a well-formed file never checks the point: Y is nil exactly if no point of the curve has this X. *)
Theorem C75_exact : forall f cls id X Y, load_pub_point f cls id = Ok (X, Y) ->
  match Y with
  | None => forall y, ~ on_curve (X mod p256) y
  | Some y => on_curve (X mod p256) y
  end.
Proof.
  intros f cls id X Y H. unfold load_pub_point, rmap in H. destruct (load_pub_key f cls id) as [x| |]; try discriminate. cbn [rbind] in H.
  assert (X = x) as -> by (unfold get_public_key in H; congruence). assert (Y = calculate_y x) as -> by (unfold get_public_key in H; congruence). clear H.
  assert (curve_poly (x mod p256) mod p256 = curve_poly x mod p256) as Ep.
  { unfold curve_poly. apply (cong_divide p256); [auto|]. exists (- (x / p256) * ((x mod p256) ^ 2 + (x mod p256) * x + x ^ 2 - 3)).
    rewrite (Z.mod_eq x p256) by auto. ring. }
  rewrite calculate_y_poly. destruct (C71_mod_sqrt (curve_poly x mod p256)) as (N & S).
  destruct (mod_sqrt (curve_poly x mod p256) p256) as [y|].
  - destruct (S y eq_refl) as (Hy & Ey & _). rewrite Z.mod_mod in Ey by auto. split; [apply Z.mod_pos_bound; auto|]. split; [assumption|].
    rewrite Ep, <- Ey. f_equal. ring.
  - intros y (_ & _ & E). apply (proj1 N eq_refl). exists y. rewrite Z.mod_mod, <- Ep, <- E by auto. f_equal. ring.
Qed.
Print Assumptions C75_exact.
(** A well-formed file with X = 1, of which there is no point, loads with a nil Y; and an X that is not reduced loads as it is: C75 is false. *)
Theorem C75_refuted :
  let f := fst (save_key_pair no_files 1 (str "4a7f") 1 222 demo_secret demo_nonce) in
  load_pub_point f 1 (str "4a7f") = Ok (1, None) /\ (forall y, ~ on_curve 1 y) /\
  let g := fst (save_key_pair no_files 1 (str "4a7f") p256 222 demo_secret demo_nonce) in
  exists y, load_pub_point g 1 (str "4a7f") = Ok (p256, Some y) /\ ~ on_curve p256 y.
Proof.
  intros f. assert (calculate_y 1 = None) as E1.
  { rewrite calculate_y_poly. apply C71_mod_sqrt. intros (u & Hu). rewrite Z.mod_mod in Hu by auto.
    apply (one_square p256 p256_prime p256_mod4 (curve_poly 1) u 0xde17b2671045fe58740248c17a8bd2fb2ef7c3c49b01da9f903efa3dcda669c7); [vm_compute; discriminate|exact Hu|vm_compute; reflexivity]. }
  assert (load_pub_point f 1 (str "4a7f") = Ok (1, None)) as E.
  { unfold load_pub_point. assert (load_pub_key f 1 (str "4a7f") = Ok 1) as -> by (vm_compute; reflexivity). unfold rmap, get_public_key. cbn [rbind]. now rewrite E1. }
  split; [exact E|]. split.
  - apply C75_exact in E. exact E.
  - intros g. unfold load_pub_point. assert (load_pub_key g 1 (str "4a7f") = Ok p256) as -> by (vm_compute; reflexivity). unfold rmap, get_public_key. cbn [rbind].
    destruct (calculate_y p256) as [y|] eqn:Ey.
    + exists y. split; [reflexivity|]. intros ((_ & C) & _). vm_compute in C. discriminate.
    + exfalso. rewrite calculate_y_poly in Ey. apply C71_mod_sqrt in Ey. apply Ey. exists 0x66485c780e2f83d72433bd5d84a06bb6541c2af31dae871728bf856a174f93f4. vm_compute. reflexivity.
Qed.
Print Assumptions C75_refuted.
(** The part that holds: a file with the X of a point loads as a point of the curve. *)
Theorem C75_partial : forall f cls id X Y Y', load_pub_point f cls id = Ok (X, Y) -> on_curve X Y' -> exists y, Y = Some y /\ on_curve X y.
Proof.
  intros f cls id X Y Y' H C. pose proof C as (HX & _). apply C75_exact in H. rewrite Z.mod_small in H by assumption. destruct Y as [y|]; [eauto|].
  destruct (H _ C).
Qed.
Print Assumptions C75_partial.
Example C75_partial_applies :
  load_pub_point (fst (save_key_pair no_files 1 (str "4a7f") gx256 222 demo_secret demo_nonce)) 1 (str "4a7f") = Ok (gx256, Some gy256) /\
  on_curve gx256 (p256 - gy256).
Proof.
  split; [|apply C71_refuted_applies]. set (f := fst _). unfold load_pub_point. assert (load_pub_key f 1 (str "4a7f") = Ok gx256) as -> by (vm_compute; reflexivity).
  unfold rmap, get_public_key. cbn [rbind]. now rewrite (proj2 C71_exact_applies).
Qed.
