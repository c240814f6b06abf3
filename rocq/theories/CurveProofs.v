(** * The points of a curve form a commutative group. *)
From Coq Require Import List ZArith Znumtheory Zpow_facts Lia Bool.
From Verif Require Import Base NumberTheory CurveModel.
Import ListNotations.
Local Open Scope Z_scope.

Section Curve.
  Context (p a b : Z) (Pp : prime p) (P2 : 2 < p).
  (** No point has a vertical and a horizontal tangent at once. *)
  Context (NS : forall x, (p | 3 * (x * x) + a) -> (p | x * x * x + a * x + b) -> False).

  Definition cg (x y : Z) : Prop := (p | x - y).
  Lemma of_ring (E A B : Z) : (p | E) -> A - B = E -> cg A B.
  Proof using Type. clear. unfold cg. now intros H ->. Qed.
  Lemma dm c E : (p | E) -> (p | c * E). Proof using Type. clear. apply Z.divide_mul_r. Qed.
  Lemma da E1 E2 : (p | E1) -> (p | E2) -> (p | E1 + E2). Proof using Type. clear. apply Z.divide_add_r. Qed.
  Lemma ds E1 E2 : (p | E1) -> (p | E2) -> (p | E1 - E2). Proof using Type. clear. apply Z.divide_sub_r. Qed.
  Lemma cg_refl x : cg x x. Proof using Type. clear. unfold cg. rewrite Z.sub_diag. apply Z.divide_0_r. Qed.
  Lemma cg_sym x y : cg x y -> cg y x. Proof using Type. clear. intros H. apply (of_ring ((-1) * (x - y))); [now apply dm|ring]. Qed.
  Lemma cg_trans x y z : cg x y -> cg y z -> cg x z. Proof using Type. clear. intros H G. apply (of_ring ((x - y) + (y - z))); [now apply da|ring]. Qed.
  Lemma cg_add x x' y y' : cg x x' -> cg y y' -> cg (x + y) (x' + y'). Proof using Type. clear. intros H G. apply (of_ring ((x - x') + (y - y'))); [now apply da|ring]. Qed.
  Lemma cg_sub x x' y y' : cg x x' -> cg y y' -> cg (x - y) (x' - y'). Proof using Type. clear. intros H G. apply (of_ring ((x - x') - (y - y'))); [now apply ds|ring]. Qed.
  Lemma cg_mul x x' y y' : cg x x' -> cg y y' -> cg (x * y) (x' * y').
  Proof using Type. clear. intros H G. apply (of_ring (y * (x - x') + x' * (y - y'))); [apply da; now apply dm|ring]. Qed.
  Lemma cg_mod x : cg (x mod p) x.
  Proof using Pp. clear - Pp. pose proof (prime_ge_2 p Pp) as GE. exists (- (x / p)). pose proof (Z.div_mod x p ltac:(lia)). lia. Qed.
  Lemma cg_eq x y : 0 <= x < p -> 0 <= y < p -> cg x y -> x = y.
  Proof using Type. clear. intros Hx Hy (k & E). assert (k = 0) by nia. subst k. lia. Qed.
  Lemma cg_iff x y : cg x y <-> x mod p = y mod p.
  Proof using Pp.
    clear - Pp. pose proof (prime_ge_2 p Pp) as GE. split; intros H.
    - destruct H as (k & E). replace x with (y + k * p) by lia. apply Z.mod_add. lia.
    - apply cg_trans with (x mod p); [apply cg_sym, cg_mod|]. rewrite H. apply cg_mod.
  Qed.
  Lemma cancel c E : ~ (p | c) -> (p | c * E) -> (p | E).
  Proof using Pp. clear - Pp. intros N H. destruct (prime_mult p Pp c E H); [contradiction|assumption]. Qed.

  (** The slope of the line through two points of the curve that are not opposite: a chord or a tangent. *)
  Definition slope (l x1 y1 x2 y2 : Z) : Prop := cg (l * (x2 - x1)) (y2 - y1) /\ cg (l * (y1 + y2)) (x1 * x1 + x1 * x2 + x2 * x2 + a).
  Definition opposite (x1 y1 x2 y2 : Z) : Prop := cg x1 x2 /\ (p | y1 + y2).
  Definition curve (x y : Z) : Prop := cg (y * y) (x * x * x + a * x + b).

  Lemma slope_sym l x1 y1 x2 y2 : slope l x1 y1 x2 y2 -> slope l x2 y2 x1 y1.
  Proof using Type.
    clear. intros [H G]. split.
    - apply (of_ring ((-1) * (l * (x2 - x1) - (y2 - y1)))); [now apply dm|ring].
    - apply (of_ring (l * (y1 + y2) - (x1 * x1 + x1 * x2 + x2 * x2 + a))); [exact G|ring].
  Qed.
  Lemma slope_cg l x1 y1 x2 y2 l' x1' y1' x2' y2' : cg l l' -> cg x1 x1' -> cg y1 y1' -> cg x2 x2' -> cg y2 y2' ->
    slope l x1 y1 x2 y2 -> slope l' x1' y1' x2' y2'.
  Proof using Type.
    clear. intros A B C D E [H G].
    assert (forall X Y X' Y', cg X Y -> cg X X' -> cg Y Y' -> cg X' Y') as T.
    { intros X Y X' Y' H1 H2 H3. apply cg_trans with X; [now apply cg_sym|]. now apply cg_trans with Y. }
    split; [eapply T; [exact H| |]|eapply T; [exact G| |]];
      repeat first [assumption | apply cg_refl | apply cg_sub | apply cg_add | apply cg_mul].
  Qed.
  (** There is at most one. *)
  Lemma slope_unique l l' x1 y1 x2 y2 : ~ opposite x1 y1 x2 y2 -> slope l x1 y1 x2 y2 -> slope l' x1 y1 x2 y2 -> cg l l'.
  Proof using Pp.
    clear - Pp. intros N [H G] [H' G']. unfold cg.
    destruct (Zdivide_dec p (x2 - x1)) as [D|D].
    - apply (cancel (y1 + y2)).
      + intros C. apply N. split; [|exact C]. apply cg_sym. exact D.
      + pose proof (ds _ _ G G') as K. eapply Z.divide_trans; [exact K|]. exists 1. ring.
    - apply (cancel (x2 - x1)); [exact D|]. pose proof (ds _ _ H H') as K. eapply Z.divide_trans; [exact K|]. exists 1. ring.
  Qed.
  (** The tangent or the chord goes through the third point. *)
  Lemma line_b l x1 y1 x2 y2 : slope l x1 y1 x2 y2 ->
    cg (2 * y2 * l) (a + 3 * (x2 * x2) - (x1 - x2) * (l * l - x1 - x2 - x2)).
  Proof using Type.
    clear. intros [H G].
    apply (of_ring ((l * (y1 + y2) - (x1 * x1 + x1 * x2 + x2 * x2 + a)) - l * (l * (x2 - x1) - (y2 - y1)))); [|ring].
    apply ds; [exact G|apply dm, H].
  Qed.

  Section Assoc.
    Context (x1 y1 x2 y2 x3 y3 l m : Z) (HL : slope l x1 y1 x2 y2) (HM : slope m x2 y2 x3 y3).
    Let x4 := l * l - x1 - x2.
    Let y4 := l * (x1 - x4) - y1.
    Let E := l * m - x2 - x3 - x4.
    Lemma mu_rel mu : slope mu x4 y4 x3 y3 -> ~ opposite x4 y4 x3 y3 -> cg ((l - m) * mu) E.
    Proof using HL HM Pp.
      clear P2 NS. intros [A B] N. pose proof (line_b _ _ _ _ _ HL) as Ul. pose proof (line_b _ _ _ _ _ (slope_sym _ _ _ _ _ HM)) as Um.
      destruct HL as [L1 _]. destruct HM as [M1 _]. unfold cg in *.
      set (Dl := 2 * y2 * l - (a + 3 * (x2 * x2) - (x1 - x2) * (l * l - x1 - x2 - x2))) in *.
      set (Dm := 2 * y2 * m - (a + 3 * (x2 * x2) - (x3 - x2) * (m * m - x3 - x2 - x2))) in *.
      set (D1 := l * (x2 - x1) - (y2 - y1)) in *. set (D3 := m * (x3 - x2) - (y3 - y2)) in *.
      assert (p | (l - m) * (y3 - y4) - E * (x3 - x4)) as I1.
      { replace ((l - m) * (y3 - y4) - E * (x3 - x4)) with (Dl - Dm - (l - m) * D3 + (l - m) * D1) by (unfold Dl, Dm, D1, D3, E, y4, x4; ring).
        apply da; [apply ds; [apply ds; assumption|now apply dm]|now apply dm]. }
      assert (p | (l - m) * (x4 * x4 + x4 * x3 + x3 * x3 + a) - E * (y3 + y4)) as I2.
      { replace ((l - m) * (x4 * x4 + x4 * x3 + x3 * x3 + a) - E * (y3 + y4)) with (m * Dl - l * Dm + E * D3 + E * D1)
          by (unfold Dl, Dm, D1, D3, E, y4, x4; ring).
        apply da; [apply da; [apply ds; now apply dm|now apply dm]|now apply dm]. }
      destruct (Zdivide_dec p (x3 - x4)) as [D|D].
      - apply (cancel (y4 + y3)).
        + intros C. apply N. split; [|exact C]. apply cg_sym. exact D.
        + replace ((y4 + y3) * ((l - m) * mu - E)) with ((l - m) * (mu * (y4 + y3) - (x4 * x4 + x4 * x3 + x3 * x3 + a)) +
            ((l - m) * (x4 * x4 + x4 * x3 + x3 * x3 + a) - E * (y3 + y4))) by ring.
          apply da; [now apply dm|exact I2].
      - apply (cancel (x3 - x4)); [exact D|].
        replace ((x3 - x4) * ((l - m) * mu - E)) with ((l - m) * (mu * (x3 - x4) - (y3 - y4)) + ((l - m) * (y3 - y4) - E * (x3 - x4))) by ring.
        apply da; [now apply dm|exact I1].
    Qed.
  End Assoc.
  Lemma assoc_generic x1 y1 x2 y2 x3 y3 l m mu nu :
    slope l x1 y1 x2 y2 -> slope m x2 y2 x3 y3 -> ~ cg l m ->
    let x4 := l * l - x1 - x2 in let y4 := l * (x1 - x4) - y1 in
    let x5 := m * m - x2 - x3 in let y5 := m * (x2 - x5) - y2 in
    slope mu x4 y4 x3 y3 -> ~ opposite x4 y4 x3 y3 -> slope nu x1 y1 x5 y5 -> ~ opposite x1 y1 x5 y5 ->
    let x6 := mu * mu - x4 - x3 in let x7 := nu * nu - x1 - x5 in
    cg x6 x7 /\ cg (mu * (x3 - x6) - y3) (nu * (x1 - x7) - y1).
  Proof using Pp.
    clear P2 NS. intros HL HM N x4 y4 x5 y5 HA NA HB NB x6 x7.
    pose proof (mu_rel x1 y1 x2 y2 x3 y3 l m HL HM mu HA NA) as Mu.
    assert (cg ((m - l) * nu) (m * l - x2 - x1 - (m * m - x3 - x2))) as Nu.
    { apply (mu_rel x3 y3 x2 y2 x1 y1 m l (slope_sym _ _ _ _ _ HM) (slope_sym _ _ _ _ _ HL)).
      - apply slope_sym in HB. revert HB. apply slope_cg; try apply cg_refl.
        + unfold x5. apply (of_ring 0); [apply Z.divide_0_r|ring].
        + unfold y5, x5. destruct HM as [M1 _]. apply (of_ring ((m * (x3 - x2) - (y3 - y2)) * (-1))); [apply Z.divide_mul_l, M1|ring].
      - intros [C1 C2]. apply NB. split.
        + apply cg_sym in C1. apply (cg_trans _ _ _ C1). unfold x5. apply (of_ring 0); [apply Z.divide_0_r|ring].
        + destruct HM as [M1 _]. replace (y1 + y5) with (m * (x3 - (m * m - x3 - x2)) - y3 + y1 - (m * (x3 - x2) - (y3 - y2))) by (unfold y5, x5; ring).
          apply ds; [exact C2|exact M1]. }
    fold x4 in Mu. unfold cg in N. unfold cg in Mu, Nu. destruct HL as [L1 _]. destruct HM as [M1 _]. unfold cg in L1, M1.
    set (Dmu := (l - m) * mu - (l * m - x2 - x3 - x4)) in *. set (Dnu := (m - l) * nu - (m * l - x2 - x1 - (m * m - x3 - x2))) in *.
    set (D1 := l * (x2 - x1) - (y2 - y1)) in *. set (D3 := m * (x3 - x2) - (y3 - y2)) in *.
    assert (p | mu - nu - (m - l)) as W.
    { apply (cancel (l - m)); [exact N|]. replace ((l - m) * (mu - nu - (m - l))) with (Dmu + Dnu) by (unfold Dmu, Dnu, x4; ring). now apply da. }
    set (w := mu - nu - (m - l)) in *.
    assert (p | x6 - x7) as X.
    { replace (x6 - x7) with (w * (mu + nu) - Dmu + Dnu) by (unfold x6, x7, w, Dmu, Dnu, x4, x5; ring).
      apply da; [apply ds; [apply Z.divide_mul_l, W|exact Mu]|exact Nu]. }
    split; [exact X|]. apply (cancel (l - m)); [exact N|].
    replace ((l - m) * (mu * (x3 - x6) - y3 - (nu * (x1 - x7) - y1)))
      with ((x3 + 2 * (l * m - x2 - x3 - x4) + Dmu) * Dmu + x1 * Dnu - (l - m) * x6 * w + (l - m) * D1 + (l - m) * D3 - (l - m) * nu * (x6 - x7))
      by (unfold x6, x7, w, Dmu, Dnu, D1, D3, x4, x5; ring).
    apply ds; [|now apply dm]. apply da; [|now apply dm]. apply da; [|now apply dm]. apply ds; [|now apply dm]. apply da; now apply dm.
  Qed.

  (** ** The operations *)
  Definition ok (P : point) : Prop := match P with None => True | Some (x, y) => 0 <= x < p /\ 0 <= y < p /\ curve x y end.
  Definition neg (P : point) : point := match P with None => None | Some (x, y) => Some (x, (- y) mod p) end.
  Notation add := (point_add p a).

  Lemma inv_ok x : ~ (p | x) -> cg (x * inv_mod x p) 1.
  Proof using Pp P2.
    clear NS. intros N. unfold inv_mod. rewrite Zpow_mod_correct by lia. rewrite <- Zpower_mod by lia.
    apply cg_trans with (x * x ^ (p - 2)); [apply cg_mul; [apply cg_refl|apply cg_mod]|].
    replace (x * x ^ (p - 2)) with (x ^ (p - 1)) by (replace (p - 1) with (Z.succ (p - 2)) by lia; apply Z.pow_succ_r; lia).
    apply cg_iff. rewrite (fermat p x Pp N). symmetry. apply Z.mod_small. lia.
  Qed.
  Lemma third_eq l x1 y1 x2 l' x1' y1' x2' : cg (l * l - x1 - x2) (l' * l' - x1' - x2') ->
    cg (l * (x1 - (l * l - x1 - x2)) - y1) (l' * (x1' - (l' * l' - x1' - x2')) - y1') ->
    third p l x1 y1 x2 = third p l' x1' y1' x2'.
  Proof using Pp.
    clear P2 NS. intros X Y. unfold third. cbv zeta. f_equal. f_equal; apply cg_iff; [exact X|].
    eapply cg_trans; [|eapply cg_trans; [exact Y|]].
    - apply cg_sub; [apply cg_mul; [apply cg_refl|]|apply cg_refl]. apply cg_sub; [apply cg_refl|apply cg_mod].
    - apply cg_sub; [apply cg_mul; [apply cg_refl|]|apply cg_refl]. apply cg_sub; [apply cg_refl|apply cg_sym, cg_mod].
  Qed.
  Lemma third_cg l x1 y1 x2 l' x1' y1' x2' : cg l l' -> cg x1 x1' -> cg y1 y1' -> cg x2 x2' -> third p l x1 y1 x2 = third p l' x1' y1' x2'.
  Proof using Pp. clear P2 NS. intros A B C D. apply third_eq; repeat first [assumption | apply cg_sub | apply cg_mul]. Qed.
  Lemma third_swap l x1 y1 x2 y2 : slope l x1 y1 x2 y2 -> third p l x1 y1 x2 = third p l x2 y2 x1.
  Proof using Pp.
    clear P2 NS. intros [H _]. apply third_eq.
    - apply (of_ring 0); [apply Z.divide_0_r|ring].
    - apply (of_ring ((-1) * (l * (x2 - x1) - (y2 - y1)))); [now apply dm|ring].
  Qed.
  Lemma third_ok l x1 y1 x2 y2 : curve x1 y1 -> slope l x1 y1 x2 y2 -> ok (third p l x1 y1 x2).
  Proof using Pp P2.
    clear NS. intros C HL. unfold third. cbv zeta. cbn [ok]. split; [apply Z.mod_pos_bound; lia|]. split; [apply Z.mod_pos_bound; lia|].
    pose proof (line_b _ _ _ _ _ (slope_sym _ _ _ _ _ HL)) as U. set (x3 := l * l - x1 - x2). set (y3 := l * (x1 - x3) - y1).
    assert (curve x3 y3) as G.
    { unfold curve in *. apply (of_ring ((y1 * y1 - (x1 * x1 * x1 + a * x1 + b)) + (x3 - x1) * (2 * y1 * l - (a + 3 * (x1 * x1) - (x2 - x1) * (l * l - x2 - x1 - x1)))));
        [apply da; [exact C|apply dm, U]|unfold y3, x3; ring]. }
    unfold curve in *.
    assert (cg ((l * (x1 - x3 mod p) - y1) mod p) y3) as Y.
    { eapply cg_trans; [apply cg_mod|]. unfold y3. apply cg_sub; [apply cg_mul; [apply cg_refl|]|apply cg_refl]. apply cg_sub; [apply cg_refl|apply cg_mod]. }
    pose proof (cg_mod x3) as X.
    eapply cg_trans; [apply cg_mul; exact Y|]. eapply cg_trans; [exact G|]. apply cg_sym.
    apply cg_add; [apply cg_add|apply cg_refl]; repeat first [exact X | apply cg_refl | apply cg_mul].
  Qed.
  Lemma two_not : ~ (p | 2).
  Proof using P2. clear - P2. intros H. apply Z.divide_pos_le in H; lia. Qed.
  (** The slope that the program computes. *)
  Lemma add_chord x1 y1 x2 y2 : ok (Some (x1, y1)) -> ok (Some (x2, y2)) -> ~ opposite x1 y1 x2 y2 ->
    exists l, slope l x1 y1 x2 y2 /\ add (Some (x1, y1)) (Some (x2, y2)) = third p l x1 y1 x2.
  Proof using Pp P2.
    clear NS. intros (B1 & B1' & C1) (B2 & B2' & C2) N. cbn [point_add]. destruct (Z.eqb_spec x1 x2) as [<-|D].
    - destruct (Z.eqb_spec ((y1 + y2) mod p) 0) as [Z0|Z0].
      + exfalso. apply N. split; [apply cg_refl|]. apply Z.mod_divide; [lia|exact Z0].
      + assert (y1 = y2) as <-.
        { apply cg_eq; [assumption..|]. apply (cancel (y1 + y2)); [intros C; apply Z0, Z.mod_divide; [lia|exact C]|].
          unfold curve in C1, C2. replace ((y1 + y2) * (y1 - y2)) with (y1 * y1 - (x1 * x1 * x1 + a * x1 + b) - (y2 * y2 - (x1 * x1 * x1 + a * x1 + b))) by ring.
          now apply ds. }
        eexists. split; [|reflexivity]. assert (~ (p | 2 * y1)) as N2 by (intros C; apply Z0, Z.mod_divide; [lia|]; now replace (y1 + y1) with (2 * y1) by ring).
        pose proof (inv_ok _ N2) as I. set (i := inv_mod (2 * y1) p) in *. split.
        * apply (of_ring 0); [apply Z.divide_0_r|ring].
        * apply (of_ring ((3 * (x1 * x1) + a) * (2 * y1 * i - 1))); [now apply dm|ring].
    - eexists. split; [|reflexivity]. assert (~ (p | x2 - x1)) as N2 by (intros C; apply D; symmetry; now apply cg_eq).
      pose proof (inv_ok _ N2) as I. set (i := inv_mod (x2 - x1) p) in *.
      assert (p | (y2 - y1) * i * (x2 - x1) - (y2 - y1)) as H.
      { replace ((y2 - y1) * i * (x2 - x1) - (y2 - y1)) with ((y2 - y1) * ((x2 - x1) * i - 1)) by ring. now apply dm. }
      split; [exact H|]. apply (cancel (x2 - x1)); [exact N2|].
      replace ((x2 - x1) * ((y2 - y1) * i * (y1 + y2) - (x1 * x1 + x1 * x2 + x2 * x2 + a))) with
        ((y1 + y2) * ((y2 - y1) * i * (x2 - x1) - (y2 - y1)) + ((y2 * y2 - (x2 * x2 * x2 + a * x2 + b)) - (y1 * y1 - (x1 * x1 * x1 + a * x1 + b)))) by ring.
      apply da; [now apply dm|now apply ds].
  Qed.
  Lemma add_by l x1 y1 x2 y2 : ok (Some (x1, y1)) -> ok (Some (x2, y2)) -> ~ opposite x1 y1 x2 y2 -> slope l x1 y1 x2 y2 ->
    add (Some (x1, y1)) (Some (x2, y2)) = third p l x1 y1 x2.
  Proof using Pp P2.
    clear NS. intros O1 O2 N H. destruct (add_chord x1 y1 x2 y2 O1 O2 N) as (l' & H' & ->).
    apply third_cg; try apply cg_refl. exact (slope_unique _ _ _ _ _ _ N H' H).
  Qed.
  Lemma add_opposite x1 y1 x2 y2 : ok (Some (x1, y1)) -> ok (Some (x2, y2)) -> opposite x1 y1 x2 y2 -> add (Some (x1, y1)) (Some (x2, y2)) = None.
  Proof using P2.
    clear NS. intros (B1 & _ & _) (B2 & _ & _) [X Y]. apply cg_eq in X; [|assumption..]. subst x2. cbn [point_add]. rewrite Z.eqb_refl.
    apply Z.mod_divide in Y; [|lia]. rewrite Y. reflexivity.
  Qed.
  Lemma opposite_dec x1 y1 x2 y2 : {opposite x1 y1 x2 y2} + {~ opposite x1 y1 x2 y2}.
  Proof using Type.
    clear. unfold opposite, cg. destruct (Zdivide_dec p (x1 - x2)) as [A|A]; [|right; tauto].
    destruct (Zdivide_dec p (y1 + y2)) as [B|B]; [left; tauto|right; tauto].
  Qed.
  Lemma opposite_sym x1 y1 x2 y2 : opposite x1 y1 x2 y2 -> opposite x2 y2 x1 y1.
  Proof using Type. clear. intros [X Y]. split; [now apply cg_sym|]. now rewrite Z.add_comm. Qed.
  Lemma opposite_cg x1 y1 x2 y2 x1' y1' x2' y2' : cg x1 x1' -> cg y1 y1' -> cg x2 x2' -> cg y2 y2' -> opposite x1 y1 x2 y2 -> opposite x1' y1' x2' y2'.
  Proof using Type.
    clear. intros A B C D [X Y]. split.
    - apply cg_trans with x1; [now apply cg_sym|]. now apply cg_trans with x2.
    - replace (y1' + y2') with (y1 + y2 - (y1 - y1') - (y2 - y2')) by ring. apply ds; [now apply ds|assumption].
  Qed.
  Lemma neg_ok P : ok P -> ok (neg P).
  Proof using Pp P2.
    clear NS. destruct P as [[x y]|]; [|exact (fun H => H)]. intros (B1 & B2 & C). cbn [neg ok]. split; [exact B1|]. split; [apply Z.mod_pos_bound; lia|].
    unfold curve in *. eapply cg_trans; [apply cg_mul; apply cg_mod|]. now replace (- y * - y) with (y * y) by ring.
  Qed.
  Lemma neg_neg P : ok P -> neg (neg P) = P.
  Proof using Pp P2.
    clear NS. destruct P as [[x y]|]; [|reflexivity]. intros (B1 & B2 & C). cbn [neg]. do 2 f_equal. apply cg_eq; [apply Z.mod_pos_bound; lia|exact B2|].
    eapply cg_trans; [apply cg_mod|]. apply (of_ring ((-1) * ((- y) mod p - (- y)))); [apply dm, cg_mod|ring].
  Qed.
  Lemma neg_opposite x y : opposite x y x ((- y) mod p).
  Proof using Pp. clear - Pp. split; [apply cg_refl|]. replace (y + (- y) mod p) with ((- y) mod p - (- y)) by ring. apply cg_mod. Qed.
  Lemma opposite_neg x1 y1 x2 y2 : ok (Some (x1, y1)) -> ok (Some (x2, y2)) -> opposite x1 y1 x2 y2 -> Some (x2, y2) = neg (Some (x1, y1)).
  Proof using Pp P2.
    clear NS. intros (B1 & B1' & _) (B2 & B2' & _) [X Y]. cbn [neg]. apply cg_eq in X; [|assumption..]. subst x2. do 2 f_equal. apply cg_eq; [assumption|apply Z.mod_pos_bound; lia|].
    apply cg_trans with (- y1); [|apply cg_sym, cg_mod]. apply (of_ring (y1 + y2)); [exact Y|ring].
  Qed.
  Lemma add_neg P : ok P -> add P (neg P) = None.
  Proof using Pp P2.
    clear NS. intros O. pose proof (neg_ok P O) as O'. destruct P as [[x y]|]; [|reflexivity]. cbn [neg] in *. apply add_opposite; [assumption..|apply neg_opposite].
  Qed.
  Lemma add_0_r P : add P None = P.
  Proof using Type. clear. destruct P as [[x y]|]; reflexivity. Qed.
  Lemma add_ok P Q : ok P -> ok Q -> ok (add P Q).
  Proof using Pp P2.
    clear NS. intros O1 O2. destruct P as [[x1 y1]|]; [|exact O2]. destruct Q as [[x2 y2]|]; [|exact O1].
    destruct (opposite_dec x1 y1 x2 y2) as [D|D]; [rewrite add_opposite by assumption; exact Logic.I|].
    destruct (add_chord x1 y1 x2 y2 O1 O2 D) as (l & H & ->). destruct O1 as (_ & _ & C). now apply third_ok with y2.
  Qed.
  Lemma add_comm P Q : ok P -> ok Q -> add P Q = add Q P.
  Proof using Pp P2.
    clear NS. intros O1 O2. destruct P as [[x1 y1]|]; [|now rewrite add_0_r]. destruct Q as [[x2 y2]|]; [|reflexivity].
    destruct (opposite_dec x1 y1 x2 y2) as [D|D].
    - rewrite !add_opposite; [reflexivity|try assumption..]. now apply opposite_sym.
    - destruct (add_chord x1 y1 x2 y2 O1 O2 D) as (l & H & ->). rewrite (add_by l x2 y2 x1 y1); [|assumption|assumption| |now apply slope_sym].
      + now apply third_swap.
      + intros C. now apply D, opposite_sym.
  Qed.
  Lemma neg_add P Q : ok P -> ok Q -> neg (add P Q) = add (neg P) (neg Q).
  Proof using Pp P2.
    clear NS. intros O1 O2. pose proof (neg_ok P O1) as N1. pose proof (neg_ok Q O2) as N2.
    destruct P as [[x1 y1]|]; [|reflexivity]. destruct Q as [[x2 y2]|]; [|reflexivity]. cbn [neg] in N1, N2. cbn [neg].
    assert (forall y, cg ((- y) mod p) (- y)) as M by (intros; apply cg_mod).
    destruct (opposite_dec x1 y1 x2 y2) as [D|D].
    - rewrite add_opposite by assumption. rewrite add_opposite; [reflexivity|assumption..|]. destruct D as [X Y]. split; [exact X|].
      replace ((- y1) mod p + (- y2) mod p) with (((- y1) mod p - (- y1)) + ((- y2) mod p - (- y2)) - (y1 + y2)) by ring. apply ds; [apply da; apply M|exact Y].
    - destruct (add_chord x1 y1 x2 y2 O1 O2 D) as (l & H & ->). rewrite (add_by (- l)); [|assumption|assumption| |].
      + unfold third. cbv zeta. cbn [neg]. f_equal. f_equal; [f_equal; ring|]. apply cg_iff. eapply cg_trans; [apply cg_sub with (x := 0); [apply cg_refl|apply cg_mod]|].
        replace (- l * - l - x1 - x2) with (l * l - x1 - x2) by ring.
        apply (of_ring ((- y1) mod p - (- y1))); [apply M|ring].
      + intros [X Y]. apply D. split; [exact X|]. replace (y1 + y2) with (((- y1) mod p - (- y1)) + ((- y2) mod p - (- y2)) - ((- y1) mod p + (- y2) mod p)) by ring.
        apply ds; [apply da; apply M|exact Y].
      + assert (slope (- l) x1 (- y1) x2 (- y2)) as G.
        { destruct H as [H1 H2]. split.
          - apply (of_ring ((-1) * (l * (x2 - x1) - (y2 - y1)))); [now apply dm|ring].
          - apply (of_ring (l * (y1 + y2) - (x1 * x1 + x1 * x2 + x2 * x2 + a))); [exact H2|ring]. }
        revert G. apply slope_cg; try apply cg_refl; apply cg_sym, M.
  Qed.
  (** Adding and taking away again. *)
  Lemma add_cancel B C : ok B -> ok C -> add (neg B) (add B C) = C.
  Proof using Pp P2 NS.
    intros OB OC. pose proof (neg_ok B OB) as ON. pose proof (add_ok B C OB OC) as OR.
    destruct B as [[x2 y2]|]; [|reflexivity]. destruct C as [[x3 y3]|].
    2: { rewrite add_0_r, add_comm by assumption. rewrite add_neg by assumption. reflexivity. }
    destruct (opposite_dec x2 y2 x3 y3) as [D|D].
    { rewrite add_opposite by assumption. rewrite add_0_r. symmetry. now apply opposite_neg. }
    destruct (add_chord x2 y2 x3 y3 OB OC D) as (m & H & E). rewrite E in OR |- *. unfold third in OR |- *. cbv zeta in OR |- *.
    set (x5 := m * m - x2 - x3) in *. set (X5 := x5 mod p) in *. set (Y5 := (m * (x2 - X5) - y2) mod p) in *. set (y5 := m * (x2 - x5) - y2).
    assert (cg X5 x5) as EX by apply cg_mod.
    assert (cg Y5 y5) as EY by (unfold Y5, y5; eapply cg_trans; [apply cg_mod|]; apply cg_sub; [apply cg_mul; [apply cg_refl|apply cg_sub; [apply cg_refl|exact EX]]|apply cg_refl]).
    cbn [neg] in ON |- *. assert (cg ((- y2) mod p) (- y2)) as EN by apply cg_mod.
    pose proof (line_b _ _ _ _ _ (slope_sym _ _ _ _ _ H)) as U.
    assert (slope (- m) x2 (- y2) x5 y5) as G.
    { split; [apply (of_ring 0); [apply Z.divide_0_r|unfold y5; ring]|].
      apply (of_ring (2 * y2 * m - (a + 3 * (x2 * x2) - (x3 - x2) * (m * m - x3 - x2 - x2)))); [exact U|unfold y5, x5; ring]. }
    assert (~ opposite x2 (- y2) x5 y5) as N.
    { intros [C1 C2]. destruct G as [G1 G2]. unfold cg in *.
      assert (p | y2) as Y.
      { apply (cancel 2); [exact two_not|]. replace (2 * y2) with (m * (x2 - x5) - (- y2 + y5)) by (unfold y5; ring). apply ds; [now apply dm|exact C2]. }
      assert (p | 3 * (x2 * x2) + a) as T.
      { replace (3 * (x2 * x2) + a) with ((- m) * (- y2 + y5) - (- m * (- y2 + y5) - (x2 * x2 + x2 * x5 + x5 * x5 + a)) + (2 * x2 + x5) * (x2 - x5)) by ring.
        apply da; [apply ds; [now apply dm|exact G2]|now apply dm]. }
      apply (NS x2 T). destruct OB as (_ & _ & C). unfold curve, cg in C.
      replace (x2 * x2 * x2 + a * x2 + b) with (y2 * y2 - (y2 * y2 - (x2 * x2 * x2 + a * x2 + b))) by ring. apply ds; [now apply dm|exact C]. }
    rewrite (add_by (- m)); [|assumption|assumption| |].
    - destruct OC as (B3 & B3' & _). unfold third. cbv zeta. f_equal. f_equal.
      + apply cg_eq; [apply Z.mod_pos_bound; lia|exact B3|]. eapply cg_trans; [apply cg_mod|]. eapply cg_trans; [apply cg_sub; [apply cg_refl|exact EX]|].
        apply (of_ring 0); [apply Z.divide_0_r|unfold x5; ring].
      + apply cg_eq; [apply Z.mod_pos_bound; lia|exact B3'|]. eapply cg_trans; [apply cg_mod|].
        eapply cg_trans; [apply cg_sub; [apply cg_mul; [apply cg_refl|apply cg_sub; [apply cg_refl|apply cg_mod]]|exact EN]|].
        eapply cg_trans; [apply cg_sub; [apply cg_mul; [apply cg_refl|apply cg_sub; [apply cg_refl|apply cg_sub; [apply cg_refl|exact EX]]]|apply cg_refl]|].
        destruct H as [H _]. apply (of_ring (m * (x3 - x2) - (y3 - y2))); [exact H|unfold x5; ring].
    - intros C. apply N. revert C. apply opposite_cg; [apply cg_refl|exact EN|exact EX|exact EY].
    - revert G. apply slope_cg; [apply cg_refl|apply cg_refl|now apply cg_sym|now apply cg_sym|now apply cg_sym].
  Qed.
  Lemma add_take_back A B : ok A -> ok B -> add B (neg (add A B)) = neg A.
  Proof using Pp P2 NS.
    intros OA OB. pose proof (add_cancel B A OB OA) as E. apply (f_equal neg) in E. rewrite neg_add in E; [|now apply neg_ok|now apply add_ok].
    rewrite neg_neg in E by assumption. now rewrite (add_comm A B).
  Qed.
  Theorem add_assoc A B C : ok A -> ok B -> ok C -> add (add A B) C = add A (add B C).
  Proof using Pp P2 NS.
    intros OA OB OC. pose proof (add_ok A B OA OB) as O4. pose proof (add_ok B C OB OC) as O5.
    destruct A as [[x1 y1]|]; [|reflexivity]. destruct B as [[x2 y2]|]; [|reflexivity]. destruct C as [[x3 y3]|]; [|now rewrite !add_0_r].
    destruct (opposite_dec x1 y1 x2 y2) as [D12|D12].
    { rewrite (add_opposite x1 y1 x2 y2) by assumption. apply opposite_sym in D12. rewrite (opposite_neg x2 y2 x1 y1) by assumption.
      rewrite add_cancel by assumption. reflexivity. }
    destruct (opposite_dec x2 y2 x3 y3) as [D23|D23].
    { rewrite (add_opposite x2 y2 x3 y3), add_0_r by assumption. rewrite (opposite_neg x2 y2 x3 y3) by assumption.
      rewrite add_comm; [|exact O4|now apply neg_ok]. rewrite (add_comm (Some (x1, y1))) by assumption. now apply add_cancel. }
    destruct (add_chord x1 y1 x2 y2 OA OB D12) as (l & HL & E4). destruct (add_chord x2 y2 x3 y3 OB OC D23) as (m & HM & E5).
    remember (add (Some (x1, y1)) (Some (x2, y2))) as R4 eqn:Q4. remember (add (Some (x2, y2)) (Some (x3, y3))) as R5 eqn:Q5.
    unfold third in E4, E5. cbv zeta in E4, E5.
    set (x4 := l * l - x1 - x2) in *. set (X4 := x4 mod p) in *. set (Y4 := (l * (x1 - X4) - y1) mod p) in *. set (y4 := l * (x1 - x4) - y1).
    set (x5 := m * m - x2 - x3) in *. set (X5 := x5 mod p) in *. set (Y5 := (m * (x2 - X5) - y2) mod p) in *. set (y5 := m * (x2 - x5) - y2).
    assert (cg X4 x4) as EX4 by apply cg_mod. assert (cg X5 x5) as EX5 by apply cg_mod.
    assert (cg Y4 y4) as EY4 by (unfold Y4, y4; eapply cg_trans; [apply cg_mod|]; apply cg_sub; [apply cg_mul; [apply cg_refl|apply cg_sub; [apply cg_refl|exact EX4]]|apply cg_refl]).
    assert (cg Y5 y5) as EY5 by (unfold Y5, y5; eapply cg_trans; [apply cg_mod|]; apply cg_sub; [apply cg_mul; [apply cg_refl|apply cg_sub; [apply cg_refl|exact EX5]]|apply cg_refl]).
    rewrite E4 in O4. rewrite E5 in O5.
    destruct (opposite_dec X4 Y4 x3 y3) as [D43|D43].
    { rewrite E4, add_opposite by assumption. symmetry. rewrite Q5, (opposite_neg X4 Y4 x3 y3) by assumption.
      rewrite <- E4, Q4, add_take_back by assumption. now apply add_neg. }
    destruct (opposite_dec x1 y1 X5 Y5) as [D15|D15].
    { rewrite E5, (add_opposite x1 y1 X5 Y5) by assumption. rewrite Q4. apply opposite_sym in D15. rewrite (opposite_neg X5 Y5 x1 y1) by assumption.
      rewrite <- E5, Q5. rewrite (add_comm (neg _)); [|apply neg_ok; now rewrite <- Q5, E5|assumption].
      rewrite (add_comm (Some (x2, y2)) (Some (x3, y3))) by assumption. rewrite add_take_back by assumption. rewrite add_comm; [now apply add_neg|now apply neg_ok|assumption]. }
    destruct (Zdivide_dec p (l - m)) as [LM|LM].
    { (* the three points lie on a line: the outer ones are the same *)
      destruct (Zdivide_dec p (x1 - x5)) as [D|D].
      - exfalso. apply D15. apply (opposite_cg x1 y1 x5 y5); [apply cg_refl..|now apply cg_sym|now apply cg_sym|]. split; [exact D|].
        destruct HL as [L1 _]. unfold cg in L1. replace (y1 + y5) with ((l * (x2 - x1) - (y2 - y1)) - (l - m) * (x2 - x1) + m * (x1 - x5)) by (unfold y5; ring).
        apply da; [apply ds; [exact L1|now apply Z.divide_mul_l]|now apply dm].
      - assert (p | x1 - x3) as X.
        { pose proof (line_b _ _ _ _ _ HL) as Ul. pose proof (line_b _ _ _ _ _ (slope_sym _ _ _ _ _ HM)) as Um. unfold cg in Ul, Um.
          apply (cancel (x1 - x5)); [exact D|].
          replace ((x1 - x5) * (x1 - x3)) with
            ((2 * y2 * m - (a + 3 * (x2 * x2) - (x3 - x2) * (m * m - x3 - x2 - x2))) - (2 * y2 * l - (a + 3 * (x2 * x2) - (x1 - x2) * (l * l - x1 - x2 - x2)))
             + (l - m) * (2 * y2 + (l + m) * (x1 - x2))) by (unfold x5; ring).
          apply da; [now apply ds|now apply Z.divide_mul_l]. }
        assert (p | y1 - y3) as Y.
        { destruct HL as [L1 _]. destruct HM as [M1 _]. unfold cg in L1, M1.
          replace (y1 - y3) with ((l * (x2 - x1) - (y2 - y1)) + (m * (x3 - x2) - (y3 - y2)) - (l - m) * (x2 - x1) + m * (x1 - x3)) by ring.
          apply da; [apply ds; [now apply da|now apply Z.divide_mul_l]|now apply dm]. }
        destruct OA as (A1 & A2 & A3). destruct OC as (C1 & C2 & C3).
        assert (x1 = x3) as <- by (apply cg_eq; assumption). assert (y1 = y3) as <- by (apply cg_eq; assumption).
        assert (R4 = R5) as <- by (rewrite Q4, Q5; apply add_comm; [now split|assumption]). apply add_comm; [now rewrite E4|now split]. }
    destruct (add_chord X4 Y4 x3 y3 O4 OC D43) as (mu & Hmu & E6). destruct (add_chord x1 y1 X5 Y5 OA O5 D15) as (nu & Hnu & E7).
    rewrite E4, E5, E6, E7.
    assert (slope mu x4 y4 x3 y3) as Hmu' by (revert Hmu; now apply slope_cg; try apply cg_refl).
    assert (slope nu x1 y1 x5 y5) as Hnu' by (revert Hnu; now apply slope_cg; try apply cg_refl).
    destruct (assoc_generic x1 y1 x2 y2 x3 y3 l m mu nu HL HM LM Hmu') as [RX RY]; [| exact Hnu' | |].
    - intros C. apply D43. revert C. apply opposite_cg; [now apply cg_sym|now apply cg_sym|apply cg_refl|apply cg_refl].
    - intros C. apply D15. revert C. apply opposite_cg; [apply cg_refl|apply cg_refl|now apply cg_sym|now apply cg_sym].
    - rewrite (third_swap _ _ _ _ _ Hmu). fold x4 x5 in RX, RY. transitivity (third p mu x3 y3 x4); [apply third_cg; try apply cg_refl; exact EX4|].
      transitivity (third p nu x1 y1 x5); [|apply third_cg; try apply cg_refl; now apply cg_sym].
      apply third_eq.
      + eapply cg_trans; [|exact RX]. apply (of_ring 0); [apply Z.divide_0_r|ring].
      + eapply cg_trans; [|exact RY]. replace (mu * mu - x3 - x4) with (mu * mu - x4 - x3) by ring. apply cg_refl.
  Qed.

  (** ** Multiples *)
  Notation mul := (point_mul p a).
  Lemma mul_pos_ok k P : ok P -> ok (point_mul_pos p a k P).
  Proof using Pp P2. clear NS. intros O. induction k as [k IH|k IH|]; cbn [point_mul_pos]; [|now apply add_ok|assumption]. apply add_ok; [now apply add_ok|assumption]. Qed.
  Lemma mul_ok k P : ok P -> ok (mul k P).
  Proof using Pp P2. clear NS. intros O. destruct k; [exact Logic.I|now apply mul_pos_ok|exact Logic.I]. Qed.
  Lemma mul_pos_succ k P : ok P -> point_mul_pos p a (Pos.succ k) P = add (point_mul_pos p a k P) P.
  Proof using Pp P2 NS.
    intros O. induction k as [k IH|k IH|]; cbn [Pos.succ point_mul_pos]; [|reflexivity|reflexivity].
    pose proof (mul_pos_ok k P O) as Ok'. rewrite IH. set (Q := point_mul_pos p a k P) in *.
    assert (ok (add Q Q)) as O2 by now apply add_ok. assert (ok (add Q P)) as O3 by now apply add_ok.
    rewrite (add_assoc Q P (add Q P)) by assumption. rewrite (add_assoc (add Q Q) P P); [|assumption..].
    rewrite (add_assoc Q Q (add P P)) by (try assumption; now apply add_ok). f_equal.
    rewrite (add_comm Q P) by assumption. rewrite <- (add_assoc P P Q) by assumption. apply add_comm; [now apply add_ok|assumption].
  Qed.
  Lemma mul_pos_add j k P : ok P -> point_mul_pos p a (j + k) P = add (point_mul_pos p a j P) (point_mul_pos p a k P).
  Proof using Pp P2 NS.
    intros O. revert j. induction k as [|k IH] using Pos.peano_ind; intros j.
    - rewrite Pos.add_1_r. now apply mul_pos_succ.
    - rewrite Pos.add_succ_r, !mul_pos_succ, IH by assumption. apply add_assoc; [now apply mul_pos_ok|now apply mul_pos_ok|assumption].
  Qed.
  Lemma mul_add j k P : 0 <= j -> 0 <= k -> ok P -> mul (j + k) P = add (mul j P) (mul k P).
  Proof using Pp P2 NS.
    intros J K O. destruct j as [|j|j]; [reflexivity| |lia]. destruct k as [|k|k]; [now rewrite Z.add_0_r, add_0_r| |lia]. cbn [Z.add point_mul]. now apply mul_pos_add.
  Qed.
  Lemma mul_pos_none k : point_mul_pos p a k None = None.
  Proof using Type. clear. induction k as [k IH|k IH|]; cbn [point_mul_pos]; rewrite ?IH; reflexivity. Qed.
  Lemma mul_none k : mul k None = None.
  Proof using Type. clear. destruct k; [reflexivity|apply mul_pos_none|reflexivity]. Qed.
  Lemma mul_mul j k P : 0 <= j -> 0 <= k -> ok P -> mul (j * k) P = mul j (mul k P).
  Proof using Pp P2 NS.
    intros J K O. destruct (Z.eq_dec j 0) as [->|J0]; [reflexivity|]. pattern j. apply natlike_ind; [reflexivity| |assumption]. intros i I IH.
    replace (Z.succ i * k) with (i * k + k) by ring. rewrite mul_add by (try assumption; nia). rewrite IH. replace (Z.succ i) with (i + 1) by ring.
    rewrite mul_add; [reflexivity|assumption|lia|now apply mul_ok].
  Qed.
  Lemma mul_neg k P : ok P -> neg (mul k P) = mul k (neg P).
  Proof using Pp P2.
    clear NS. intros O. destruct k as [|k|k]; [reflexivity| |reflexivity]. cbn [point_mul]. induction k as [k IH|k IH|]; cbn [point_mul_pos]; [| |reflexivity].
    - pose proof (mul_pos_ok k P O). rewrite !neg_add, IH; try assumption; [reflexivity|now apply add_ok].
    - pose proof (mul_pos_ok k P O). rewrite neg_add, IH by assumption. reflexivity.
  Qed.
  Lemma mul_order n P k : 0 < n -> 0 <= k -> ok P -> mul n P = None -> mul (k mod n) P = mul k P.
  Proof using Pp P2 NS.
    intros N K O E. assert (0 <= k / n) by (apply Z.div_pos; lia). pose proof (Z.mod_pos_bound k n N) as B.
    rewrite (Z.div_mod k n) at 2 by lia. rewrite mul_add by (try assumption; try lia; nia).
    rewrite (Z.mul_comm n (k / n)), mul_mul by (try assumption; lia). rewrite E, mul_none. reflexivity.
  Qed.

  (** ** Multiples from given slopes, with a faster reduction [red] *)
  Context (red : Z -> Z) (RED : forall x, red x = x mod p).
  Definition fast_third (l x1 y1 x2 : Z) : point := let x3 := red (Z.square l - x1 - x2) in Some (x3, red (l * (x1 - x3) - y1)).
  Definition fast_double (l : Z) (q : Z * Z) : option (Z * Z) :=
    let (x, y) := q in
    if (red (l * (2 * y) - (3 * Z.square x + a)) =? 0) && negb (y =? 0) then fast_third l x y x else None.
  Definition fast_add (l : Z) (q g : Z * Z) : option (Z * Z) :=
    let (x1, y1) := q in let (x2, y2) := g in
    if (red (l * (x2 - x1) - (y2 - y1)) =? 0) && negb (x1 =? x2) then fast_third l x1 y1 x2 else None.
  Fixpoint chain (ls : list (Z * option Z)) (g q : Z * Z) (k : Z) : option (Z * Z) * Z :=
    match ls with
    | [] => (Some q, k)
    | (l1, o) :: ls' =>
        match fast_double l1 q with
        | None => (None, 0)
        | Some q1 =>
            match o with
            | None => chain ls' g q1 (2 * k)
            | Some l2 => match fast_add l2 q1 g with None => (None, 0) | Some q2 => chain ls' g q2 (2 * k + 1) end
            end
        end
    end.
  Lemma mod0_div x : (x mod p =? 0) = true -> (p | x).
  Proof using P2. clear NS RED red. intros H. apply Z.eqb_eq in H. apply Z.mod_divide; [lia|exact H]. Qed.
  Lemma fast_third_eq l x1 y1 x2 : fast_third l x1 y1 x2 = third p l x1 y1 x2.
  Proof using RED. clear NS. unfold fast_third, third. now rewrite !RED, Z.square_spec. Qed.
  Lemma fast_double_ok l q r : ok (Some q) -> fast_double l q = Some r -> add (Some q) (Some q) = Some r.
  Proof using Pp P2 RED.
    clear NS. intros O. destruct q as [x y]. unfold fast_double. rewrite RED, fast_third_eq, Z.square_spec.
    destruct ((l * (2 * y) - (3 * (x * x) + a)) mod p =? 0) eqn:E1; [|discriminate].
    destruct (y =? 0) eqn:E2; [discriminate|]. cbn [andb negb]. intros <-. apply add_by; [assumption..| |].
    - intros [_ C]. apply Z.eqb_neq in E2. apply E2. destruct O as (_ & Y & _). apply cg_eq; [exact Y|lia|]. unfold cg. rewrite Z.sub_0_r.
      apply (cancel 2); [apply two_not|]. now replace (2 * y) with (y + y) by ring.
    - apply mod0_div in E1. split; [apply (of_ring 0); [apply Z.divide_0_r|ring]|]. eapply of_ring; [exact E1|ring].
  Qed.
  Lemma fast_add_ok l q g r : ok (Some q) -> ok (Some g) -> fast_add l q g = Some r -> add (Some q) (Some g) = Some r.
  Proof using Pp P2 RED.
    clear NS. intros O1 O2. destruct q as [x1 y1], g as [x2 y2]. unfold fast_add. rewrite RED, fast_third_eq.
    destruct ((l * (x2 - x1) - (y2 - y1)) mod p =? 0) eqn:E1; [|discriminate].
    destruct (x1 =? x2) eqn:E2; [discriminate|]. cbn [andb negb]. intros <-. apply mod0_div in E1.
    assert (~ (p | x2 - x1)) as N.
    { intros C. apply Z.eqb_neq in E2. apply E2. destruct O1 as (X1 & _). destruct O2 as (X2 & _). symmetry. now apply cg_eq. }
    apply add_by; [assumption..| |].
    - intros [C _]. apply N. now apply cg_sym.
    - split; [exact E1|]. apply (cancel (x2 - x1)); [exact N|]. destruct O1 as (_ & _ & C1). destruct O2 as (_ & _ & C2). unfold curve, cg in C1, C2.
      replace ((x2 - x1) * (l * (y1 + y2) - (x1 * x1 + x1 * x2 + x2 * x2 + a))) with
        ((y1 + y2) * (l * (x2 - x1) - (y2 - y1)) + ((y2 * y2 - (x2 * x2 * x2 + a * x2 + b)) - (y1 * y1 - (x1 * x1 * x1 + a * x1 + b)))) by ring.
      apply da; [now apply dm|now apply ds].
  Qed.
  Lemma chain_ok g : ok (Some g) -> forall ls q k r k', 0 <= k -> mul k (Some g) = Some q -> chain ls g q k = (Some r, k') -> mul k' (Some g) = Some r /\ 0 <= k'.
  Proof using Pp P2 NS RED.
    intros O. induction ls as [|[l1 o] ls IH]; intros q k r k' K M C; cbn [chain] in C; [injection C as <- <-; auto|].
    assert (ok (Some q)) as Oq by (rewrite <- M; now apply mul_ok).
    destruct (fast_double l1 q) as [q1|] eqn:D; [|discriminate]. apply fast_double_ok in D; [|assumption].
    assert (mul (2 * k) (Some g) = Some q1) as M1 by (replace (2 * k) with (k + k) by ring; rewrite mul_add, M by assumption; exact D).
    destruct o as [l2|]; [|exact (IH q1 (2 * k) r k' ltac:(lia) M1 C)].
    assert (ok (Some q1)) as Oq1 by (rewrite <- M1; now apply mul_ok).
    destruct (fast_add l2 q1 g) as [q2|] eqn:A; [|discriminate]. apply fast_add_ok in A; [|assumption..].
    refine (IH q2 (2 * k + 1) r k' ltac:(lia) _ C). rewrite mul_add by (try assumption; lia). rewrite M1. exact A.
  Qed.
End Curve.
