(** * C83 without bounds: for all capacities, settings and histories, which calls panic and that all others answer as a map. *)
From Coq Require Import ZArith QArith Qround Qabs Bool Lia Lqa List Permutation.
From Verif Require Import Base BaseProofs AVLModel MapSpec MapProofs AVLProps HashModel HashSpec HashProofs HashProps.
From Verif Require Import F32Model F32Proofs F32HashProofs F32Props.
Import ListNotations.
Local Open Scope Z_scope.

(** The remainder by uint32(capacity) cannot be taken. *)
Definition undividable (c : Z) : Prop := c mod 2 ^ 32 = 0.
(** [pol] chooses a new number of slots that is undividable. *)
Definition bad_choice (d : option Z) : Prop := exists n, d = Some n /\ undividable (Z.max 10 n).
(** When a call made after the history [h], with [s] entries in [c] slots, must take such a remainder. *)
Definition blocked {K V} (eqv : K -> K -> Prop) (pol : policy) (h : list (mop K V)) (s c : Z) (op : mop K V) : Prop :=
  undividable c \/
  match op with
  | MPut k _ => entry_at eqv h k None /\ bad_choice (after_put pol (s + 1) c)
  | MRemove k => (exists e, entry_at eqv h k (Some e)) /\ 1 < s /\ bad_choice (after_remove pol (s - 1) c)
  | MGet _ => False
  end.
(** The number of entries and of slots after a call that returns. *)
Definition size_after {K V} (s : Z) (op : mop K V) (o : option (K * V)) : Z :=
  match op, o with MPut _ _, None => s + 1 | MRemove _, Some _ => s - 1 | _, _ => s end.
Definition slots_after {K V} (pol : policy) (s c : Z) (op : mop K V) (o : option (K * V)) : Z :=
  let chosen d := match d with None => c | Some n => Z.max 10 n end in
  match op, o with
  | MPut _ _, None => chosen (after_put pol (s + 1) c)
  | MRemove _, Some _ => chosen (after_remove pol (s - 1) c)
  | _, _ => c
  end.

Section Step.
  Context {K V : Type} (equalb : K -> K -> res bool) (hashf : K -> res N).
  Context (D : K -> Prop) (eqv : K -> K -> Prop) (HK : hash_keys D eqv equalb hashf).
  Context (pol : policy).

  Definition never : policy := {| after_put := fun _ _ => None; after_remove := fun _ _ => None |}.
  Definition decision (op : mop K V) (o : option (K * V)) (s c : Z) : option Z :=
    match op, o with
    | MPut _ _, None => after_put pol s c
    | MRemove _, Some _ => after_remove pol s c
    | _, _ => None
    end.

  Lemma clamp_max n : clamp n = Z.max 10 n.
  Proof using Type. clear. unfold clamp, min_capacity. destruct (Z.ltb_spec n 10); lia. Qed.
  Lemma cap_dividable n : 0 <= n -> (cap_ok (Z.to_nat n) <-> ~ undividable n).
  Proof using Type.
    clear. intros H. unfold cap_ok, undividable, two32. pose proof (Z.mod_pos_bound n (2 ^ 32) ltac:(lia)) as B.
    assert ((N.of_nat (Z.to_nat n) mod 4294967296)%N = Z.to_N (n mod 2 ^ 32)) as E.
    { replace (N.of_nat (Z.to_nat n)) with (Z.to_N n) by lia. change 4294967296%N with (Z.to_N (2 ^ 32)). rewrite <- Z2N.inj_mod by lia. reflexivity. }
    change (2 ^ 32)%N with 4294967296%N. rewrite E. lia.
  Qed.
  Lemma cap_length (arr : list (list (K * V))) : cap_ok (length arr) <-> ~ undividable (zlen arr).
  Proof using Type. clear. rewrite <- cap_dividable by (unfold zlen; lia). unfold zlen. rewrite Nat2Z.id. tauto. Qed.

  (** A call is the call without resizing, then the resizing. *)
  Lemma step_resize (t t1 : hash K V) op o : hash_step equalb hashf never t op = Ok (t1, o) ->
    hash_step equalb hashf pol t op =
      (let? arr := maybe_resize hashf (decision op o (h_size t1) (zlen (h_array t1))) (h_array t1) in Ok (mk_hash arr (h_size t1), o)).
  Proof using Type.
    clear HK. destruct op as [k v|k|k]; cbn [hash_step].
    - unfold hash_put. destruct (slot hashf (h_array t) k) as [i| |]; cbn [rbind]; try discriminate.
      destruct (bucket (h_array t) i) as [c| |]; cbn [rbind]; try discriminate.
      destruct (chain_replace equalb c k v) as [[[old c']|]| |]; cbn [rbind]; try discriminate.
      + intros E. injection E as <- <-. cbn [decision maybe_resize rbind h_array h_size]. reflexivity.
      + cbn [never after_put maybe_resize rbind]. intros E. injection E as <- <-. cbn [decision h_array h_size]. reflexivity.
    - unfold hash_remove. destruct (slot hashf (h_array t) k) as [i| |]; cbn [rbind]; try discriminate.
      destruct (bucket (h_array t) i) as [c| |]; cbn [rbind]; try discriminate.
      destruct (chain_remove equalb c k) as [[[old c']|]| |]; cbn [rbind]; try discriminate.
      + cbn [never after_remove maybe_resize rbind]. intros E. injection E as <- <-. cbn [decision h_array h_size]. reflexivity.
      + intros E. injection E as <- <-. cbn [decision maybe_resize rbind]. now destruct t.
    - destruct (hash_get equalb hashf t k) as [n| |]; cbn [rbind]; try discriminate. intros E. injection E as <- <-.
      cbn [decision maybe_resize rbind]. now destruct t.
  Qed.
  Lemma step_undividable (t : hash K V) op : D (op_key op) -> undividable (zlen (h_array t)) -> hash_step equalb hashf pol t op = Panic.
  Proof.
    intros Dk U. assert (slot hashf (h_array t) (op_key op) = Panic) as S.
    { unfold slot. destruct (hk_hash _ _ _ _ HK (op_key op) Dk) as [x ->]. cbn [rbind].
      destruct (N.eqb_spec (N.of_nat (length (h_array t)) mod two32) 0) as [E|E]; [reflexivity|]. exfalso. exact (proj1 (cap_length _) E U). }
    destruct op as [k v|k|k]; cbn [hash_step op_key] in *; unfold hash_put, hash_remove, hash_get; rewrite S; reflexivity.
  Qed.
  Lemma resize_bad (arr : list (list (K * V))) n : dom D (concat arr) -> concat arr <> [] -> ~ undividable (zlen arr) -> undividable (Z.max 10 n) ->
    resize hashf arr n = Panic.
  Proof.
    intros Hd NE U B. unfold resize. fold (clamp n). rewrite clamp_max. destruct (Z.eqb_spec (zlen arr) (Z.max 10 n)) as [E|E]; [congruence|].
    destruct (concat arr) as [|[k v] nodes]; [congruence|]. cbn [rehash]. apply Forall_cons_iff in Hd. destruct Hd as [Dk _]. cbn [fst] in Dk.
    unfold slot. destruct (hk_hash _ _ _ _ HK k Dk) as [x ->]. cbn [rbind]. rewrite repeat_length.
    destruct (N.eqb_spec (N.of_nat (Z.to_nat (Z.max 10 n)) mod two32) 0) as [E0|E0]; [reflexivity|]. exfalso.
    exact (proj1 (cap_dividable (Z.max 10 n) ltac:(lia)) E0 B).
  Qed.

  Lemma step_exact h (t : hash K V) op : D (op_key op) -> hash_inv hashf D eqv h t ->
    (blocked eqv pol h (h_size t) (zlen (h_array t)) op /\ hash_step equalb hashf pol t op = Panic) \/
    (~ blocked eqv pol h (h_size t) (zlen (h_array t)) op /\
     exists t' o, hash_step equalb hashf pol t op = Ok (t', o) /\ hash_inv hashf D eqv (h ++ [op]) t' /\ entry_at eqv h (op_key op) o /\
       zlen (h_array t') = slots_after pol (h_size t) (zlen (h_array t)) op o /\ h_size t' = size_after (h_size t) op o).
  Proof.
    intros Dk Hi. destruct (Z.eq_dec (zlen (h_array t) mod 2 ^ 32) 0) as [U|U].
    { left. split; [left; exact U|now apply step_undividable]. }
    destruct (hash_step_ok equalb hashf never D eqv HK h t op Dk Hi (proj2 (cap_length _) U)) as (t1 & o & H1 & Hi1 & He & Hc);
      [intros n [C|C]; discriminate|].
    rewrite (step_resize t t1 op o H1). destruct Hi1 as (Hd & Hx & P & Hs & Hh).
    assert (zlen (h_array t1) = zlen (h_array t)) as Ez.
    { destruct op as [k v|k|k], o as [e|]; apply pair_equal_spec in Hc; exact (proj2 Hc). }
    assert (h_size t1 = size_after (h_size t) op o) as Ea.
    { destruct op as [k v|k|k], o as [e|]; apply pair_equal_spec in Hc; exact (proj1 Hc). }
    assert (~ undividable (zlen (h_array t1))) as U1 by (rewrite Ez; exact U).
    set (d := decision op o (h_size t1) (zlen (h_array t1))) in *.
    assert (slots_after pol (h_size t) (zlen (h_array t)) op o = match d with None => zlen (h_array t) | Some n => Z.max 10 n end) as Es.
    { unfold d, slots_after. destruct op as [k v|k|k], o as [e|]; apply pair_equal_spec in Hc; destruct Hc as [E1 _]; cbn [decision]; rewrite ?E1, ?Ez; reflexivity. }
    assert (blocked eqv pol h (h_size t) (zlen (h_array t)) op <-> concat (h_array t1) <> [] /\ bad_choice d) as Eb.
    { assert (concat (h_array t1) <> [] <-> 0 < h_size t1) as NE.
      { rewrite Hs. destruct (concat (h_array t1)) as [|x l]; unfold zlen; cbn [length]; split; intros H; try congruence; try lia. }
      rewrite NE. unfold blocked. unfold d. split.
      - intros [C|B]; [contradiction|]. destruct op as [k v|k|k]; [| |contradiction].
        + destruct B as (E0 & B). destruct o as [[k0 v0]|].
          * exfalso. cbn [entry_at op_key] in *. destruct He as [E1 E2]. exact (E0 _ _ E1 E2).
          * apply pair_equal_spec in Hc. destruct Hc as [E1 E2]. cbn [decision]. rewrite E1, Ez. split; [|exact B].
            destruct Hi as (_ & _ & _ & S0 & _). rewrite S0. unfold zlen. lia.
        + destruct B as ((e & E0) & S1 & B). destruct o as [e'|].
          * apply pair_equal_spec in Hc. destruct Hc as [E1 E2]. cbn [decision]. rewrite E1, Ez. split; [lia|exact B].
          * exfalso. destruct e as [k0 v0]. cbn [entry_at op_key] in *. destruct E0 as [E1 E2]. exact (He _ _ E1 E2).
      - intros [S1 B]. right. destruct op as [k v|k|k], o as [e|]; cbn [decision] in B; try (destruct B as (n & C & _); discriminate);
          apply pair_equal_spec in Hc; destruct Hc as [E1 E2]; rewrite E1, Ez in B; rewrite E1 in S1.
        + split; [exact He|exact B].
        + split; [exists e; exact He|]. split; [lia|exact B]. }
    destruct d as [n|].
    - destruct (Z.eq_dec (Z.max 10 n mod 2 ^ 32) 0) as [B|B].
      + destruct (concat (h_array t1)) as [|x l] eqn:Ec.
        * (* nothing to move *)
          right. split; [intros C; apply Eb in C; destruct C as [C _]; congruence|]. cbn [maybe_resize]. unfold resize. fold (clamp n). rewrite clamp_max, Ec.
          destruct (Z.eqb_spec (zlen (h_array t1)) (Z.max 10 n)) as [E|E]; [rewrite E in U1; contradiction|]. cbn [rehash rbind].
          do 2 eexists. split; [reflexivity|]. cbn [h_array h_size]. split; [|split; [exact He|]].
          -- unfold hash_inv. cbn [h_array h_size]. rewrite concat_repeat_nil. split; [constructor|]. split; [constructor|].
             split; [apply placed_empty|]. split; [rewrite Hs; reflexivity|]. exact Hh.
          -- split; [|exact Ea]. rewrite Es. unfold zlen. rewrite repeat_length. lia.
        * left. split; [apply Eb; split; [congruence|exists n; split; [reflexivity|exact B]]|]. cbn [maybe_resize].
          rewrite resize_bad; [reflexivity| | |exact U1|exact B]; rewrite Ec; [exact Hd|discriminate].
      + right. split; [intros C; apply Eb in C; destruct C as (_ & n' & E & C); injection E as <-; contradiction|].
        destruct (resize_ok equalb hashf D eqv HK (h_array t1) n Hd P) as (arr & R & L & P' & Pm).
        { rewrite clamp_max. apply cap_dividable; [lia|exact B]. }
        cbn [maybe_resize]. rewrite R. cbn [rbind]. do 2 eexists. split; [reflexivity|]. split; [|split; [exact He|split; [rewrite Es, <- clamp_max; exact L|exact Ea]]].
        unfold hash_inv. cbn [h_array h_size]. split; [exact (dom_perm D _ _ (Permutation_sym Pm) Hd)|].
        split; [eapply (distinct_perm equalb hashf D eqv HK); [apply Permutation_sym, Pm|exact Hx]|]. split; [exact P'|].
        split; [rewrite Hs; symmetry; apply zlen_perm, Pm|]. exact (holds_perm eqv _ _ _ (Permutation_sym Pm) Hh).
    - right. split; [intros C; apply Eb in C; destruct C as (_ & n' & E & _); discriminate|]. cbn [maybe_resize rbind].
      do 2 eexists. split; [reflexivity|]. cbn [h_array h_size]. split; [|split; [exact He|split; [rewrite Es; exact Ez|exact Ea]]].
      split; [exact Hd|]. split; [exact Hx|]. split; [exact P|]. split; [exact Hs|exact Hh].
  Qed.
End Step.

Lemma run_inv {K V} (equalb : K -> K -> res bool) (hashf : K -> res N) (D : K -> Prop) (eqv : K -> K -> Prop) pol :
  hash_keys D eqv equalb hashf -> forall (ops h : list (mop K V)) t t' os, Forall (fun op => D (op_key op)) ops -> hash_inv hashf D eqv h t ->
  hash_run equalb hashf pol t ops = Ok (t', os) -> hash_inv hashf D eqv (h ++ ops) t' /\ answers eqv h ops os.
Proof.
  intros HK. induction ops as [|op ops IH]; intros h t t' os F Hi R; cbn [hash_run] in R.
  - inv R. rewrite app_nil_r. split; [exact Hi|constructor].
  - apply Forall_cons_iff in F. destruct F as [Dk F].
    destruct (step_exact equalb hashf D eqv HK pol h t op Dk Hi) as [(_ & E) | (_ & t1 & o & E & Hi1 & He & _)]; rewrite E in R; cbn [rbind] in R; [discriminate|].
    destruct (hash_run equalb hashf pol t1 ops) as [[t2 os2]| |] eqn:R1; cbn [rbind] in R; try discriminate. inv R.
    destruct (IH (h ++ [op]) t1 t' os2 F Hi1 R1) as [Hi2 A]. rewrite <- app_assoc in Hi2. split; [exact Hi2|now constructor].
Qed.
(** Whatever the capacity, the settings, the machine's int(NaN) and the length of the history: the answers of all calls that return
    are those of a map, and the table holds the entries of the map. *)
Theorem C83_history : forall {K V : Type} (equalb : K -> K -> res bool) (hashf : K -> res N)
    (D : K -> Prop) (eqv : K -> K -> Prop) (nan c : Z) (lf m : f32) (ops : list (mop K V)) t os,
  hash_keys D eqv equalb hashf -> Forall (fun op => D (op_key op)) ops ->
  hash_run equalb hashf (float_policy nan lf m) (new_hash c) ops = Ok (t, os) ->
  answers eqv [] ops os /\ lists_entries eqv ops (concat (h_array t)) /\ h_size t = zlen (concat (h_array t)).
Proof.
  intros K V equalb hashf D eqv nan c lf m ops t os HK F R.
  destruct (run_inv equalb hashf D eqv _ HK ops [] _ _ _ F (hash_inv_new hashf D eqv c) R) as [Hi A]. cbn [app] in Hi. apply inv_lists in Hi. tauto.
Qed.
Print Assumptions C83_history.
(** After any history, the next call panics exactly if it must take a remainder by a multiple of 2^32; otherwise it returns, and
    the number of slots afterwards is the one given. *)
Theorem C83_panic_exact : forall {K V : Type} (equalb : K -> K -> res bool) (hashf : K -> res N)
    (D : K -> Prop) (eqv : K -> K -> Prop) (nan c : Z) (lf m : f32) (ops : list (mop K V)) op t os,
  hash_keys D eqv equalb hashf -> Forall (fun op => D (op_key op)) (ops ++ [op]) ->
  hash_run equalb hashf (float_policy nan lf m) (new_hash c) ops = Ok (t, os) ->
  let pol := float_policy nan lf m in
  (blocked eqv pol ops (h_size t) (zlen (h_array t)) op /\ hash_step equalb hashf pol t op = Panic) \/
  (~ blocked eqv pol ops (h_size t) (zlen (h_array t)) op /\ exists t' o, hash_step equalb hashf pol t op = Ok (t', o) /\
     entry_at eqv ops (op_key op) o /\ zlen (h_array t') = slots_after pol (h_size t) (zlen (h_array t)) op o /\
     h_size t' = size_after (h_size t) op o).
Proof.
  intros K V equalb hashf D eqv nan c lf m ops op t os HK F R pol. apply Forall_app in F. destruct F as [F Fo]. inversion Fo as [|x l Dk _]. subst.
  destruct (run_inv equalb hashf D eqv _ HK ops [] _ _ _ F (hash_inv_new hashf D eqv c) R) as [Hi _]. cbn [app] in Hi.
  destruct (step_exact equalb hashf D eqv HK pol ops t op Dk Hi) as [H | (H & t' & o & E & _ & He & Hz)]; [left; exact H|].
  right. split; [exact H|]. exists t', o. auto.
Qed.
Print Assumptions C83_panic_exact.

(** Growing can lead there too: 2^31 slots, load factor 1/2 and multiplier 2. Storing 2^30 different keys always panics. *)
Lemma puts_S n : puts (S n) = puts n ++ [MPut (Z.of_nat n) n].
Proof. unfold puts. rewrite seq_S, map_app. reflexivity. Qed.
Lemma puts_keys n k v : In (MPut k v) (puts n) -> 0 <= k < Z.of_nat n.
Proof.
  induction n as [|n IH]; intros H; [destruct H|]. rewrite puts_S in H. apply in_app_iff in H. destruct H as [H|[H|[]]]; [specialize (IH H); lia|].
  inv H. lia.
Qed.
Lemma hash_run_app {K V} equalb hashf pol (a : list (mop K V)) : forall b t,
  hash_run equalb hashf pol t (a ++ b) =
  (let? (t1, os1) := hash_run equalb hashf pol t a in let? (t2, os2) := hash_run equalb hashf pol t1 b in Ok (t2, os1 ++ os2)).
Proof.
  induction a as [|op a IH]; intros b t.
  - cbn [app hash_run rbind]. destruct (hash_run equalb hashf pol t b) as [[t2 os2]| |]; reflexivity.
  - cbn [app hash_run]. destruct (hash_step equalb hashf pol t op) as [[t1 o]| |]; cbn [rbind]; [|reflexivity..]. rewrite IH.
    destruct (hash_run equalb hashf pol t1 a) as [[t2 os2]| |]; cbn [rbind]; [|reflexivity..].
    destruct (hash_run equalb hashf pol t2 b) as [[t3 os3]| |]; reflexivity.
Qed.
Definition doubling (nan : Z) : policy := float_policy nan (FVal (1 # 2)) (FVal 2).
Lemma doubling_choice nan s : after_put (doubling nan) s (2 ^ 31) = None \/ after_put (doubling nan) s (2 ^ 31) = Some (2 ^ 32).
Proof.
  unfold doubling. cbn [after_put float_policy].
  assert (clamp_load (FVal (1 # 2)) = FVal (1 # 2)) as -> by (vm_compute; reflexivity).
  assert (clamp_multiplier (FVal 2) = FVal 2) as -> by (vm_compute; reflexivity).
  unfold float_put. destruct (Qle_bool (1 # 2) _); [right|left; reflexivity].
  assert (Qfloor (round 24 (of_int (2 ^ 31) * 2)) = 2 ^ 32) as -> by (vm_compute; reflexivity). reflexivity.
Qed.
Lemma doubling_grows nan : after_put (doubling nan) (2 ^ 30) (2 ^ 31) = Some (2 ^ 32).
Proof.
  destruct (doubling_choice nan (2 ^ 30)) as [E|E]; [|exact E]. exfalso. revert E. unfold doubling. cbn [after_put float_policy].
  assert (clamp_load (FVal (1 # 2)) = FVal (1 # 2)) as -> by (vm_compute; reflexivity).
  unfold float_put. assert (Qle_bool (1 # 2) (round 24 (of_int (2 ^ 30) / of_int (2 ^ 31))) = true) as -> by (vm_compute; reflexivity). discriminate.
Qed.
Lemma puts_dom n : Forall (fun op : mop Z nat => (fun _ : Z => True) (op_key op)) (puts n).
Proof. apply Forall_forall. intros x _. exact Logic.I. Qed.
Lemma puts_fresh n : entry_at eq (puts n) (Z.of_nat n) None.
Proof.
  intros k v <- (h1 & h2 & E & _). assert (In (MPut (Z.of_nat n) v) (puts n)) as I by (rewrite E; apply in_app_iff; right; left; reflexivity).
  apply puts_keys in I. lia.
Qed.
Lemma puts_run nan n : Z.of_nat n <= 2 ^ 30 ->
  hash_run z_equal z_hash (doubling nan) (new_hash (2 ^ 31)) (puts n) = Panic \/
  (Z.of_nat n < 2 ^ 30 /\ exists t os, hash_run z_equal z_hash (doubling nan) (new_hash (2 ^ 31)) (puts n) = Ok (t, os) /\
   h_size t = Z.of_nat n /\ zlen (h_array t) = 2 ^ 31).
Proof.
  induction n as [|n IH]; intros H.
  - right. split; [lia|]. destruct (new_size (K := Z) (V := nat) (2 ^ 31)) as [S0 C0]. exists (new_hash (2 ^ 31)), []. split; [reflexivity|].
    split; [exact S0|]. rewrite C0. reflexivity.
  - rewrite puts_S, hash_run_app. destruct (IH ltac:(lia)) as [-> | (Hn & t & os & R & S & C)]; [left; reflexivity|].
    pose proof (C83_panic_exact z_equal z_hash (fun _ => True) eq nan (2 ^ 31) (FVal (1 # 2)) (FVal 2) (puts n) (MPut (Z.of_nat n) n) t os z_hash_keys
      (eq_ind _ (Forall (fun _ => True)) (puts_dom (Datatypes.S n)) _ (puts_S n)) R) as X. cbv zeta in X. fold (doubling nan) in X. rewrite S, C in X. rewrite R. cbn [rbind hash_run].
    destruct (doubling_choice nan (Z.of_nat n + 1)) as [Ed|Ed].
    + right. assert (Z.of_nat (Datatypes.S n) < 2 ^ 30) as Hlt.
      { destruct (Z.eq_dec (Z.of_nat (Datatypes.S n)) (2 ^ 30)) as [E|E]; [|lia]. exfalso. replace (Z.of_nat n + 1) with (2 ^ 30) in Ed by lia.
        rewrite doubling_grows in Ed. discriminate. }
      split; [exact Hlt|]. destruct X as [(B & _) | (_ & t' & o & E & He & Z' & S')].
      * exfalso. destruct B as [B | (_ & N & EN & _)]; [discriminate B|]. rewrite Ed in EN. discriminate EN.
      * cbn [op_key] in He. destruct o as [[k v]|].
        { exfalso. destruct He as [Ek Es]. exact (puts_fresh n k v Ek Es). }
        exists t', (os ++ [None]). rewrite E. cbn [rbind]. split; [reflexivity|].
        cbn [slots_after] in Z'. rewrite Ed in Z'. split; [|exact Z']. rewrite S'. cbn [size_after]. lia.
    + left. destruct X as [(_ & E) | (NB & _)]; [rewrite E; reflexivity|]. exfalso. apply NB. right. split; [apply puts_fresh|].
      exists (2 ^ 32). split; [exact Ed|reflexivity].
Qed.
Theorem C83_growth_refuted : forall nan n, Z.of_nat n = 2 ^ 30 ->
  hash_run z_equal z_hash (float_policy nan (FVal (1 # 2)) (FVal 2)) (new_hash (2 ^ 31)) (puts n) = Panic.
Proof. intros nan n E. destruct (puts_run nan n ltac:(lia)) as [H | (H & _)]; [exact H|lia]. Qed.
Print Assumptions C83_growth_refuted.
Example C83_growth_refuted_applies : exists n, Z.of_nat n = 2 ^ 30.
Proof. exists (Z.to_nat (2 ^ 30)). apply Z2Nat.id. discriminate. Qed.
(** 2^32 + 1 slots, which no other theorem covers: the first calls return. *)
Example C83_panic_exact_applies : forall nan,
  ~ blocked eq (float_policy nan default_load default_multiplier) [] 0 (2 ^ 32 + 1) (@MGet Z nat 5) /\
  blocked eq (float_policy nan default_load default_multiplier) [] 0 (2 ^ 33) (@MGet Z nat 5).
Proof. intros nan. split; [|left; reflexivity]. intros [H|H]; [discriminate H|exact H]. Qed.
(** A history whose answers are found by running the table. *)
Example C83_history_applies :
  exists t os, hash_run z_equal z_hash (float_policy 0 (FVal (3 # 4)) (FVal (3 # 2))) (new_hash 12) (puts 14 ++ [MRemove 3; MGet 3; MGet 4]) = Ok (t, os) /\
    h_size t = 13 /\ zlen (h_array t) = 27 /\ skipn 14 os = [Some (3, 3%nat); None; Some (4, 4%nat)].
Proof. do 2 eexists. split; [vm_compute; reflexivity|]. split; [|split]; vm_compute; reflexivity. Qed.

(** ** C84 without bounds *)
Lemma run_load {K V} (equalb : K -> K -> res bool) (hashf : K -> res N) (D : K -> Prop) (eqv : K -> K -> Prop) (nan : Z) (lf m : f32) l mu :
  hash_keys D eqv equalb hashf -> clamp_load lf = FVal l -> clamp_multiplier m = FVal mu ->
  ((1 # 2) <= l)%Q -> (l <= 1)%Q -> (round 24 l == l)%Q -> (6 # 5 <= mu)%Q -> (mu <= 5)%Q ->
  forall (ops h : list (mop K V)) t t' os, Forall (fun op => D (op_key op)) ops -> hash_inv hashf D eqv h t ->
  10 <= zlen (h_array t) -> load_in l (h_size t) (zlen (h_array t)) ->
  hash_run equalb hashf (float_policy nan lf m) t ops = Ok (t', os) ->
  10 <= zlen (h_array t') /\ load_in l (h_size t') (zlen (h_array t')).
Proof.
  intros HK EL EM L1 L2 L3 M1 M2.
  assert (Pp : forall s cp, after_put (float_policy nan lf m) s cp = float_put 0 (FVal l) (FVal mu) s cp)
    by (intros; cbn [after_put float_policy]; now rewrite EL, EM).
  assert (Pr : forall s cp, after_remove (float_policy nan lf m) s cp = float_remove (FVal l) (FVal mu) s cp)
    by (intros; cbn [after_remove float_policy]; now rewrite EL, EM).
  induction ops as [|op ops IH]; intros h t t' os F Hi H10 HL R; cbn [hash_run] in R; [inv R; auto|].
  apply Forall_cons_iff in F. destruct F as [Dk F].
  destruct (step_exact equalb hashf D eqv HK (float_policy nan lf m) h t op Dk Hi) as [(_ & E) | (_ & t1 & o & E & Hi1 & He & Hz & Hs)];
    rewrite E in R; cbn [rbind] in R; [discriminate|].
  destruct (hash_run equalb hashf (float_policy nan lf m) t1 ops) as [[t2 os2]| |] eqn:R1; cbn [rbind] in R; try discriminate. inv R.
  assert (Hsz : h_size t = zlen (concat (h_array t))) by apply Hi.
  assert (S0 : 0 <= h_size t) by (rewrite Hsz; unfold zlen; lia).
  apply (IH (h ++ [op]) t1 t' os2 F Hi1); [| |exact R1]; rewrite Hz, ?Hs.
  - unfold slots_after. destruct op as [k v|k|k], o as [e|]; try assumption.
    + destruct (after_put _ _ _); lia.
    + destruct (after_remove _ _ _); lia.
  - unfold slots_after, size_after. destruct op as [k v|k|k], o as [e|]; try assumption.
    + rewrite Pp. pose proof (put_load l mu (conj L1 L2) L3 (conj M1 M2) (h_size t) (zlen (h_array t)) H10 S0 HL) as Q.
      unfold next_cap in Q. destruct (float_put _ _ _ _ _) as [n|]; [rewrite clamp_max in Q|]; exact Q.
    + assert (1 <= h_size t) as S1.
      { destruct e as [k0 v0]. cbn [entry_at op_key] in He. destruct He as [_ He]. destruct Hi as (_ & _ & _ & _ & Hh). apply Hh in He.
        rewrite Hsz. destruct (concat (h_array t)); [destruct He|unfold zlen; cbn [length]; lia]. }
      rewrite Pr. pose proof (remove_load l mu (conj L1 L2) (conj M1 M2) (h_size t) (zlen (h_array t)) H10 S1 HL) as Q.
      unfold next_cap in Q. destruct (float_remove _ _ _ _) as [n|]; [rewrite clamp_max in Q|]; exact Q.
Qed.
(** Whatever the capacity and the length of the history: whenever the calls return, the table has at least 10 slots and the load is
    within the bound. *)
Theorem C84_history_partial : forall {K V : Type} (equalb : K -> K -> res bool) (hashf : K -> res N)
    (D : K -> Prop) (eqv : K -> K -> Prop) (nan c : Z) (lf m : f32) (ops : list (mop K V)) t os,
  hash_keys D eqv equalb hashf -> Forall (fun op => D (op_key op)) ops -> is_f32 lf -> lf <> FNaN -> m <> FNaN ->
  hash_run equalb hashf (float_policy nan lf m) (new_hash c) ops = Ok (t, os) ->
  exists l, clamp_load lf = FVal l /\ ((1 # 2) <= l)%Q /\ (l <= 1)%Q /\
    10 <= zlen (h_array t) /\ load_in l (h_size t) (zlen (h_array t)).
Proof.
  intros K V equalb hashf D eqv nan c lf m ops t os HK F Hf NL NM R.
  destruct (new_size (K := K) (V := V) c) as [S0 C0].
  destruct (clamp_load_cases lf Hf) as [E|(l & EL & L1 & L2 & L3)]; [now apply (proj1 (clamp_load_nan lf)) in E|].
  destruct (clamp_multiplier_cases m) as [E|(mu & EM & M1 & M2)]; [now apply (proj1 (clamp_multiplier_nan m)) in E|].
  exists l. split; [exact EL|]. split; [exact L1|]. split; [exact L2|].
  refine (run_load equalb hashf D eqv nan lf m l mu HK EL EM L1 L2 L3 M1 M2 ops [] _ _ _ F (hash_inv_new hashf D eqv c) _ _ R).
  - rewrite C0. lia.
  - rewrite S0, C0. apply load_in_strong; [apply Qle_refl|].
    assert (C := inject_le 10 (Z.max 10 c) ltac:(lia)). change (inject_Z 10) with 10%Q in C. change (inject_Z 0) with 0%Q.
    set (x := inject_Z (Z.max 10 c)) in *. clearbody x. clear - C L1. nra.
Qed.
Print Assumptions C84_history_partial.
Example C84_history_partial_applies :
  exists t os, hash_run z_equal z_hash (float_policy 0 (FVal 0) (FInf false)) (new_hash 0) (puts 30) = Ok (t, os) /\
     h_size t = 30 /\ zlen (h_array t) = 250.
Proof. do 2 eexists. split; [vm_compute; reflexivity|]. split; vm_compute; reflexivity. Qed.
