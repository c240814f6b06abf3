(** * The model of AES and GCM meets the description of the standards. *)
From Coq Require Import List NArith ZArith Lia Bool.
From Coq Require Import Strings.Byte.
From Verif Require Import Base BaseProofs EndianModel EndianProofs AesModel AesSpec.
Import ListNotations.
Local Open Scope N_scope.
Local Open Scope list_scope.

(** ** Bytes as numbers *)
Definition small (a : N) : Prop := a < 256.
Lemma small_cases (P : N -> bool) : forallb (fun i => P (N.of_nat i)) (seq 0 256) = true -> forall a, small a -> P a = true.
Proof.
  intros F a Ha. unfold small in Ha. rewrite forallb_forall in F. specialize (F (N.to_nat a)). rewrite N2Nat.id in F. apply F.
  apply in_seq. lia.
Qed.
Lemma lxor_small a b : small a -> small b -> small (N.lxor a b).
Proof.
  intros Ha Hb. unfold small in *. destruct (N.eq_dec (N.lxor a b) 0) as [E|E]; [rewrite E; reflexivity|].
  change 256 with (2 ^ 8). apply N.log2_lt_pow2; [lia|]. eapply N.le_lt_trans; [apply N.log2_lxor|].
  assert (forall c, c < 256 -> N.log2 c < 8) as L.
  { intros c Hc. destruct (N.eq_dec c 0) as [->|Hc0]; [reflexivity|]. apply N.log2_lt_pow2; [lia|exact Hc]. }
  apply N.max_lub_lt; now apply L.
Qed.
Lemma small_b2n b : small (b2n b).
Proof. apply b2n_bound. Qed.

(** ** The S-box and the multiplication *)
Definition unaffine (s : N) : N :=
  fold_left (fun acc i => N.lor acc (if xorb (xorb (N.testbit s ((i + 2) mod 8)) (N.testbit s ((i + 5) mod 8))) (xorb (N.testbit s ((i + 7) mod 8)) (N.testbit 5 i))
                                     then 2 ^ i else 0)) [0; 1; 2; 3; 4; 5; 6; 7] 0.
Definition sbox_check (a : N) : bool :=
  let s := sub_byte a in
  let b := unaffine s in
  (s <? 256) && (b <? 256) && (((a =? 0) && (b =? 0)) || (gmul a b =? 1)) &&
  forallb (fun i => Bool.eqb (N.testbit s i) (affine_bit b i)) [0; 1; 2; 3; 4; 5; 6; 7].
Lemma sub_byte_sbox : is_sbox sub_byte.
Proof.
  assert (forallb (fun i => sbox_check (N.of_nat i)) (seq 0 256) = true) as F by (vm_compute; reflexivity).
  intros a Ha. pose proof (small_cases _ F a Ha) as C. unfold sbox_check in C. cbv zeta in C.
  apply andb_prop in C. destruct C as [C Cb]. apply andb_prop in C. destruct C as [C Ci]. apply andb_prop in C. destruct C as [Cs Cl].
  apply N.ltb_lt in Cs, Cl. split; [exact Cs|]. exists (unaffine (sub_byte a)). split.
  - split; [exact Cl|]. apply orb_prop in Ci. destruct Ci as [Ci|Ci].
    + left. apply andb_prop in Ci. destruct Ci as [A B]. apply N.eqb_eq in A, B. auto.
    + right. now apply N.eqb_eq.
  - intros i Hi. rewrite forallb_forall in Cb. apply eqb_prop. apply Cb. cbn [In].
    assert (i = 0 \/ i = 1 \/ i = 2 \/ i = 3 \/ i = 4 \/ i = 5 \/ i = 6 \/ i = 7) by lia. intuition.
Qed.
Lemma sub_byte_small a : small a -> small (sub_byte a).
Proof. intros H. exact (proj1 (sub_byte_sbox a H)). Qed.
Definition mul_check (v : N) : bool :=
  (gmul 1 v =? v) && (gmul 2 v =? xtime v) && (gmul 3 v =? N.lxor (xtime v) v) && (xtime v <? 256).
Lemma muls v : small v -> gmul 1 v = v /\ gmul 2 v = xtime v /\ gmul 3 v = N.lxor (xtime v) v /\ small (xtime v).
Proof.
  intros H. assert (forallb (fun i => mul_check (N.of_nat i)) (seq 0 256) = true) as F by (vm_compute; reflexivity).
  pose proof (small_cases _ F v H) as C. unfold mul_check in C. apply andb_prop in C. destruct C as [C C4].
  apply andb_prop in C. destruct C as [C C3]. apply andb_prop in C. destruct C as [C1 C2].
  apply N.eqb_eq in C1, C2, C3. apply N.ltb_lt in C4. unfold small. auto.
Qed.
Lemma gmul_small k v : (k = 1 \/ k = 2 \/ k = 3) -> small v -> small (gmul k v).
Proof.
  intros K H. destruct (muls v H) as (E1 & E2 & E3 & X). destruct K as [-> | [-> | ->]]; [rewrite E1|rewrite E2|rewrite E3]; try assumption.
  now apply lxor_small.
Qed.

(** ** States *)
Definition denotes (l : list N) (s : state) : Prop :=
  List.length l = 16%nat /\ Forall small l /\ forall r c, (r < 4)%nat -> (c < 4)%nat -> nth (r + 4 * c) l 0 = s r c.
Ltac list16 l L :=
  do 16 (destruct l as [|? l]; [discriminate L|]); destruct l as [|? l]; [|discriminate L].
Ltac cells r c Hr Hc :=
  destruct r as [|[|[|[|r]]]]; [| | | |exfalso; clear - Hr; lia];
  (destruct c as [|[|[|[|c]]]]; [| | | |exfalso; clear - Hc; lia]).
Lemma nth_map_0 (f : N -> N) l i : (i < List.length l)%nat -> nth i (map f l) 0 = f (nth i l 0).
Proof. intros H. rewrite (nth_indep _ 0 (f 0)) by (rewrite map_length; exact H). apply map_nth. Qed.
Lemma denotes_sub l s : denotes l s -> denotes (map sub_byte l) (sub sub_byte s).
Proof.
  intros (L & F & N). split; [now rewrite map_length|]. split.
  - apply Forall_forall. intros x Hx. apply in_map_iff in Hx. destruct Hx as (y & <- & Hy). apply sub_byte_small. rewrite Forall_forall in F. now apply F.
  - intros r c Hr Hc. rewrite nth_map_0 by lia. unfold sub. now rewrite N.
Qed.
Lemma nth_small l i : Forall small l -> small (nth i l 0).
Proof.
  intros F. destruct (Nat.lt_ge_cases i (List.length l)) as [H|H].
  - rewrite Forall_forall in F. apply F. now apply nth_In.
  - rewrite nth_overflow by exact H. reflexivity.
Qed.
Lemma denotes_shift l s : denotes l s -> denotes (shift_rows l) (shift s).
Proof.
  intros (L & F & N). split; [reflexivity|]. split.
  - apply Forall_forall. intros x Hx. apply in_map_iff in Hx. destruct Hx as (i & <- & _). now apply nth_small.
  - intros r c Hr Hc. unfold shift. rewrite <- N; [|exact Hr|apply Nat.mod_upper_bound; lia].
    clear N F. list16 l L. cells r c Hr Hc; reflexivity.
Qed.
Lemma denotes_mix l s : denotes l s -> denotes (mix_columns l) (mix s).
Proof.
  intros (L & F & N).
  assert (forall r c, (r < 4)%nat -> (c < 4)%nat -> nth (r + 4 * c) (mix_columns l) 0 = mix s r c /\ small (mix s r c)) as G.
  { intros r c Hr Hc.
    assert (forall k, (k < 4)%nat -> small (s k c)) as S by (intros k Hk; rewrite <- N by assumption; now apply nth_small).
    split.
    - unfold mix. destruct (muls _ (S 0%nat ltac:(lia))) as (A1 & A2 & A3 & _). destruct (muls _ (S 1%nat ltac:(lia))) as (B1 & B2 & B3 & _).
      destruct (muls _ (S 2%nat ltac:(lia))) as (C1 & C2 & C3 & _). destruct (muls _ (S 3%nat ltac:(lia))) as (D1 & D2 & D3 & _).
      destruct r as [|[|[|[|r]]]]; [| | | |exfalso; clear - Hr; lia]; unfold coefficient; cbn [Nat.add Nat.sub Nat.modulo Nat.divmod fst snd nth];
        rewrite ?A1, ?A2, ?A3, ?B1, ?B2, ?B3, ?C1, ?C2, ?C3, ?D1, ?D2, ?D3;
        rewrite <- !N by (assumption || lia); clear - L Hc;
        list16 l L; (destruct c as [|[|[|[|c]]]]; [| | | |exfalso; clear - Hc; lia]); reflexivity.
    - assert (forall k, (k < 4)%nat -> small (gmul (coefficient r k) (s k c))) as M.
      { intros k Hk. apply gmul_small; [|now apply S]. cells r k Hr Hk; cbn; auto. }
      unfold mix. apply lxor_small; apply lxor_small; apply M; lia. }
  assert (List.length (mix_columns l) = 16%nat) as LL by (clear - L; list16 l L; reflexivity).
  split; [exact LL|]. split; [|intros r c Hr Hc; now apply G].
  apply Forall_forall. intros x Hx. apply (In_nth _ _ 0) in Hx. destruct Hx as (i & Hi & <-). rewrite LL in Hi.
  pose proof (Nat.div_mod i 4 ltac:(lia)) as D. pose proof (Nat.mod_upper_bound i 4 ltac:(lia)) as M.
  assert (i / 4 < 4)%nat as Q by (apply Nat.div_lt_upper_bound; lia).
  destruct (G (i mod 4)%nat (i / 4)%nat M Q) as [E S]. replace (i mod 4 + 4 * (i / 4))%nat with i in E by lia. now rewrite E.
Qed.
Lemma xor_list_length a b : List.length (xor_list a b) = Nat.min (List.length a) (List.length b).
Proof. unfold xor_list. now rewrite map_length, combine_length. Qed.
Lemma xor_list_nth a : forall b i, (i < List.length a)%nat -> (i < List.length b)%nat -> nth i (xor_list a b) 0 = N.lxor (nth i a 0) (nth i b 0).
Proof.
  induction a as [|x a IH]; intros b i Ha Hb; [simpl in Ha; lia|]. destruct b as [|y b]; [simpl in Hb; lia|].
  unfold xor_list. cbn [combine map fst snd]. destruct i as [|i]; [reflexivity|]. cbn [nth]. apply IH; simpl in *; lia.
Qed.
Lemma xor_list_small a : forall b, Forall small a -> Forall small b -> Forall small (xor_list a b).
Proof.
  induction a as [|x a IH]; intros [|y b] Fa Fb; try (constructor; fail). inversion Fa. inversion Fb. subst.
  unfold xor_list. cbn [combine map fst snd]. constructor; [now apply lxor_small|]. now apply IH.
Qed.
Lemma denotes_add l s rk w i : denotes l s -> denotes rk (fun r c => w (4 * i + c)%nat r) -> denotes (xor_list l rk) (add_key w i s).
Proof.
  intros (L & F & N) (L' & F' & N'). split; [rewrite xor_list_length; lia|]. split; [now apply xor_list_small|].
  intros r c Hr Hc. rewrite xor_list_nth by lia. unfold add_key. now rewrite N, N'.
Qed.

(** ** Rounds *)
Lemma rounds_spec w s : forall rks i l, rks <> [] ->
  denotes l (after_rounds sub_byte w i s) ->
  (forall j, (j < List.length rks)%nat -> denotes (nth j rks []) (fun r c => w (4 * (S i + j) + c)%nat r)) ->
  denotes (rounds rks l) (cipher sub_byte w (i + List.length rks) s).
Proof.
  induction rks as [|rk rks IH]; intros i l NE D K; [congruence|].
  pose proof (K 0%nat ltac:(simpl; lia)) as K0. cbn [nth] in K0. rewrite Nat.add_0_r in K0.
  destruct rks as [|rk' rks].
  - cbn [rounds List.length]. replace (i + 1)%nat with (S i) by lia. unfold cipher. replace (S i - 1)%nat with i by lia.
    apply denotes_add; [|exact K0]. apply denotes_shift, denotes_sub, D.
  - change (rounds (rk :: rk' :: rks) l) with (rounds (rk' :: rks) (xor_list (mix_columns (shift_rows (map sub_byte l))) rk)).
    replace (i + List.length (rk :: rk' :: rks))%nat with (S i + List.length (rk' :: rks))%nat by (simpl; lia).
    apply IH; [discriminate| |].
    + cbn [after_rounds]. apply denotes_add; [|exact K0]. apply denotes_mix, denotes_shift, denotes_sub, D.
    + intros j Hj. specialize (K (S j)). cbn [nth] in K. replace (S (S i) + j)%nat with (S i + S j)%nat by lia. apply K. simpl in *. lia.
Qed.

(** ** Pieces of a list *)
Lemma chunks_nil {A} k fuel : chunks k fuel (@nil A) = [].
Proof. destruct fuel; reflexivity. Qed.
Lemma chunks_nth {A} k : (0 < k)%nat -> forall fuel (l : list A) i, (List.length l <= fuel)%nat -> nth i (chunks k fuel l) [] = firstn k (skipn (k * i) l).
Proof.
  intros Hk. induction fuel as [|fuel IH]; intros l i H.
  - destruct l; [|simpl in H; lia]. cbn [chunks]. rewrite skipn_nil, firstn_nil. destruct i; reflexivity.
  - destruct l as [|a l]; [rewrite chunks_nil, skipn_nil, firstn_nil; destruct i; reflexivity|]. cbn [chunks]. destruct i as [|i].
    + rewrite Nat.mul_0_r. reflexivity.
    + cbn [nth]. rewrite IH.
      * rewrite skipn_add. f_equal. f_equal. lia.
      * rewrite skipn_length. cbn [List.length] in *. lia.
Qed.
Lemma chunks_length {A} k : (0 < k)%nat -> forall fuel (l : list A), (List.length l <= fuel)%nat -> List.length (chunks k fuel l) = Nat.div (List.length l + (k - 1)) k.
Proof.
  intros Hk. induction fuel as [|fuel IH]; intros l H.
  - destruct l; [|simpl in H; lia]. cbn [chunks List.length]. symmetry. apply Nat.div_small. lia.
  - destruct l as [|a l]; [rewrite chunks_nil; symmetry; apply Nat.div_small; cbn [List.length]; lia|]. cbn [chunks List.length].
    rewrite IH by (rewrite skipn_length; cbn [List.length] in *; lia). rewrite skipn_length. cbn [List.length].
    destruct (Nat.le_gt_cases k (S (List.length l))) as [G|G].
    + replace (S (List.length l) + (k - 1))%nat with ((S (List.length l) - k + (k - 1)) + 1 * k)%nat by lia. rewrite Nat.div_add by lia. lia.
    + replace (S (List.length l) - k)%nat with 0%nat by lia. rewrite (Nat.div_small (0 + (k - 1))) by lia.
      replace (S (List.length l) + (k - 1))%nat with (List.length l + 1 * k)%nat by lia. rewrite Nat.div_add, Nat.div_small by lia. reflexivity.
Qed.

(** ** The key schedule *)
Definition next_word (nk i : nat) (t : list N) : list N :=
  if Nat.eqb (i mod nk) 0 then xor_list (map sub_byte (rot_word t)) (rcon (i / nk))
  else if Nat.ltb 6 nk && Nat.eqb (i mod nk) 4 then map sub_byte t else t.
Lemma nth_firstn_lt {A} (d : A) n : forall l i, (i < n)%nat -> nth i (firstn n l) d = nth i l d.
Proof.
  induction n as [|n IH]; intros l i H; [lia|]. destruct l as [|a l]; [reflexivity|]. destruct i as [|i]; [reflexivity|]. cbn. apply IH. lia.
Qed.
Lemma hd_rev (ws : list (list N)) : nth (List.length ws - 1) (rev ws) [] = hd [] ws.
Proof.
  destruct ws as [|a ws]; [reflexivity|]. cbn [rev List.length hd]. rewrite app_nth2; rewrite rev_length; [|lia].
  replace (S (List.length ws) - 1 - List.length ws)%nat with 0%nat by lia. reflexivity.
Qed.
Lemma expand_spec nk : (0 < nk)%nat -> forall fuel i ws, List.length ws = i -> (nk <= i)%nat ->
  let all := rev (expand fuel nk i ws) in
  firstn i all = rev ws /\ List.length all = (i + fuel)%nat /\
  forall j, (i <= j < i + fuel)%nat -> nth j all [] = xor_list (nth (j - nk) all []) (next_word nk j (nth (j - 1) all [])).
Proof.
  intros Hk. induction fuel as [|fuel IH]; intros i ws L Hi all.
  - unfold all. cbn [expand]. split; [apply firstn_all2; rewrite rev_length; lia|]. split; [rewrite rev_length; lia|]. intros j Hj. lia.
  - unfold all. cbn [expand]. fold (next_word nk i (hd [] ws)). set (x := xor_list (nth (nk - 1) ws []) (next_word nk i (hd [] ws))).
    destruct (IH (S i) (x :: ws) ltac:(simpl; lia) ltac:(lia)) as (F & Ln & R). set (all' := rev (expand fuel nk (S i) (x :: ws))) in *.
    assert (firstn i all' = rev ws) as F'.
    { apply (f_equal (firstn i)) in F. rewrite firstn_firstn in F. replace (Nat.min i (S i)) with i in F by lia. rewrite F.
      cbn [rev]. apply firstn_app_exact. rewrite rev_length. lia. }
    split; [exact F'|]. split; [lia|]. intros j Hj. destruct (Nat.eq_dec j i) as [->|Hne]; [|apply R; lia].
    assert (forall m, (m < i)%nat -> nth m all' [] = nth m (rev ws) []) as P by (intros m Hm; rewrite <- F'; symmetry; now apply nth_firstn_lt).
    assert (nth i all' [] = x) as ->.
    { rewrite <- (nth_firstn_lt [] (S i)) by lia. rewrite F. cbn [rev]. rewrite app_nth2; rewrite rev_length; [|lia].
      rewrite L, Nat.sub_diag. reflexivity. }
    rewrite !P by lia. replace (nth (i - 1) (rev ws) []) with (hd [] ws) by (rewrite <- L; symmetry; apply hd_rev). unfold x. f_equal. rewrite rev_nth by lia. f_equal. lia.
Qed.

(** Every word has four bytes. *)
Definition good_word (t : list N) : Prop := List.length t = 4%nat /\ Forall small t.
Lemma Forall_sub t : Forall small t -> Forall small (map sub_byte t).
Proof.
  intros F. apply Forall_forall. intros x Hx. apply in_map_iff in Hx. destruct Hx as (y & <- & Hy). apply sub_byte_small.
  rewrite Forall_forall in F. now apply F.
Qed.
Lemma good_rot t : good_word t -> good_word (rot_word t).
Proof.
  intros [L F]. destruct t as [|a t]; [discriminate|]. cbn [rot_word]. split; [rewrite app_length; simpl in *; lia|].
  inversion F. subst. apply Forall_app. split; [assumption|]. now constructor.
Qed.
Lemma good_sub t : good_word t -> good_word (map sub_byte t).
Proof. intros [L F]. split; [now rewrite map_length|now apply Forall_sub]. Qed.
Lemma good_xor a b : good_word a -> good_word b -> good_word (xor_list a b).
Proof. intros [L F] [L' F']. split; [rewrite xor_list_length; lia|now apply xor_list_small]. Qed.
Lemma power_of_x i : small (iter_n i xtime 1) /\ iter_n i xtime 1 = round_constant i.
Proof.
  induction i as [|i [S E]]; [split; reflexivity|]. cbn [iter_n round_constant]. rewrite <- E. destruct (muls _ S) as (_ & E2 & _ & X). auto.
Qed.
Lemma good_rcon i : good_word (rcon i).
Proof.
  split; [reflexivity|]. unfold rcon. constructor; [apply power_of_x|]. repeat (constructor; [reflexivity|]). constructor.
Qed.
Lemma good_next nk j t : good_word t -> good_word (next_word nk j t).
Proof.
  intros G. unfold next_word. destruct (Nat.eqb (j mod nk) 0); [apply good_xor; [apply good_sub, good_rot, G|apply good_rcon]|].
  destruct (Nat.ltb 6 nk && Nat.eqb (j mod nk) 4); [apply good_sub, G|exact G].
Qed.
Lemma rot_nth t r : List.length t = 4%nat -> (r < 4)%nat -> nth r (rot_word t) 0 = nth (Nat.modulo (r + 1) 4) t 0.
Proof. intros L Hr. destruct t as [|a [|b [|c [|d [|e t]]]]]; try discriminate. destruct r as [|[|[|[|r]]]]; [reflexivity..|lia]. Qed.
Lemma rcon_nth i r : (r < 4)%nat -> nth r (rcon i) 0 = if Nat.eqb r 0 then round_constant (i - 1) else 0.
Proof.
  intros Hr. unfold rcon. rewrite (proj2 (power_of_x (i - 1))). destruct r as [|[|[|[|r]]]]; [reflexivity..|lia].
Qed.

Definition schedule (key : bytes) : list (list N) :=
  let nk := Nat.div (List.length key) 4 in rev (expand (4 * (nk + 7) - nk) nk nk (rev (key_words key))).
Definition word_of (key : bytes) (i r : nat) : N := nth r (nth i (schedule key) []) 0.
Lemma nth_skipn_add {A} (d : A) n : forall l i, nth i (skipn n l) d = nth (n + i) l d.
Proof.
  induction n as [|n IH]; intros l i; [reflexivity|]. destruct l as [|a l]; [now destruct i|]. cbn [skipn Nat.add nth]. apply IH.
Qed.
Lemma b2n_nth key i : nth i (map b2n key) 0 = b2n (nth i key x00).
Proof. exact (map_nth b2n key x00 i). Qed.
Lemma key_word_nth key i r : (r < 4)%nat -> nth r (nth i (key_words key) []) 0 = b2n (nth (4 * i + r) key x00).
Proof.
  intros Hr. unfold key_words. rewrite chunks_nth by (rewrite ?map_length; lia). rewrite nth_firstn_lt by exact Hr.
  rewrite nth_skipn_add. apply b2n_nth.
Qed.
Lemma schedule_spec key nk : List.length key = (4 * nk)%nat -> (0 < nk)%nat ->
  List.length (schedule key) = (4 * (nk + 7))%nat /\
  (forall i, (i < 4 * (nk + 7))%nat -> good_word (nth i (schedule key) [])) /\
  key_expansion sub_byte (word_of key) nk key.
Proof.
  intros L Hk. assert (Nat.div (List.length key) 4 = nk) as D by (rewrite L, Nat.mul_comm; apply Nat.div_mul; lia).
  assert (List.length (key_words key) = nk) as LW.
  { unfold key_words. rewrite chunks_length by (rewrite ?map_length; lia). rewrite map_length, L.
    replace (4 * nk + (4 - 1))%nat with (3 + nk * 4)%nat by lia. rewrite Nat.div_add by lia. reflexivity. }
  unfold schedule. rewrite D.
  destruct (expand_spec nk Hk (4 * (nk + 7) - nk) nk (rev (key_words key)) ltac:(rewrite rev_length; exact LW) (le_n _)) as (F & Ln & R).
  set (all := rev (expand (4 * (nk + 7) - nk) nk nk (rev (key_words key)))) in *. rewrite rev_involutive in F.
  assert (forall i, (i < nk)%nat -> nth i all [] = nth i (key_words key) []) as P by (intros i Hi; rewrite <- F; symmetry; now apply nth_firstn_lt).
  assert (forall i, (i < 4 * (nk + 7))%nat -> good_word (nth i all [])) as G.
  { induction i as [i IH] using (well_founded_induction Wf_nat.lt_wf). intros Hi. destruct (Nat.lt_ge_cases i nk) as [Hl|Hl].
    - rewrite P by exact Hl. split.
      + unfold key_words. rewrite chunks_nth by (rewrite ?map_length; lia). rewrite firstn_length, skipn_length, map_length. lia.
      + apply Forall_forall. intros x Hx. apply (In_nth _ _ 0) in Hx. destruct Hx as (r & Hr & <-).
        destruct (Nat.lt_ge_cases r 4) as [Hr4|Hr4].
        * rewrite key_word_nth by exact Hr4. apply small_b2n.
        * exfalso. unfold key_words in Hr. rewrite chunks_nth in Hr by (rewrite ?map_length; lia). rewrite firstn_length in Hr. lia.
    - rewrite R by lia. apply good_xor; [apply IH; lia|]. apply good_next, IH; lia. }
  split; [lia|]. split; [exact G|].
  assert (forall i r, word_of key i r = nth r (nth i all []) 0) as W by (intros i r; unfold word_of, schedule; rewrite D; reflexivity).
  intros r Hr. split.
  - intros i Hi. rewrite W, P by exact Hi. now apply key_word_nth.
  - intros i Hi. rewrite !W, R by lia. pose proof (G (i - nk)%nat ltac:(lia)) as [L1 _]. pose proof (G (i - 1)%nat ltac:(lia)) as G1.
    pose proof (good_next nk i _ G1) as [L2 _]. rewrite xor_list_nth by lia. f_equal. unfold next_word, transformed. rewrite !W.
    destruct G1 as [L3 F3]. destruct (Nat.eqb (i mod nk) 0).
    + pose proof (good_sub _ (good_rot _ (conj L3 F3))) as [L4 _]. pose proof (good_rcon (i / nk)) as [L5 _].
      rewrite xor_list_nth by lia. rewrite rcon_nth by exact Hr. f_equal. rewrite nth_map_0 by (rewrite map_length in L4; lia).
      now rewrite rot_nth.
    + destruct (Nat.ltb 6 nk && Nat.eqb (i mod nk) 4); [|reflexivity]. rewrite nth_map_0 by lia. reflexivity.
Qed.
Lemma concat_words (ws : list (list N)) c : (forall i, (i < c)%nat -> List.length (nth i ws []) = 4%nat) -> List.length ws = c ->
  List.length (concat ws) = (4 * c)%nat /\ forall i r, (i < c)%nat -> (r < 4)%nat -> nth (r + 4 * i) (concat ws) 0 = nth r (nth i ws []) 0.
Proof.
  revert c. induction ws as [|a ws IH]; intros c H L; cbn [List.length] in L.
  - subst c. split; [reflexivity|]. intros i r Hi. lia.
  - destruct c as [|c]; [lia|]. pose proof (H 0%nat ltac:(lia)) as La. cbn [nth] in La.
    destruct (IH c) as [L1 N1]; [intros i Hi; apply (H (S i)); lia|lia|]. cbn [concat]. split; [rewrite app_length; lia|].
    intros i r Hi Hr. destruct i as [|i].
    + rewrite Nat.mul_0_r, Nat.add_0_r. cbn [nth]. apply app_nth1. lia.
    + rewrite app_nth2 by lia. cbn [nth]. replace (r + 4 * S i - List.length a)%nat with (r + 4 * i)%nat by lia. apply N1; lia.
Qed.
Lemma round_keys key nk : List.length key = (4 * nk)%nat -> (0 < nk)%nat ->
  List.length (key_schedule key) = (nk + 7)%nat /\
  forall j, (j < nk + 7)%nat -> denotes (nth j (key_schedule key) []) (fun r c => word_of key (4 * j + c)%nat r).
Proof.
  intros L Hk. destruct (schedule_spec key nk L Hk) as (LS & G & _).
  change (key_schedule key) with (map (@concat N) (chunks 4 (List.length (schedule key)) (schedule key))). split.
  - rewrite map_length, chunks_length by lia. rewrite LS. replace (4 * (nk + 7) + (4 - 1))%nat with (3 + (nk + 7) * 4)%nat by lia.
    rewrite Nat.div_add by lia. reflexivity.
  - intros j Hj. change (@nil N) with (@concat N []) at 1. rewrite map_nth. rewrite chunks_nth by lia.
    set (ws := firstn 4 (skipn (4 * j) (schedule key))).
    assert (forall c, (c < 4)%nat -> nth c ws [] = nth (4 * j + c) (schedule key) []) as W.
    { intros c Hc. unfold ws. rewrite nth_firstn_lt by exact Hc. apply nth_skipn_add. }
    assert (List.length ws = 4%nat) as Lw by (unfold ws; rewrite firstn_length, skipn_length; lia).
    destruct (concat_words ws 4) as [L1 N1]; [intros c Hc; rewrite W by exact Hc; apply G; lia|exact Lw|].
    split; [exact L1|]. split.
    + apply Forall_forall. intros x Hx. apply in_concat in Hx. destruct Hx as (t & Ht & Hx). apply (In_nth _ _ []) in Ht.
      destruct Ht as (c & Hc & <-). rewrite W in Hx by lia. destruct (G (4 * j + c)%nat ltac:(lia)) as [_ F]. rewrite Forall_forall in F. now apply F.
    + intros r c Hr Hc. rewrite N1 by assumption. rewrite W by exact Hc. reflexivity.
Qed.

(** ** One block *)
Lemma b2n_n2b_list l : Forall small l -> map b2n (map n2b l) = l.
Proof.
  induction 1 as [|a l Ha _ IH]; [reflexivity|]. cbn [map]. rewrite IH. f_equal. apply b2n_n2b_small. exact Ha.
Qed.
Lemma aes_block_spec key nk x : List.length key = (4 * nk)%nat -> (0 < nk)%nat ->
  forall r c, (r < 4)%nat -> (c < 4)%nat ->
  b2n (nth (r + 4 * c) (be_put 16 (aes_block (key_schedule key) x)) x00) = cipher sub_byte (word_of key) (nk + 6) (input_state (be_put 16 x)) r c.
Proof.
  intros L Hk. destruct (round_keys key nk L Hk) as (LR & K). unfold aes_block.
  set (s := input_state (be_put 16 x)).
  assert (denotes (map b2n (be_put 16 x)) s) as D0.
  { split; [rewrite map_length; apply be_put_length|]. split.
    - apply Forall_forall. intros y Hy. apply in_map_iff in Hy. destruct Hy as (b & <- & _). apply small_b2n.
    - intros r c Hr Hc. apply b2n_nth. }
  destruct (key_schedule key) as [|rk rks] eqn:E; [simpl in LR; lia|]. cbn [List.length] in LR.
  assert (denotes (rounds rks (xor_list (map b2n (be_put 16 x)) rk)) (cipher sub_byte (word_of key) (0 + List.length rks) s)) as D.
  { apply rounds_spec.
    - destruct rks; [simpl in LR; lia|discriminate].
    - cbn [after_rounds]. apply denotes_add; [exact D0|]. exact (K 0%nat ltac:(lia)).
    - intros j Hj. exact (K (S j) ltac:(lia)). }
  replace (0 + List.length rks)%nat with (nk + 6)%nat in D by lia. destruct D as (LD & FD & ND).
  intros r c Hr Hc. rewrite <- ND by assumption.
  set (l := rounds rks (xor_list (map b2n (be_put 16 x)) rk)) in *.
  assert (be_put 16 (be_get (map n2b l)) = map n2b l) as ->.
  { replace 16%nat with (List.length (map n2b l)) at 1 by (rewrite map_length; exact LD). apply be_put_get. }
  rewrite <- b2n_nth. rewrite b2n_n2b_list by exact FD. reflexivity.
Qed.

(** ** GCM *)
Definition enc (key : bytes) (b : bytes) : bytes := be_put 16 (aes_block (key_schedule key) (be_get b)).
Lemma enc_aes key nk : List.length key = (4 * nk)%nat -> (0 < nk)%nat -> is_aes key (enc key).
Proof.
  intros L Hk. destruct (schedule_spec key nk L Hk) as (_ & _ & K). exists sub_byte, (word_of key), nk.
  split; [exact L|]. split; [exact sub_byte_sbox|]. split; [exact K|]. intros b Lb. split; [apply be_put_length|].
  intros r c Hr Hc. unfold enc. change (Byte.to_N ?v) with (b2n v). rewrite (aes_block_spec key nk _ L Hk r c Hr Hc).
  rewrite <- Lb. now rewrite be_put_get.
Qed.
Lemma gf_poly_value : gf_poly = 2 ^ 127 + 2 ^ 126 + 2 ^ 125 + 2 ^ 120.
Proof. vm_compute. reflexivity. Qed.
Lemma times_x_step v : (if N.odd v then N.lxor (N.div2 v) gf_poly else N.div2 v) = times_x v.
Proof.
  unfold times_x. rewrite N.bit0_odd, N.div2_div, gf_poly_value. destruct (N.odd v); [reflexivity|]. now rewrite N.lxor_0_r.
Qed.
Lemma gf_loop_spec x y : forall i k, (i + k = 128)%nat -> gf_mul_loop i x (block_product k x y) (times_x_power k y) = block_product 128 x y.
Proof.
  induction i as [|i IH]; intros k H.
  - replace k with 128%nat by lia. reflexivity.
  - cbn [gf_mul_loop]. rewrite times_x_step. rewrite <- (IH (S k)) by lia. cbn [block_product times_x_power]. f_equal.
    replace (N.of_nat i) with (127 - N.of_nat k) by lia. destruct (N.testbit x (127 - N.of_nat k)); [reflexivity|]. now rewrite N.lxor_0_r.
Qed.
Lemma gf_mul_spec x y : gf_mul x y = block_mul x y.
Proof. exact (gf_loop_spec x y 128 0 eq_refl). Qed.
(** Blocks. *)
Definition window (l : bytes) (i : nat) : bytes := map (fun j => nth (16 * i + j) l x00) (seq 0 16).
Lemma window_value l i : block_value l i = be_get (window l i).
Proof.
  unfold block_value, be_get, window. generalize (seq 0 16), 0. induction l0 as [|j js IH]; intros a; [reflexivity|].
  cbn [map fold_left]. rewrite IH. f_equal. change (Byte.to_N ?v) with (b2n v). lia.
Qed.
Lemma padded_nth (b : bytes) n : (List.length b <= n)%nat -> b ++ repeat x00 (n - List.length b) = map (fun j => nth j b x00) (seq 0 n).
Proof.
  intros L. apply (nth_ext _ _ x00 x00).
  - rewrite app_length, repeat_length, map_length, seq_length. lia.
  - intros i Hi. rewrite app_length, repeat_length in Hi.
    rewrite (nth_indep (map _ _) x00 (nth 0 b x00)) by (rewrite map_length, seq_length; lia).
    rewrite (map_nth (fun j => nth j b x00) (seq 0 n) 0%nat i). rewrite seq_nth by lia.
    destruct (Nat.lt_ge_cases i (List.length b)) as [H|H]; [now rewrite app_nth1|].
    rewrite app_nth2 by exact H. rewrite (nth_overflow b) by exact H. apply nth_repeat.
Qed.
Lemma padded_value (c : bytes) i : pad_block (firstn 16 (skipn (16 * i) c)) = block_value c i.
Proof.
  rewrite window_value. unfold pad_block, window. f_equal. rewrite padded_nth by (rewrite firstn_length; lia).
  apply map_ext_in. intros j Hj. apply in_seq in Hj. rewrite nth_firstn_lt by lia. apply nth_skipn_add.
Qed.
Lemma hash_fold h x : forall bs, (forall i, (i < List.length bs)%nat -> pad_block (nth i bs []) = x i) ->
  fold_left (fun y b => gf_mul (N.lxor y (pad_block b)) h) bs 0 = hash_blocks h x (List.length bs).
Proof.
  induction bs as [|b bs IH] using rev_ind; intros H; [reflexivity|]. rewrite fold_left_app, app_length. cbn [fold_left List.length].
  rewrite Nat.add_1_r. cbn [hash_blocks]. etransitivity.
  - apply (f_equal (fun z => gf_mul (N.lxor z (pad_block b)) h)). apply IH.
    intros i Hi. rewrite <- H by (rewrite app_length; simpl; lia). now rewrite app_nth1.
  - rewrite <- gf_mul_spec. rewrite <- (H (List.length bs)) by (rewrite app_length; simpl; lia). rewrite app_nth2, Nat.sub_diag by lia. reflexivity.
Qed.
Lemma ghash_spec h (c : bytes) : 8 * N.of_nat (List.length c) < 2 ^ 64 -> ghash h c = hash_text h c.
Proof.
  intros B. unfold ghash, hash_text. rewrite N.mod_small by exact B. rewrite gf_mul_spec.
  rewrite (hash_fold h (block_value c)).
  - rewrite chunks_length by lia. reflexivity.
  - intros i _. rewrite chunks_nth by lia. apply padded_value.
Qed.
Lemma block_value_16 l : List.length l = 16%nat -> block_value l 0 = be_get l.
Proof.
  intros L. rewrite window_value. unfold window. change (fun j => nth (16 * 0 + j) l x00) with (fun j => nth j l x00).
  rewrite <- padded_nth by lia. rewrite L. cbn [Nat.sub repeat]. now rewrite app_nil_r.
Qed.
(** The counter. *)
Lemma counter_put i : counter i = be_put 4 i.
Proof.
  unfold counter. cbn [be_put]. change low_byte with n2b. rewrite !N.shiftr_div_pow2. cbn [N.of_nat Pos.of_succ_nat Pos.succ N.mul Pos.mul].
  now rewrite N.pow_0_r, N.div_1_r.
Qed.
Lemma counter_value nonce i : counter_block nonce i = be_get (nonce ++ counter i).
Proof. unfold counter_block. rewrite counter_put, be_get_app, be_get_put, be_put_length. reflexivity. Qed.
(** The key stream. *)
Lemma keystream_nth rks nonce : forall n j, (j < 16 * n)%nat ->
  nth j (keystream rks nonce n) x00 = nth (Nat.modulo j 16) (be_put 16 (aes_block rks (counter_block nonce (N.of_nat (Nat.div j 16) + 2)))) x00.
Proof.
  intros n j H. unfold keystream. set (g := fun i => be_put 16 (aes_block rks (counter_block nonce (N.of_nat i + 2)))).
  assert (forall m s j, (j < 16 * m)%nat -> nth j (concat (map g (seq s m))) x00 = nth (Nat.modulo j 16) (g (s + Nat.div j 16)%nat) x00) as G.
  { clear. induction m as [|m IH]; intros s j H; [lia|]. cbn [seq map concat].
    assert (List.length (g s) = 16%nat) as Lg by apply be_put_length.
    destruct (Nat.lt_ge_cases j 16) as [Hj|Hj].
    - rewrite app_nth1 by lia. rewrite Nat.mod_small, Nat.div_small, Nat.add_0_r by lia. reflexivity.
    - rewrite app_nth2 by lia. rewrite Lg, IH by lia.
      replace j with ((j - 16) + 1 * 16)%nat at 3 4 by lia. rewrite Nat.mod_add, Nat.div_add by lia. f_equal. f_equal. lia. }
  rewrite (G n 0%nat j H). reflexivity.
Qed.
Lemma xor_bytes_nth a : forall b i, (i < List.length a)%nat -> (i < List.length b)%nat ->
  b2n (nth i (xor_bytes a b) x00) = N.lxor (b2n (nth i a x00)) (b2n (nth i b x00)).
Proof.
  induction a as [|x a IH]; intros [|y b] i Ha Hb; try (simpl in *; lia).
  unfold xor_bytes. cbn [combine map fst snd]. destruct i as [|i].
  - cbn [nth]. apply b2n_n2b_small. apply lxor_small; apply small_b2n.
  - cbn [nth]. apply IH; simpl in *; lia.
Qed.
