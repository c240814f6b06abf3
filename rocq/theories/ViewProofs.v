(** * Proofs about parsed objects that look into a buffer *)
From Coq Require Import List NArith ZArith Lia Bool.
From Coq Require Import Strings.Byte.
From Verif Require Import Base BaseProofs EndianModel VarintModel KeyModel ValueModel ViewModel ViewSpec.
Import ListNotations.
Local Open Scope nat_scope.

Ltac splits := repeat match goal with |- _ /\ _ => split end.

(** ** Windows *)
Definition valid (M : memory) (w : win) : Prop := w_off w + w_len w <= length (nth (w_blk w) M []) /\ w_blk w < length M.
Definition inside (x w : win) : Prop :=
  w_blk x = w_blk w /\ w_off w <= w_off x /\ w_off x + w_len x <= w_off w + w_len w.

Lemma inside_refl w : inside w w.
Proof. repeat split; lia. Qed.
Lemma inside_trans x y z : inside x y -> inside y z -> inside x z.
Proof. intros (A & B & C) (D & F & G). repeat split; [congruence|lia|lia]. Qed.
Lemma valid_inside M x w : valid M w -> inside x w -> valid M x.
Proof. intros (A & B) (C & D & F). unfold valid. rewrite C. split; [lia|exact B]. Qed.
Lemma rdw_length M w : valid M w -> length (rdw M w) = w_len w.
Proof. intros (A & B). unfold rdw. rewrite firstn_length, skipn_length. lia. Qed.
Lemma rdw_zlen M w : valid M w -> zlen (rdw M w) = Z.of_nat (w_len w).
Proof. intros V. unfold zlen. rewrite (rdw_length _ _ V). reflexivity. Qed.

Lemma firstn_skipn_sub {A} (l : list A) o n a k :
  a + k <= n -> firstn k (skipn a (firstn n (skipn o l))) = firstn k (skipn (o + a) l).
Proof.
  intros H. rewrite skipn_firstn_comm, firstn_firstn, skipn_add. replace (Nat.min k (n - a)) with k by lia.
  reflexivity.
Qed.

Lemma win_slice_spec M w lo hi : valid M w ->
  match win_slice w lo hi with
  | Ok x => go_slice (rdw M w) lo hi = Ok (rdw M x) /\ inside x w /\ Z.of_nat (w_len x) = (hi - lo)%Z /\
            (0 <= lo <= hi)%Z /\ (hi <= Z.of_nat (w_len w))%Z /\ w_off x = w_off w + Z.to_nat lo
  | Err => False
  | Panic => go_slice (rdw M w) lo hi = Panic
  end.
Proof.
  intros V. unfold win_slice, go_slice. rewrite (rdw_zlen _ _ V).
  destruct ((0 <=? lo)%Z && (lo <=? hi)%Z && (hi <=? Z.of_nat (w_len w))%Z) eqn:C; [|reflexivity].
  apply andb_prop in C. destruct C as [C C3]. apply andb_prop in C. destruct C as [C1 C2].
  apply Z.leb_le in C1, C2, C3. unfold rdw at 2, inside. cbn [w_blk w_off w_len].
  repeat split; try lia. unfold rdw. rewrite firstn_skipn_sub by lia. reflexivity.
Qed.
Lemma win_from_spec M w lo : valid M w ->
  match win_from w lo with
  | Ok x => go_from (rdw M w) lo = Ok (rdw M x) /\ inside x w /\ (0 <= lo <= Z.of_nat (w_len w))%Z /\
            x = Win (w_blk w) (w_off w + Z.to_nat lo) (w_len w - Z.to_nat lo)
  | Err => False
  | Panic => go_from (rdw M w) lo = Panic
  end.
Proof.
  intros V. unfold win_from, win_slice, go_from. rewrite (rdw_zlen _ _ V).
  rewrite Z.leb_refl, andb_true_r.
  destruct ((0 <=? lo)%Z && (lo <=? Z.of_nat (w_len w))%Z) eqn:C; [|reflexivity].
  apply andb_prop in C. destruct C as [C1 C2]. apply Z.leb_le in C1, C2. unfold rdw at 2, inside. cbn [w_blk w_off w_len].
  replace (Z.to_nat (Z.of_nat (w_len w) - lo)) with (w_len w - Z.to_nat lo) by lia.
  repeat split; try lia.
  unfold rdw. rewrite skipn_firstn_comm, skipn_add. reflexivity.
Qed.
Lemma win_upto_spec M w hi : valid M w ->
  match win_slice w 0 hi with
  | Ok x => go_upto (rdw M w) hi = Ok (rdw M x) /\ inside x w /\ Z.of_nat (w_len x) = hi /\ w_off x = w_off w
  | Err => False
  | Panic => go_upto (rdw M w) hi = Panic
  end.
Proof.
  intros V. unfold win_slice, go_upto. rewrite (rdw_zlen _ _ V). cbn [Z.leb].
  change (0 <=? 0)%Z with true. cbn [andb].
  destruct ((0 <=? hi)%Z && (hi <=? Z.of_nat (w_len w))%Z) eqn:C; [|reflexivity].
  apply andb_prop in C. destruct C as [C1 C2]. apply Z.leb_le in C1, C2. unfold rdw at 2, inside. cbn [w_blk w_off w_len].
  rewrite Z.sub_0_r, Nat.add_0_r. repeat split; try lia.
  unfold rdw. rewrite firstn_firstn. replace (Nat.min (Z.to_nat hi) (w_len w)) with (Z.to_nat hi) by lia. reflexivity.
Qed.

(** ** What the windows of a new object show *)
Definition body_of (b : mbody) (cells : pbody) : Prop :=
  match b, cells with
  | BPrim, PPrim => True
  | BArr l, PArr c => length c = length l
  | BRec l, PRecs c => length c = length l
  | _, _ => False
  end.
Definition fresh (cells : pbody) : Prop :=
  match cells with PPrim => True | PArr c | PRecs c => forall x, In x c -> x = CEmpty end.

Lemma fresh_body_fresh b : fresh (fresh_body b).
Proof.
  destruct b; cbn [fresh_body fresh]; try exact I; intros x Hx; apply in_map_iff in Hx; destruct Hx as (? & <- & _); reflexivity.
Qed.
Lemma fresh_body_of b : body_of b (fresh_body b).
Proof. destruct b; cbn [fresh_body body_of]; try exact I; apply map_length. Qed.

(** A value object shows [m]. *)
Definition val_core (M : memory) (w : win) (o : pobj) (m : mval) : Prop :=
  exists bw cw body, o = PVal bw cw body /\ inside bw w /\ inside cw w /\ rdw M bw = mv_buf m /\ rdw M cw = mv_content m /\
    body_of (mv_body m) body /\ w_off bw = w_off w /\ w_off cw + w_len cw = w_off w + w_len bw.
Definition val_shows (M : memory) (w : win) (o : pobj) (m : mval) : Prop :=
  val_core M w o m /\ exists n, new_std_value (rdw M w) = Ok (m, n).

Lemma parse_value_core M w : valid M w ->
  match parse_value M w with
  | Ok o => exists m n, new_std_value (rdw M w) = Ok (m, n) /\ val_core M w o m /\
              (exists bw cw b, o = PVal bw cw b /\ fresh b)
  | Err => new_std_value (rdw M w) = Err
  | Panic => new_std_value (rdw M w) = Panic
  end.
Proof.
  intros V. unfold parse_value, new_std_value, std_decode.
  destruct (zlen (rdw M w) <? 1)%Z; [reflexivity|].
  destruct (go_index (rdw M w) 0) as [b0| |]; cbn [rbind]; try reflexivity.
  destruct (decode_array_bits (rdw M w) (b2n b0)) as [[[body pos] set]| |]; cbn [rbind]; try reflexivity.
  destruct (decode_record_bits (rdw M w) (b2n b0) body pos set) as [[body' pos']| |]; cbn [rbind]; try reflexivity.
  destruct (N.testbit (b2n b0) 3); [reflexivity|]. destruct (N.testbit (b2n b0) 2); [reflexivity|].
  destruct (decode_length_bits (rdw M w) (b2n b0) pos') as [[n p]| |]; cbn [rbind]; try reflexivity.
  pose proof (win_slice_spec M w (p - n) p V) as A. destruct (win_slice w (p - n) p) as [cw| |]; cbn [rbind].
  2: contradiction.
  2: rewrite A; reflexivity.
  destruct A as (A1 & A2 & A3 & A4 & A5 & A6). rewrite A1. cbn [rbind].
  pose proof (win_upto_spec M w p V) as B. destruct (win_slice w 0 p) as [bw| |]; cbn [rbind].
  2: contradiction.
  2: rewrite B; reflexivity.
  destruct B as (B1 & B2 & B3 & B4). rewrite B1. cbn [rbind].
  exists (MVal (rdw M bw) (rdw M cw) body'), p. split; [reflexivity|]. split.
  - exists bw, cw, (fresh_body body'). cbn [mv_buf mv_content mv_body].
    splits; try assumption; try reflexivity. { apply fresh_body_of. } lia.
  - exists bw, cw, (fresh_body body'). split; [reflexivity|apply fresh_body_fresh].
Qed.

Lemma parse_value_spec M w : valid M w ->
  match parse_value M w with
  | Ok o => exists m n, new_std_value (rdw M w) = Ok (m, n) /\ val_shows M w o m /\
              (exists bw cw b, o = PVal bw cw b /\ fresh b)
  | Err => new_std_value (rdw M w) = Err
  | Panic => new_std_value (rdw M w) = Panic
  end.
Proof.
  intros V. pose proof (parse_value_core M w V) as P. destruct (parse_value M w); [|exact P..].
  destruct P as (m & n & A & B & C). exists m, n. split; [exact A|]. split; [|exact C]. split; [exact B|]. exists n. exact A.
Qed.

Lemma decode_varchar_end b data e : decode_varchar b = Ok (data, e) -> go_slice b (e - zlen data) e = Ok data.
Proof.
  unfold decode_varchar. destruct b as [|b0 b].
  { intros [= <- <-]. reflexivity. }
  destruct (uvarint (b0 :: b)) as [v n]. destruct (n <? 0)%Z; [discriminate|].
  destruct ((n =? 0)%Z && negb (N.eqb (b2n b0) 0)); [discriminate|].
  destruct (zlen (b0 :: b) <? wrap_int64 (n + int_of_uint64 v))%Z; [discriminate|].
  destruct (go_slice (b0 :: b) n (wrap_int64 (n + int_of_uint64 v))) as [c| |] eqn:G; cbn [rbind]; try discriminate.
  intros [= <- <-]. pose proof G as G'. unfold go_slice in G'.
  destruct ((0 <=? n)%Z && (n <=? wrap_int64 (n + int_of_uint64 v))%Z && (wrap_int64 (n + int_of_uint64 v) <=? zlen (b0 :: b))%Z) eqn:C;
    [|discriminate].
  apply andb_prop in C. destruct C as [C C3]. apply andb_prop in C. destruct C as [C1 C2]. apply Z.leb_le in C1, C2, C3.
  assert (L : zlen c = (wrap_int64 (n + int_of_uint64 v) - n)%Z).
  { injection G' as <-. unfold zlen in *. rewrite firstn_length, skipn_length. lia. }
  rewrite L. replace (wrap_int64 (n + int_of_uint64 v) - (wrap_int64 (n + int_of_uint64 v) - n))%Z with n by lia. exact G.
Qed.

Lemma parse_varchar_spec M w : valid M w ->
  match parse_varchar M w with
  | Ok (x, e) => decode_varchar (rdw M w) = Ok (rdw M x, e) /\ inside x w /\ Z.of_nat (w_off x + w_len x) = (Z.of_nat (w_off w) + e)%Z
  | Err => decode_varchar (rdw M w) = Err
  | Panic => decode_varchar (rdw M w) = Panic
  end.
Proof.
  intros V. unfold parse_varchar. destruct (decode_varchar (rdw M w)) as [[data e]| |] eqn:D; cbn [rbind]; try reflexivity.
  pose proof (decode_varchar_end _ _ _ D) as G.
  pose proof (win_slice_spec M w (e - zlen data) e V) as A. rewrite G in A.
  destruct (win_slice w (e - zlen data) e) as [x| |]; cbn [rbind].
  - destruct A as (A1 & A2 & A3 & A4 & A5 & A6). injection A1 as <-. split; [reflexivity|]. split; [exact A2|]. lia.
  - contradiction.
  - discriminate.
Qed.

Lemma parse_simple_spec M w : valid M w ->
  match parse_simple M w with
  | Ok o => exists bw cw n, o = PSimple bw cw /\ new_simple_value (rdw M w) = Ok (VSimple (rdw M bw) (rdw M cw), n) /\
              inside bw w /\ inside cw w /\ w_off bw = w_off w /\ w_off cw + w_len cw = w_off w + w_len bw
  | Err => new_simple_value (rdw M w) = Err
  | Panic => new_simple_value (rdw M w) = Panic
  end.
Proof.
  intros V. unfold parse_simple, new_simple_value.
  pose proof (parse_varchar_spec M w V) as A. destruct (parse_varchar M w) as [[cw e]| |]; cbn [rbind].
  2,3: rewrite A; reflexivity.
  destruct A as (A1 & A2 & A3). rewrite A1. cbn [rbind].
  pose proof (win_upto_spec M w e V) as B. destruct (win_slice w 0 e) as [bw| |]; cbn [rbind].
  2: contradiction.
  2: rewrite B; reflexivity.
  destruct B as (B1 & B2 & B3 & B4). rewrite B1. cbn [rbind].
  exists bw, cw, e. splits; try assumption; try reflexivity. lia.
Qed.

Lemma parse_subkeys_spec M w n pos : valid M w ->
  match parse_subkeys M w n pos with
  | Ok (ks, p) => decode_subkeys n (rdw M w) pos = Ok (map (fun k => Some (rdw M k)) ks, p) /\ Forall (fun k => inside k w) ks
  | Err => decode_subkeys n (rdw M w) pos = Err
  | Panic => decode_subkeys n (rdw M w) pos = Panic
  end.
Proof.
  intros V. revert pos. induction n as [|n IH]; intros pos; cbn [parse_subkeys decode_subkeys].
  { split; [reflexivity|constructor]. }
  pose proof (win_from_spec M w pos V) as A. destruct (win_from w pos) as [rest| |]; cbn [rbind].
  2: contradiction.
  2: rewrite A; reflexivity.
  destruct A as (A1 & A2 & A3 & A4). rewrite A1. cbn [rbind].
  pose proof (parse_varchar_spec M rest (valid_inside _ _ _ V A2)) as B.
  destruct (parse_varchar M rest) as [[k l]| |]; cbn [rbind].
  2,3: rewrite B; reflexivity.
  destruct B as (B1 & B2 & B3). rewrite B1. cbn [rbind].
  specialize (IH (pos + l)%Z). destruct (parse_subkeys M w n (pos + l)) as [[ks p]| |]; cbn [rbind].
  2,3: rewrite IH; reflexivity.
  destruct IH as (I1 & I2). rewrite I1. cbn [rbind map]. split; [reflexivity|].
  constructor; [|exact I2]. eapply inside_trans; eassumption.
Qed.

(** A key object shows [k]. *)
Definition key_core (M : memory) (w : win) (o : pobj) (k : ikey) : Prop :=
  exists ks kw, o = PKey ks kw /\ k = KMapped (map (fun x => Some (rdw M x)) ks) (rdw M kw) /\ inside kw w /\
    Forall (fun x => inside x w) ks.
Definition key_shows (M : memory) (w : win) (o : pobj) (k : ikey) : Prop :=
  key_core M w o k /\ (exists ks, o = PKey ks w) /\ exists n, new_mapped_key (Some (rdw M w)) = Ok (k, n).

Lemma parse_key_core M w : valid M w ->
  match parse_key M w with
  | Ok o => exists k n, new_mapped_key (Some (rdw M w)) = Ok (k, n) /\ key_core M w o k /\ exists ks, o = PKey ks w
  | Err => new_mapped_key (Some (rdw M w)) = Err
  | Panic => new_mapped_key (Some (rdw M w)) = Panic
  end.
Proof.
  intros V. unfold parse_key, new_mapped_key, decode_keys. cbn [gcontent].
  destruct (decode_uvarint64 (rdw M w)) as [[n l]| |]; cbn [rbind]; try reflexivity.
  destruct (make_slices_ok n); cbn [rbind]; [|reflexivity].
  pose proof (parse_subkeys_spec M w (N.to_nat n) l V) as A.
  destruct (parse_subkeys M w (N.to_nat n) l) as [[ks p]| |]; cbn [rbind].
  2,3: rewrite A; reflexivity.
  destruct A as (A1 & A2). rewrite A1. cbn [rbind].
  exists (KMapped (map (fun x => Some (rdw M x)) ks) (rdw M w)), p. split; [reflexivity|]. split.
  - exists ks, w. splits; try assumption; try reflexivity; apply inside_refl.
  - exists ks. reflexivity.
Qed.

Lemma parse_key_spec M w : valid M w ->
  match parse_key M w with
  | Ok o => exists k n, new_mapped_key (Some (rdw M w)) = Ok (k, n) /\ key_shows M w o k /\ exists ks, o = PKey ks w
  | Err => new_mapped_key (Some (rdw M w)) = Err
  | Panic => new_mapped_key (Some (rdw M w)) = Panic
  end.
Proof.
  intros V. pose proof (parse_key_core M w V) as P. destruct (parse_key M w); [|exact P..].
  destruct P as (k & n & A & B & C). exists k, n. split; [exact A|]. split; [|exact C]. split; [exact B|]. split; [exact C|]. exists n. exact A.
Qed.

Lemma key_len_spec M w o k : valid M w -> key_shows M w o k ->
  exists b, ikey_buf k = Ok (Some b) /\ zlen b = key_len o.
Proof.
  intros V ((ks & kw & -> & -> & I1 & _) & _). pose proof (rdw_length _ _ (valid_inside _ _ _ V I1)) as L.
  unfold ikey_buf, ikey_is_empty, key_len. destruct (rdw M kw) as [|x b] eqn:R; cbn [length] in L.
  { rewrite <- L. exists [x00]. split; reflexivity. }
  rewrite <- L. destruct ks as [|k0 ks]; cbn [map].
  { exists [x00]. split; reflexivity. }
  eexists. split; [reflexivity|]. unfold zlen. reflexivity.
Qed.
Lemma val_len_spec M w o m : valid M w -> val_shows M w o m -> zlen (mv_buf m) = val_len o.
Proof.
  intros V ((bw & cw & body & -> & I1 & I2 & B & _) & _). rewrite <- B. cbn [val_len].
  apply rdw_zlen. eapply valid_inside; eassumption.
Qed.
Lemma val_shows_in M w x o m : val_shows M x o m -> inside x w ->
  exists bw cw body, o = PVal bw cw body /\ inside bw w /\ inside cw w /\ rdw M bw = mv_buf m /\ rdw M cw = mv_content m /\
    body_of (mv_body m) body.
Proof.
  intros ((bw & cw & body & -> & I1 & I2 & B & C & D & _) & _) I. exists bw, cw, body.
  splits; try assumption; try reflexivity; eapply inside_trans; eassumption.
Qed.

Lemma parse_record_spec M w : valid M w ->
  match parse_record M w with
  | Ok (ko, vo, co, ro) => exists bw ts sig k v c kw vw cw' n,
      new_mapped_record (rdw M w) = Ok (MRec (rdw M bw) k v c ts sig, n) /\
      (forall a, ro a = PRec bw (a + 1) (a + 2) (a + 3) ts sig) /\ inside bw w /\ w_off bw = w_off w /\
      inside kw w /\ inside vw w /\ inside cw' w /\
      (exists kb, ikey_buf k = Ok (Some kb) /\ w_off vw = w_off w + 1 + length kb) /\
      w_off cw' = w_off vw + length (mv_buf v) /\ w_off kw = w_off w + 1 /\
      w_off kw + w_len kw = w_off w + w_len w /\
      key_shows M kw ko k /\ val_shows M vw vo v /\ val_shows M cw' co c /\
      (exists b1 b2 b, vo = PVal b1 b2 b /\ fresh b) /\ (exists b1 b2 b, co = PVal b1 b2 b /\ fresh b)
  | Err => new_mapped_record (rdw M w) = Err
  | Panic => new_mapped_record (rdw M w) = Panic
  end.
Proof.
  intros V. unfold parse_record, new_mapped_record, record_decode.
  destruct (zlen (rdw M w) <? 1)%Z; [reflexivity|].
  destruct (go_index (rdw M w) 0) as [b0| |]; cbn [rbind]; try reflexivity.
  destruct (N.testbit (b2n b0) 6); cbn [rbind]; [|reflexivity].
  pose proof (win_from_spec M w 1 V) as A. destruct (win_from w 1) as [kw| |]; cbn [rbind].
  2: contradiction.
  2: rewrite A; reflexivity.
  destruct A as (A1 & A2 & A3 & A4). rewrite A1. cbn [rbind].
  pose proof (valid_inside _ _ _ V A2) as VK.
  pose proof (parse_key_spec M kw VK) as B. unfold bytes in *. destruct (parse_key M kw) as [ko| |]; cbn [rbind].
  2,3: rewrite B; reflexivity.
  destruct B as (k & kn & B1 & B2 & _). rewrite B1. cbn [rbind].
  destruct (key_len_spec M kw ko k VK B2) as (kb & K1 & K2). pose proof K1 as K1'. rewrite K1. cbn [rbind gcontent]. rewrite K2.
  destruct (max_key_length <? key_len ko)%Z; [reflexivity|].
  destruct (zlen (rdw M w) <? 1 + key_len ko)%Z; [reflexivity|].
  destruct (N.testbit (b2n b0) 5); cbn [rbind]; [|reflexivity].
  pose proof (win_from_spec M w (1 + key_len ko) V) as C. destruct (win_from w (1 + key_len ko)) as [vw| |]; cbn [rbind].
  2: contradiction.
  2: rewrite C; reflexivity.
  destruct C as (C1 & C2 & C3 & C4). rewrite C1. cbn [rbind].
  pose proof (valid_inside _ _ _ V C2) as VV.
  pose proof (parse_value_spec M vw VV) as D. destruct (parse_value M vw) as [vo| |]; cbn [rbind].
  2,3: rewrite D; reflexivity.
  destruct D as (v & vn & D1 & D2 & D3). rewrite D1. cbn [rbind].
  pose proof (val_len_spec M vw vo v VV D2) as LV. rewrite LV.
  destruct (max_value_length <? val_len vo)%Z; [reflexivity|].
  destruct (zlen (rdw M w) <? 1 + key_len ko + val_len vo)%Z; [reflexivity|].
  destruct (N.testbit (b2n b0) 4); cbn [rbind]; [|reflexivity].
  pose proof (win_from_spec M w (1 + key_len ko + val_len vo) V) as F.
  destruct (win_from w (1 + key_len ko + val_len vo)) as [cw| |]; cbn [rbind].
  2: contradiction.
  2: rewrite F; reflexivity.
  destruct F as (F1 & F2 & F3 & F4). rewrite F1. cbn [rbind].
  pose proof (valid_inside _ _ _ V F2) as VC.
  pose proof (parse_value_spec M cw VC) as G. destruct (parse_value M cw) as [co| |]; cbn [rbind].
  2,3: rewrite G; reflexivity.
  destruct G as (c & cn & G1 & G2 & G3). rewrite G1. cbn [rbind].
  rewrite (val_len_spec M cw co c VC G2).
  destruct (max_scheme_length <? val_len co)%Z; [reflexivity|].
  destruct (decode_record_tail (rdw M w) (b2n b0) (1 + key_len ko + val_len vo + val_len co)) as [[[ts sig] p]| |]; cbn [rbind];
    try reflexivity.
  pose proof (win_upto_spec M w p V) as H. destruct (win_slice w 0 p) as [bw| |]; cbn [rbind].
  2: contradiction.
  2: rewrite H; reflexivity.
  destruct H as (H1 & H2 & H3 & H4). rewrite H1. cbn [rbind].
  exists bw, ts, sig, k, v, c, kw, vw, cw, p.
  splits; try assumption; try reflexivity.
  - exists kb. split; [exact K1'|]. rewrite C4. cbn [w_off]. unfold zlen in K2. lia.
  - rewrite F4, C4. cbn [w_off]. unfold zlen in LV. lia.
  - rewrite A4. cbn [w_off]. reflexivity.
  - rewrite A4. cbn [w_off w_len]. lia.
Qed.
