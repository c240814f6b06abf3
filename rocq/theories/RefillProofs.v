(** * Proofs about decoding again. *)
From Coq Require Import List NArith ZArith Bool Lia.
From Coq Require Import Strings.Byte.
From Verif Require Import Base BaseProofs EndianModel VarintModel VarintSpec VarintProofs KeyModel ValueModel ValueSpec
  ValueProofs RecordProofs KindModel KindSpec KindProofs RefillModel RefillSpec.
Import ListNotations.
Local Open Scope Z_scope.

Definition put_head (h : heading) (o : sval) : sval :=
  match h with AsPrimitive => o | AsArray n => put_array o n | AsRecords n => put_records o n end.
Lemma put_head_counts h o : counts_of (put_head h o) = look h (counts_of o).
Proof. destruct h; reflexivity. Qed.

Lemma be_read_2 (h l : byte) (r : bytes) : be_read 2 (h :: l :: r) = Ok (256 * b2n h + b2n l)%N.
Proof. unfold be_read. cbn [length Nat.ltb Nat.leb firstn]. rewrite be_get_2. reflexivity. Qed.

Lemma small_code (m : byte) : ((b2n m / 64) mod 4 = b2n m / 64)%N.
Proof.
  apply N.mod_small. pose proof (b2n_bound m). apply N.div_lt_upper_bound; lia.
Qed.
Lemma code_0123 x : (x < 4)%N -> (x = 0 \/ x = 1 \/ x = 2 \/ x = 3)%N.
Proof. lia. Qed.

(** Both readings of the heading. *)
Lemma array_part (m : byte) (rest : bytes) o :
  let a := (b2n m / 64)%N in
  s_array_part (m :: rest) (b2n m) o =
    (if (a =? 0)%N then (o, Ok (1, false))
     else match count_at a rest with Some n => (put_array o n, Ok (1 + Z.of_N a, true)) | None => (o, Err) end) /\
  decode_array_bits (m :: rest) (b2n m) =
    (if (a =? 0)%N then Ok (BPrim, 1, false)
     else match count_at a rest with
          | Some n => Ok (BArr (repeat VEmpty (N.to_nat n)), 1 + Z.of_N a, true) | None => Err end).
Proof.
  cbn zeta. unfold s_array_part, decode_array_bits. rewrite small_code.
  assert (b2n m / 64 < 4)%N as L by (pose proof (b2n_bound m); apply N.div_lt_upper_bound; lia).
  destruct (code_0123 _ L) as [-> | [-> | [-> | ->]]]; cbn [N.eqb].
  - split; reflexivity.
  - destruct rest as [|x rest]; [split; reflexivity|].
    assert (zlen (m :: x :: rest) <? 1 + 1 = false) as ->
      by (apply Z.ltb_ge; unfold zlen; cbn [length]; lia).
    split; reflexivity.
  - destruct rest as [|x [|y rest]]; [split; reflexivity..|].
    assert (zlen (m :: x :: y :: rest) <? 2 + 1 = false) as ->
      by (apply Z.ltb_ge; unfold zlen; cbn [length]; lia).
    assert (go_from (m :: x :: y :: rest) 1 = Ok (x :: y :: rest)) as ->.
    { unfold go_from. assert (1 <=? zlen (m :: x :: y :: rest) = true) as ->
        by (apply Z.leb_le; unfold zlen; cbn [length]; lia). reflexivity. }
    cbn [rbind]. rewrite be_read_2. split; reflexivity.
  - destruct rest; split; reflexivity.
Qed.

Lemma record_part (m : byte) (rest : bytes) body o :
  let c := ((b2n m / 16) mod 4)%N in
  s_record_part (m :: rest) (b2n m) o 1 false =
    (if (c =? 0)%N then (o, Ok 1)
     else match count_at c rest with Some n => (put_records o n, Ok (1 + Z.of_N c)) | None => (o, Err) end) /\
  decode_record_bits (m :: rest) (b2n m) body 1 false =
    (if (c =? 0)%N then Ok (body, 1)
     else match count_at c rest with
          | Some n => Ok (BRec (repeat REmpty (N.to_nat n)), 1 + Z.of_N c) | None => Err end).
Proof.
  cbn zeta. unfold s_record_part, decode_record_bits.
  destruct (code_cases (b2n m / 16)) as [-> | [-> | [-> | ->]]]; cbn [N.eqb].
  - split; reflexivity.
  - destruct rest as [|x rest]; [split; reflexivity|].
    assert (zlen (m :: x :: rest) <? 1 + 1 = false) as ->
      by (apply Z.ltb_ge; unfold zlen; cbn [length]; lia).
    split; reflexivity.
  - destruct rest as [|x [|y rest]]; [split; reflexivity..|].
    assert (zlen (m :: x :: y :: rest) <? 2 + 1 = false) as ->
      by (apply Z.ltb_ge; unfold zlen; cbn [length]; lia).
    assert (go_from (m :: x :: y :: rest) 1 = Ok (x :: y :: rest)) as ->.
    { unfold go_from. assert (1 <=? zlen (m :: x :: y :: rest) = true) as ->
        by (apply Z.leb_le; unfold zlen; cbn [length]; lia). reflexivity. }
    cbn [rbind]. rewrite be_read_2. split; reflexivity.
  - destruct rest; split; reflexivity.
Qed.
Lemma record_part_set (b : bytes) magic body o pos :
  let c := ((magic / 16) mod 4)%N in
  s_record_part b magic o pos true = (o, if (c =? 0)%N then Ok pos else Err) /\
  decode_record_bits b magic body pos true = (if (c =? 0)%N then Ok (body, pos) else Err).
Proof.
  cbn zeta. unfold s_record_part, decode_record_bits.
  destruct (code_cases (magic / 16)) as [-> | [-> | [-> | ->]]]; split; reflexivity.
Qed.

Lemma count_at_length c rest n : count_at c rest = Some n -> 1 + Z.of_N c <= 1 + zlen rest /\ (c <> 0)%N.
Proof.
  unfold count_at, zlen. destruct c as [|[p|p|]]; [discriminate|..].
  - destruct p, rest; discriminate.
  - destruct p; [destruct rest; discriminate..|]. destruct rest as [|h [|l r]]; [discriminate..|]. cbn [length]. lia.
  - destruct rest; [discriminate|]. cbn [length]. lia.
Qed.

Lemma length_part (b : bytes) magic pos n p : 0 <= pos <= zlen b -> decode_length_bits b magic pos = Ok (n, p) ->
  0 <= n <= p /\ p <= zlen b.
Proof.
  intros P. rewrite decode_length_bits_read. cbn zeta. unfold read_field.
  destruct (code_cases magic) as [-> | [-> | [-> | ->]]]; cbn [is_set andb rbind].
  - intros H. inv H. lia.
  - destruct (zlen b <? 1 + pos); [discriminate|]. destruct (go_index b pos) as [x| |]; [|discriminate..].
    cbn [rbind]. destruct (Z.ltb_spec (zlen b) (pos + 1 + Z.of_N (b2n x))); [discriminate|]. intros H'. inv H'. lia.
  - destruct (zlen b <? 2 + pos); [discriminate|]. destruct (go_from b pos) as [x| |]; [|discriminate..].
    cbn [rbind]. destruct (be_read 2 x) as [k| |]; [|discriminate..]. cbn [rbind].
    destruct (Z.ltb_spec (zlen b) (pos + 2 + Z.of_N k)); [discriminate|]. intros H'. inv H'. lia.
  - discriminate.
Qed.

(** The rest of Decode, once the heading was read. *)
Definition s_finish (b : bytes) (magic : N) (o : sval) (pos : Z) : sval * res Z :=
  if N.testbit magic 3 then (o, Err)
  else if N.testbit magic 2 then (o, Err)
  else match decode_length_bits b magic pos with
       | Ok (n, pos) =>
           (SVal (Z.to_nat pos) (s_arr o) (s_recs o) (s_size o) (Z.to_nat (pos - n), Z.to_nat n) true, Ok pos)
       | Err => (o, Err)
       | Panic => (o, Panic)
       end.
Definition v_finish (b : bytes) (magic : N) (body : mbody) (pos : Z) : res (mval * Z) :=
  if N.testbit magic 3 then Err
  else if N.testbit magic 2 then Err
  else
    let? (n, pos) := decode_length_bits b magic pos in
    let? content := go_slice b (pos - n) pos in
    let? buf' := go_upto b pos in
    Ok (MVal buf' content body, pos).

(** What Decode does to an object whose heading is already looked at. *)
Definition finished (mem b : bytes) (o' : sval) (r : res Z) (o1 : sval) (f : res (mval * Z)) : Prop :=
  r = outcome f /\ counts_of o' = counts_of o1 /\
  (forall m n, f = Ok (m, n) -> firstn (s_len o') b = mv_buf m /\ range b (s_content o') = mv_content m /\
                               s_decoded o' = true /\ (s_len o' <= length b)%nat /\
                               (fst (s_content o') + snd (s_content o') <= length b)%nat /\
                               s_len o' = Z.to_nat n /\
                               s_content o' = (Z.to_nat n - length (mv_content m), length (mv_content m))%nat) /\
  ((forall n, r <> Ok n) -> o' = o1).

Lemma finish_ok mem (b : bytes) magic body o pos : 0 <= pos <= zlen b ->
  finished mem b (fst (s_finish b magic o pos)) (snd (s_finish b magic o pos)) o (v_finish b magic body pos) /\
  (forall m n, v_finish b magic body pos = Ok (m, n) -> mv_body m = body).
Proof.
  intros P. unfold s_finish, v_finish.
  destruct (N.testbit magic 3); [split; [|discriminate]; split; [|split; [|split]]; try easy|].
  destruct (N.testbit magic 2); [split; [|discriminate]; split; [|split; [|split]]; try easy|].
  destruct (decode_length_bits b magic pos) as [[n p]| |] eqn:D; cbn [rbind fst snd];
    [|split; [|discriminate]; split; [|split; [|split]]; easy..].
  destruct (length_part b magic pos n p P D) as (N & L).
  assert (go_slice b (p - n) p = Ok (range b (Z.to_nat (p - n), Z.to_nat n))) as ->.
  { unfold go_slice. assert ((0 <=? p - n) && (p - n <=? p) && (p <=? zlen b) = true) as ->.
    { rewrite !andb_true_iff. repeat split; apply Z.leb_le; lia. }
    unfold range. cbn [fst snd]. repeat f_equal. lia. }
  assert (go_upto b p = Ok (firstn (Z.to_nat p) b)) as ->.
  { unfold go_upto. assert ((0 <=? p) && (p <=? zlen b) = true) as ->; [|reflexivity].
    rewrite andb_true_iff. split; apply Z.leb_le; lia. }
  cbn [rbind]. split.
  - split; [reflexivity|split; [reflexivity|split]].
    + intros m k H. inv H. cbn [s_len s_content s_decoded mv_buf mv_content fst snd].
      unfold zlen in L. assert (length (range b (Z.to_nat (k - n), Z.to_nat n)) = Z.to_nat n) as RL.
      { unfold range. cbn [fst snd]. rewrite firstn_length, skipn_length. lia. }
      rewrite RL. split; [reflexivity|split; [reflexivity|split; [reflexivity|]]].
      split; [lia|split; [lia|split; [reflexivity|]]]. f_equal. lia.
    + intros H. destruct (H p eq_refl).
  - intros m k H. inv H. reflexivity.
Qed.

(** Decode looks at the heading, then does the rest. *)
Lemma s_decode_head mem o (m : byte) (rest : bytes) : s_buf mem o = m :: rest ->
  exists f, f = new_std_value (m :: rest) /\
  finished mem (m :: rest) (fst (s_decode mem o)) (snd (s_decode mem o)) (put_head (heading_of (m :: rest)) o) f /\
  (forall v n, f = Ok (v, n) -> mv_body v =
     match heading_of (m :: rest) with
     | AsPrimitive => BPrim | AsArray n => BArr (repeat VEmpty (N.to_nat n)) | AsRecords n => BRec (repeat REmpty (N.to_nat n))
     end).
Proof.
  intros B. eexists. split; [reflexivity|]. unfold new_std_value.
  assert (zlen (m :: rest) <? 1 = false) as -> by (apply Z.ltb_ge; unfold zlen; cbn [length]; lia).
  unfold s_decode, std_decode. rewrite B. cbn zeta. change (go_index (m :: rest) 0) with (Ok m). cbn [rbind].
  unfold heading_of. cbn zeta. change (Byte.to_N m) with (b2n m).
  destruct (array_part m rest o) as (-> & ->).
  assert (0 <= 1 <= zlen (m :: rest)) as P1 by (unfold zlen; cbn [length]; lia).
  destruct (N.eqb_spec (b2n m / 64) 0) as [A|A].
  - cbn [rbind]. destruct (record_part m rest BPrim o) as (-> & ->).
    destruct (N.eqb_spec ((b2n m / 16) mod 4) 0) as [R|R].
    + cbn [rbind].  rewrite R. cbn [count_at put_head]. apply (finish_ok mem (m :: rest) (b2n m) BPrim o 1 P1).
    + destruct (count_at ((b2n m / 16) mod 4) rest) as [n|] eqn:C.
      * cbn [rbind put_head]. apply count_at_length in C as [C _].
        apply (finish_ok mem (m :: rest) (b2n m) (BRec (repeat REmpty (N.to_nat n))) (put_records o n)).
        unfold zlen in *. cbn [length] in *. lia.
      * cbn [rbind put_head fst snd]. split; [|discriminate]. split; [reflexivity|split; [reflexivity|split]]; easy.
  - destruct (count_at (b2n m / 64) rest) as [n|] eqn:C.
    + cbn [rbind]. destruct (record_part_set (m :: rest) (b2n m) (BArr (repeat VEmpty (N.to_nat n))) (put_array o n)
        (1 + Z.of_N (b2n m / 64))) as (-> & ->).
      destruct (N.eqb_spec ((b2n m / 16) mod 4) 0) as [R|R].
      * cbn [rbind put_head]. apply count_at_length in C as [C _].
        apply (finish_ok mem (m :: rest) (b2n m) (BArr (repeat VEmpty (N.to_nat n))) (put_array o n)).
        unfold zlen in *. cbn [length] in *. lia.
      * cbn [rbind put_head fst snd]. split; [|discriminate]. split; [reflexivity|split; [reflexivity|split]]; easy.
    + cbn [rbind put_head fst snd]. split; [|discriminate]. split; [reflexivity|split; [reflexivity|split]]; easy.
Qed.

Lemma firstn_within (mem : bytes) n k : (k <= length (firstn n mem))%nat -> firstn k (firstn n mem) = firstn k mem.
Proof. intros H. rewrite firstn_firstn. f_equal. rewrite firstn_length in H. lia. Qed.
Lemma range_within (mem : bytes) n w : (fst w + snd w <= length (firstn n mem))%nat -> range (firstn n mem) w = range mem w.
Proof.
  intros H. unfold range. rewrite skipn_firstn_comm, firstn_firstn. f_equal. rewrite firstn_length in H. lia.
Qed.

(** ** Values *)
Lemma value_exact mem o o' r : s_buf mem o <> [] -> s_decode mem o = (o', r) ->
  r = outcome (new_std_value (s_buf mem o)) /\
  counts_of o' = look (heading_of (s_buf mem o)) (counts_of o) /\
  (forall m n, new_std_value (s_buf mem o) = Ok (m, n) ->
     s_buf mem o' = mv_buf m /\ range mem (s_content o') = mv_content m /\ s_decoded o' = true /\
     s_len o' = Z.to_nat n /\
     s_content o' = (Z.to_nat n - length (mv_content m), length (mv_content m))%nat) /\
  ((forall n, r <> Ok n) -> s_len o' = s_len o /\ s_content o' = s_content o /\ s_decoded o' = s_decoded o).
Proof.
  intros NE D. destruct (s_buf mem o) as [|m rest] eqn:B; [congruence|].
  destruct (s_decode_head mem o m rest B) as (f & F & (R & C & S & X) & _). rewrite D in *. cbn [fst snd] in *. rewrite <- F.
  split; [exact R|split; [|split]].
  - rewrite C. apply put_head_counts.
  - intros v n E. destruct (S v n E) as (S1 & S2 & S3 & S4 & S5 & S6 & S7).
    unfold s_buf in B. rewrite <- B in *. unfold s_buf. rewrite firstn_within in S1 by exact S4.
    rewrite range_within in S2 by exact S5. auto.
  - intros N. rewrite (X N). destruct (heading_of (m :: rest)); auto.
Qed.

Lemma value_body (b : bytes) v n : new_std_value b = Ok (v, n) ->
  mv_body v = match heading_of b with
     | AsPrimitive => BPrim | AsArray n => BArr (repeat VEmpty (N.to_nat n)) | AsRecords n => BRec (repeat REmpty (N.to_nat n))
     end.
Proof.
  intros E. destruct b as [|m rest]; [discriminate|].
  assert (s_buf (m :: rest) (s_new (length (m :: rest))) = m :: rest) as B by (unfold s_buf; cbn [s_new s_len]; apply firstn_all).
  destruct (s_decode_head _ _ m rest B) as (f & F & _ & K). rewrite F in K. exact (K v n E).
Qed.

Lemma face_exact mem o o' m n : new_std_value (s_buf mem o) = Ok (m, n) -> s_decode mem o = (o', Ok n) ->
  (s_face mem o' = face_of (VStd m) <->
   match heading_of (s_buf mem o) with
   | AsPrimitive => s_arr o = None /\ s_recs o = None /\ s_size o = 0%N
   | AsArray _ => s_recs o = None
   | AsRecords _ => s_arr o = None
   end).
Proof.
  intros E D. assert (s_buf mem o <> []) as NE by (intros Q; rewrite Q in E; discriminate E).
  destruct (value_exact mem o o' (Ok n) NE D) as (_ & C & S & _). destruct (S m n E) as (S1 & S2 & _).
  pose proof (value_body _ _ _ E) as MB. unfold counts_of, look in C.
  unfold s_face, face_of, mv_is_nil, mv_is_primitive, mv_is_array, mv_is_records, mv_size, mv_value.
  rewrite S1, S2, MB.
  destruct (heading_of (s_buf mem o)); injection C as Ca Cr Cs; rewrite Ca, Cr, Cs;
    destruct (s_arr o) as [na|], (s_recs o) as [nr|]; cbn [is_some negb andb orb]; rewrite ?repeat_length, ?Nnat.N2Nat.id;
    (split; [intros Q; try (injection Q; intros); try discriminate; auto|intros Q; try (destruct Q as (Q1 & Q2 & Q3)); try discriminate; subst; try rewrite Q3; reflexivity]).
Qed.

Lemma look_twice h c : look h (look h c) = look h c.
Proof. destruct c as [[a r] s], h; reflexivity. Qed.

Lemma value_again mem o o' n : s_buf mem o <> [] -> s_decode mem o = (o', Ok n) -> s_decode mem o' = (o', Ok n).
Proof.
  intros NE D. destruct (value_exact mem o o' (Ok n) NE D) as (R & C & S & _).
  destruct (new_std_value (s_buf mem o)) as [[m k]| |] eqn:E; try discriminate R. cbn [outcome] in R. inv R.
  destruct (S m k eq_refl) as (S1 & S2 & S3 & S4 & S5).
  destruct (std_decode_inv _ _ _ E) as (l & c & body & suf & B & L & -> & ->). cbn [mv_buf mv_content] in *.
  assert (new_std_value l = Ok (MVal l c body, zlen l)) as E' by (rewrite <- (app_nil_r l) at 1; now apply std_decode_layout).
  assert (heading_of l = heading_of (s_buf mem o)) as H.
  { pose proof (value_body _ _ _ E) as B1. pose proof (value_body _ _ _ E') as B2. cbn [mv_body] in B1, B2. rewrite B1 in B2.
    destruct (heading_of (s_buf mem o)), (heading_of l); try discriminate B2; try reflexivity;
      injection B2 as B2; apply (f_equal (@length _)) in B2; rewrite !repeat_length in B2; f_equal; lia. }
  destruct (s_decode mem o') as [o2 r2] eqn:D2.
  assert (s_buf mem o' <> []) as NE'.
  { rewrite S1. apply layout_nonempty in L. destruct l; [cbn in L; lia|discriminate]. }
  destruct (value_exact mem o' o2 r2 NE' D2) as (R2 & C2 & T & _). rewrite S1 in *. rewrite E' in *. cbn [outcome] in R2.
  subst r2. destruct (T _ _ eq_refl) as (T1 & T2 & T3 & T4 & T5). f_equal.
  rewrite H, C, look_twice in C2. rewrite <- C in C2. unfold counts_of in C2. cbn [mv_content] in *.
  destruct o' as [l1 a1 r1 z1 c1 d1], o2 as [l2 a2 r2 z2 c2 d2]. cbn in *. congruence.
Qed.

Lemma value_sticky mems o :
  (s_arr o <> None -> s_arr (s_after mems o) <> None) /\ (s_recs o <> None -> s_recs (s_after mems o) <> None).
Proof.
  revert o. induction mems as [|mem mems IH]; intros o; [split; trivial|]. cbn [s_after fold_left].
  destruct (IH (fst (s_decode mem o))) as (A & B).
  assert ((s_arr o <> None -> s_arr (fst (s_decode mem o)) <> None) /\ (s_recs o <> None -> s_recs (fst (s_decode mem o)) <> None)) as (A' & B').
  { destruct (s_buf mem o) as [|m rest] eqn:Q.
    - unfold s_decode. rewrite Q. split; trivial.
    - destruct (s_decode mem o) as [o' r] eqn:D.
      destruct (value_exact mem o o' r ltac:(congruence) D) as (_ & C & _). unfold counts_of, look in C.
      cbn [fst]. destruct (heading_of (s_buf mem o)); injection C as -> -> _; split; trivial; discriminate. }
  split; auto.
Qed.

Lemma value_shrinks mem o : (length (s_buf mem (fst (s_decode mem o))) <= length (s_buf mem o))%nat.
Proof.
  destruct (s_buf mem o) as [|m rest] eqn:Q.
  - assert (fst (s_decode mem o) = o) as -> by (unfold s_decode; rewrite Q; reflexivity). rewrite Q. lia.
  - destruct (s_decode mem o) as [o' r] eqn:D. cbn [fst].
    destruct (value_exact mem o o' r ltac:(congruence) D) as (R & _ & S & X). rewrite Q in *.
    destruct (new_std_value (m :: rest)) as [[v n]| |] eqn:E.
    + destruct (S v n eq_refl) as (-> & _). destruct (std_decode_inv _ _ _ E) as (l & c & body & suf & B & L & -> & ->).
      cbn [mv_buf]. rewrite B, app_length. lia.
    + destruct X as (X & _); [intros n; rewrite R; discriminate|]. unfold s_buf in *. rewrite X, Q. lia.
    + destruct X as (X & _); [intros n; rewrite R; discriminate|]. unfold s_buf in *. rewrite X, Q. lia.
Qed.

(** ** Length-prefixed values *)
Lemma simple_exact mem o o' r : p_decode mem o = (o', r) ->
  r = outcome (new_simple_value (p_buf mem o)) /\
  (forall b c n, new_simple_value (p_buf mem o) = Ok (VSimple b c, n) ->
     p_buf mem o' = b /\ range mem (p_content o') = c /\ p_decoded o' = true) /\
  ((forall n, r <> Ok n) -> o' = o).
Proof.
  unfold p_decode, new_simple_value. destruct (decode_varchar (p_buf mem o)) as [[data k]| |] eqn:D; cbn [rbind];
    [|intros H; inv H; split; [reflexivity|split; [discriminate|trivial]]..].
  assert (exists pre rest, p_buf mem o = pre ++ data ++ rest /\ k = zlen (pre ++ data)) as (pre & rest & B & ->).
  { destruct (varchar_inside _ _ _ D) as [(-> & -> & ->)|(pre & rest & B & _ & K)]; [exists [], []; auto|exists pre, rest; auto]. }
  assert (go_upto (p_buf mem o) (zlen (pre ++ data)) = Ok (pre ++ data)) as ->.
  { rewrite B, app_assoc. apply go_upto_app. }
  cbn [rbind]. intros H. inv H. split; [reflexivity|split; [|intros H; destruct (H _ eq_refl)]].
  intros b c n H. inv H.
  assert (Z.to_nat (zlen (pre ++ c)) = length (pre ++ c)) as L by (unfold zlen; lia).
  assert (length (pre ++ c) <= length (firstn (p_len o) mem))%nat as LB.
  { change (firstn (p_len o) mem) with (p_buf mem o). rewrite B, !app_length. lia. }
  cbn [p_buf p_len p_content p_decoded]. rewrite L. split; [|split; [|reflexivity]].
  - unfold p_buf. cbn [p_len]. rewrite <- (firstn_within mem (p_len o)) by exact LB.
    change (firstn (p_len o) mem) with (p_buf mem o). rewrite B, app_assoc, firstn_app, Nat.sub_diag, firstn_all, firstn_O, app_nil_r.
    reflexivity.
  - rewrite <- (range_within mem (p_len o)).
    + change (firstn (p_len o) mem) with (p_buf mem o). rewrite B. unfold range. cbn [fst snd].
      rewrite app_length, Nat.add_sub, skipn_app, skipn_all, Nat.sub_diag. cbn [skipn app].
      rewrite firstn_app, Nat.sub_diag, firstn_all, firstn_O, app_nil_r. reflexivity.
    + cbn [fst snd]. rewrite app_length in *. lia.
Qed.

Lemma simple_again mem o o' n : p_decode mem o = (o', Ok n) -> p_decode mem o' = (o', Ok n).
Proof.
  intros D. pose proof D as D'. unfold p_decode in D.
  destruct (decode_varchar (p_buf mem o)) as [[data k]| |] eqn:V; try discriminate D. inv D.
  destruct (simple_exact mem o _ _ D') as (R & S & _).
  assert (decode_varchar (p_buf mem (PVal (Z.to_nat n) (Z.to_nat n - length data, length data)%nat true)) = Ok (data, n)) as E.
  { unfold new_simple_value in R, S. rewrite V in R, S. cbn [rbind] in R, S.
    destruct (go_upto (p_buf mem o) n) as [b| |] eqn:G; try discriminate R. cbn [rbind] in S.
    destruct (S b data n eq_refl) as (-> & _).
    destruct (varchar_inside _ _ _ V) as [(Q & -> & ->)|(pre & rest & Q & NU & ->)].
    - rewrite Q in G. cbv in G. inv G. reflexivity.
    - rewrite Q, app_assoc, go_upto_app in G. inv G.
      rewrite Q, (decode_varchar_header pre (data ++ rest) _ NU) in V.
      rewrite (decode_varchar_header pre data _ NU).
      destruct (2 ^ 63 <=? zlen pre + Z.of_N (N.of_nat (length data))); [discriminate V|].
      assert (zlen data <? Z.of_N (N.of_nat (length data)) = false) as -> by (apply Z.ltb_ge; unfold zlen; lia).
      rewrite Nnat.Nat2N.id, firstn_all, zlen_app. unfold zlen. repeat f_equal. lia. }
  unfold p_decode. rewrite E. reflexivity.
Qed.

(** ** Keys *)
Lemma key_fill n (buf : bytes) pos :
  (match k_fill n buf pos with
   | (ks, Ok p) => decode_subkeys n buf pos = Ok (ks, p)
   | (_, Err) => decode_subkeys n buf pos = Err
   | (_, Panic) => decode_subkeys n buf pos = Panic
   end) /\
  (exists known : list bytes, (length known <= n)%nat /\
     fst (k_fill n buf pos) = map Some known ++ repeat None (n - length known) /\
     ((forall p, snd (k_fill n buf pos) <> Ok p) -> (length known < n)%nat)).
Proof.
  revert pos. induction n as [|n IH]; intros pos; cbn [k_fill decode_subkeys].
  - split; [reflexivity|]. exists []. split; [cbn; lia|split; [reflexivity|]]. intros H. destruct (H pos eq_refl).
  - destruct (go_from buf pos) as [rest| |]; cbn [rbind];
      [|split; [reflexivity|exists []; split; [cbn; lia|split; [reflexivity|cbn; lia]]]..].
    destruct (decode_varchar rest) as [[k l]| |]; cbn [rbind];
      [|split; [reflexivity|exists []; split; [cbn; lia|split; [reflexivity|cbn; lia]]]..].
    destruct (IH (pos + l)) as (A & known & L & F & X). destruct (k_fill n buf (pos + l)) as [ks r]. split.
    + destruct r; rewrite A; reflexivity.
    + exists (k :: known). cbn [fst snd length map app] in *. split; [lia|split; [rewrite F; reflexivity|]].
      intros H. specialize (X H). lia.
Qed.

Lemma key_exact (buf : bytes) o o' r : k_decode buf o = (o', r) ->
  r = outcome (decode_keys buf) /\
  (forall ks n, decode_keys buf = Ok (ks, n) -> k_keys o' = ks /\ k_decoded o' = true) /\
  ((forall n, r <> Ok n) -> k_decoded o' = k_decoded o /\
     (k_keys o' = k_keys o \/
      exists n l (known : list bytes), decode_uvarint64 buf = Ok (n, l) /\ (length known < N.to_nat n)%nat /\
        k_keys o' = map Some known ++ repeat None (N.to_nat n - length known))).
Proof.
  unfold k_decode, decode_keys. destruct (decode_uvarint64 buf) as [[n l]| |] eqn:U; cbn [rbind];
    [|intros H; inv H; split; [reflexivity|split; [discriminate|auto]]..].
  destruct (make_slices_ok n); [|intros H; inv H; split; [reflexivity|split; [discriminate|auto]]].
  destruct (key_fill (N.to_nat n) buf l) as (A & known & L & F & X).
  destruct (k_fill (N.to_nat n) buf l) as [ks [p| |]]; intros H; inv H; rewrite A; cbn [fst snd k_keys k_decoded outcome] in *.
  - split; [reflexivity|split; [|intros H; destruct (H _ eq_refl)]]. intros ks' n' H. inv H. auto.
  - split; [reflexivity|split; [discriminate|]]. intros _. split; [reflexivity|right].
    exists n, l, known. split; [reflexivity|split; [apply X; discriminate|exact F]].
  - split; [reflexivity|split; [discriminate|]]. intros _. split; [reflexivity|right].
    exists n, l, known. split; [reflexivity|split; [apply X; discriminate|exact F]].
Qed.
Lemma key_again (buf : bytes) o o' n : k_decode buf o = (o', Ok n) -> k_decode buf o' = (o', Ok n).
Proof.
  unfold k_decode. destruct (decode_uvarint64 buf) as [[c l]| |]; try discriminate.
  destruct (make_slices_ok c); [|discriminate]. destruct (k_fill (N.to_nat c) buf l) as [ks [p| |]]; try discriminate.
  intros H. inv H. reflexivity.
Qed.

(** ** Records *)
Lemma record_decode_parts (buf : bytes) : record_decode buf =
  let? b0 := go_index buf 0 in
  let magic := b2n b0 in
  let? (k, pos) := r_key_part buf magic in
  let? (v, pos) := r_value_part buf (N.testbit magic 5) max_value_length pos in
  let? (s, pos) := r_value_part buf (N.testbit magic 4) max_scheme_length pos in
  let? (ts, sig, pos) := decode_record_tail buf magic pos in
  let? buf' := go_upto buf pos in
  Ok (MRec buf' k v s ts sig, pos).
Proof.
  unfold record_decode, r_key_part, r_value_part.
  destruct (go_index buf 0) as [b0| |]; [|reflexivity..]. cbn [rbind]. cbn zeta.
  destruct (if N.testbit (b2n b0) 6 then _ else Panic) as [key| |]; [|reflexivity..]. cbn [rbind].
  destruct (ikey_buf key) as [kbuf| |]; [|reflexivity..]. cbn [rbind].
  destruct (max_key_length <? zlen (gcontent kbuf)); [reflexivity|]. cbn [rbind].
  destruct (zlen buf <? 1 + zlen (gcontent kbuf)); [reflexivity|].
  destruct (if N.testbit (b2n b0) 5 then _ else Panic) as [value| |]; [|reflexivity..]. cbn [rbind].
  destruct (max_value_length <? zlen (mv_buf value)); [reflexivity|]. cbn [rbind].
  destruct (zlen buf <? 1 + zlen (gcontent kbuf) + zlen (mv_buf value)); [reflexivity|].
  destruct (if N.testbit (b2n b0) 4 then _ else Panic) as [scheme| |]; [|reflexivity..]. cbn [rbind].
  destruct (max_scheme_length <? zlen (mv_buf scheme)); reflexivity.
Qed.

Lemma skipn_suffix (buf : bytes) pos rest : go_from buf pos = Ok rest -> exists pre, buf = pre ++ rest /\ zlen pre = pos.
Proof.
  unfold go_from. destruct (Z.leb_spec 0 pos); [|discriminate]. destruct (Z.leb_spec pos (zlen buf)); [|discriminate].
  intros H'. inv H'. exists (firstn (Z.to_nat pos) buf). split; [symmetry; apply firstn_skipn|].
  unfold zlen in *. rewrite firstn_length. lia.
Qed.

(** A value or scheme that was read is a parse of bytes of the buffer, and ends inside it. *)
Lemma value_part_ok (buf : bytes) bit limit pos v p : r_value_part buf bit limit pos = Ok (v, p) ->
  exists pre suf n, buf = pre ++ suf /\ zlen pre = pos /\ new_std_value suf = Ok (v, n) /\ p = pos + zlen (mv_buf v) /\
    pos <= p <= zlen buf.
Proof.
  unfold r_value_part. destruct (zlen buf <? pos); [discriminate|]. destruct bit; [|discriminate].
  destruct (go_from buf pos) as [rest| |] eqn:G; [|discriminate..]. cbn [rbind].
  destruct (new_std_value rest) as [[w n]| |] eqn:E; [|discriminate..]. cbn [rbind].
  destruct (limit <? zlen (mv_buf w)); [discriminate|]. intros H. inv H.
  destruct (skipn_suffix _ _ _ G) as (pre & -> & <-). exists pre, rest, n.
  destruct (std_decode_inv _ _ _ E) as (l & c & body & suf & -> & _ & -> & ->). cbn [mv_buf] in *.
  rewrite !zlen_app. pose proof (zlen_nonneg l). pose proof (zlen_nonneg suf). repeat split; try reflexivity; try exact E; lia.
Qed.
Lemma key_part_ok (buf : bytes) (m : byte) (rest : list byte) magic k p : buf = m :: rest -> r_key_part buf magic = Ok (k, p) ->
  (exists n, new_mapped_key (Some rest) = Ok (k, n)) /\ 1 <= p.
Proof.
  intros ->. unfold r_key_part. destruct (N.testbit magic 6); [|discriminate].
  destruct (go_from (m :: rest) 1) as [rest'| |] eqn:G; [|discriminate..]. cbn [rbind].
  assert (rest' = rest) as ->.
  { unfold go_from in G. destruct ((0 <=? 1) && (1 <=? zlen (m :: rest))); [|discriminate]. inv G. reflexivity. }
  destruct (new_mapped_key (Some rest)) as [[k' n]| |]; cbn [rbind]; [|intros H; discriminate H..].
  destruct (ikey_buf k') as [kb| |]; [|discriminate..]. cbn [rbind].
  destruct (max_key_length <? zlen (gcontent kb)); [discriminate|]. intros H.
  assert (k' = k) as -> by congruence. assert (p = 1 + zlen (gcontent kb)) as -> by congruence.
  split; [exists n; reflexivity|]. pose proof (zlen_nonneg (gcontent kb)). lia.
Qed.

(** The timestamp and signature parts. *)
Lemma tail_exact (buf : bytes) magic o pos : 0 <= pos <= zlen buf ->
  match decode_record_tail buf magic pos with
  | Ok (t, g, p) => exists p1,
      r_ts_part buf magic o pos = ((if N.testbit magic 2 then put_ts o t else o), Ok p1) /\
      (forall o1, r_sig_part buf magic o1 p1 = ((if N.testbit magic 1 then put_sig o1 g else o1), Ok p)) /\
      0 <= p <= zlen buf
  | Err => r_ts_part buf magic o pos = (put_ts o None, Err)
  | Panic => False
  end.
Proof.
  intros P. unfold decode_record_tail, r_ts_part, r_sig_part.
  assert (zlen buf <? pos = false) as C by (apply Z.ltb_ge; lia). rewrite !C.
  assert (forall p1 (ts : option Z), 0 <= p1 <= zlen buf ->
    match (if N.testbit magic 1 then
        if zlen buf <? p1 then Err
        else if zlen buf <? p1 + 64 then Ok (ts, None, p1)
        else let? r := go_slice buf p1 (p1 + 32) in
             let? s := go_slice buf (p1 + 32) (p1 + 64) in Ok (ts, Some (bytes_to_big r, bytes_to_big s), p1 + 64)
      else Ok (ts, None, p1)) with
    | Ok (t, g, p) => t = ts /\ (forall o1, (if N.testbit magic 1 then
    if zlen buf <? p1 then (o1, Err)
    else if zlen buf <? p1 + 64 then (put_sig o1 None, Ok p1)
    else match (let? r := go_slice buf p1 (p1 + 32) in
                let? s := go_slice buf (p1 + 32) (p1 + 64) in Ok (bytes_to_big r, bytes_to_big s)) with
         | Ok rs => (put_sig o1 (Some rs), Ok (p1 + 64))
         | Err => (o1, Err)
         | Panic => (o1, Panic)
         end
  else (o1, Ok p1)) = ((if N.testbit magic 1 then put_sig o1 g else o1), Ok p)) /\ 0 <= p <= zlen buf
    | _ => False
    end) as SG.
  { intros p1 ts P1. destruct (N.testbit magic 1); [|auto].
    assert (zlen buf <? p1 = false) as -> by (apply Z.ltb_ge; lia).
    destruct (Z.ltb_spec (zlen buf) (p1 + 64)); [auto|].
    unfold go_slice.
    assert ((0 <=? p1) && (p1 <=? p1 + 32) && (p1 + 32 <=? zlen buf) = true) as ->
      by (rewrite !andb_true_iff; repeat split; apply Z.leb_le; lia).
    assert ((0 <=? p1 + 32) && (p1 + 32 <=? p1 + 64) && (p1 + 64 <=? zlen buf) = true) as ->
      by (rewrite !andb_true_iff; repeat split; apply Z.leb_le; lia).
    cbn [rbind]. split; [reflexivity|split; [reflexivity|lia]]. }
  destruct (N.testbit magic 2) eqn:T2.
  - destruct (go_from buf pos) as [rest| |] eqn:G; cbn [rbind].
    + destruct (bytes_to_time rest) as [t| |] eqn:BT; cbn [rbind].
      * destruct (skipn_suffix _ _ _ G) as (pre & -> & <-).
        assert (8 <= zlen rest) as L8.
        { unfold bytes_to_time in BT. destruct (Nat.ltb_spec (length rest) 8); [discriminate BT|unfold zlen; lia]. }
        assert (0 <= zlen pre + 8 <= zlen (pre ++ rest)) as P8 by (rewrite zlen_app; lia).
        specialize (SG (zlen pre + 8) (Some t) P8).
        destruct (if N.testbit magic 1 then _ else _) as [[[t' g] p]| |]; [|destruct SG..].
        destruct SG as (-> & S1 & S2). exists (zlen pre + 8). split; [reflexivity|split; [exact S1|exact S2]].
      * reflexivity.
      * unfold bytes_to_time in BT. destruct (Nat.ltb_spec (length rest) 8); [discriminate BT|].
        unfold go_upto in BT. assert ((0 <=? 8) && (8 <=? zlen rest) = true) as Q
          by (rewrite andb_true_iff; split; apply Z.leb_le; unfold zlen; lia).
        rewrite Q in BT. cbn [rbind] in BT. unfold be_read in BT.
        destruct (Nat.ltb_spec (length (firstn (Z.to_nat 8) rest)) 8) as [F|F]; [|discriminate BT].
        rewrite firstn_length in F. lia.
    + unfold go_from in G. destruct ((0 <=? pos) && (pos <=? zlen buf)); discriminate G.
    + unfold go_from in G.
      assert ((0 <=? pos) && (pos <=? zlen buf) = true) as Q by (rewrite andb_true_iff; split; apply Z.leb_le; lia).
      rewrite Q in G. discriminate G.
  - cbn [rbind]. specialize (SG pos None P).
    destruct (if N.testbit magic 1 then _ else _) as [[[t' g] p]| |]; [|destruct SG..].
    destruct SG as (-> & S1 & S2). exists pos. split; [reflexivity|split; [exact S1|exact S2]].
Qed.

Lemma record_exact mem o o' r : r_buf mem o <> [] -> r_decode mem o = (o', r) ->
  r = outcome (new_mapped_record (r_buf mem o)) /\
  (forall b k v s t g n, new_mapped_record (r_buf mem o) = Ok (MRec b k v s t g, n) ->
     exists m rest, r_buf mem o = m :: rest /\
     r_buf mem o' = b /\ r_key o' = Some k /\ r_value o' = Some v /\ r_scheme o' = Some s /\
     r_ts o' = (if N.testbit (b2n m) 2 then t else r_ts o) /\
     r_sig o' = (if N.testbit (b2n m) 1 then g else r_sig o) /\ r_decoded o' = true) /\
  ((forall n, r <> Ok n) ->
     o' = o \/
     exists m rest k n, r_buf mem o = m :: rest /\ new_mapped_key (Some rest) = Ok (k, n) /\
       (o' = put_key o k \/
        exists p1 q1 v n1, r_buf mem o = p1 ++ q1 /\ new_std_value q1 = Ok (v, n1) /\
          (o' = put_value (put_key o k) v \/
           exists p2 q2 s n2, r_buf mem o = p2 ++ q2 /\ new_std_value q2 = Ok (s, n2) /\
             o' = put_ts (put_scheme (put_value (put_key o k) v) s) None))).
Proof.
  intros NE. unfold r_decode, new_mapped_record. cbn zeta. destruct (r_buf mem o) as [|m rest] eqn:B; [congruence|].
  assert (zlen (m :: rest) <? 1 = false) as -> by (apply Z.ltb_ge; unfold zlen; cbn [length]; lia).
  rewrite record_decode_parts. change (go_index (m :: rest) 0) with (Ok m). cbn [rbind]. cbn zeta.
  destruct (r_key_part (m :: rest) (b2n m)) as [[k p0]| |] eqn:K; cbn [rbind];
    [|intros H; inv H; split; [reflexivity|split; [discriminate|intros _; left; reflexivity]]..].
  destruct (key_part_ok _ m rest _ _ _ eq_refl K) as ((kn & KN) & P0).
  destruct (r_value_part (m :: rest) (N.testbit (b2n m) 5) max_value_length p0) as [[v p1]| |] eqn:V; cbn [rbind];
    [|intros H; inv H; split; [reflexivity|split; [discriminate|intros _; right; exists m, rest, k, kn;
        split; [reflexivity|split; [exact KN|left; reflexivity]]]]..].
  destruct (value_part_ok _ _ _ _ _ _ V) as (a1 & q1 & n1 & Q1 & _ & E1 & _ & P1).
  destruct (r_value_part (m :: rest) (N.testbit (b2n m) 4) max_scheme_length p1) as [[s p2]| |] eqn:S; cbn [rbind];
    [|intros H; inv H; split; [reflexivity|split; [discriminate|intros _; right; exists m, rest, k, kn;
        split; [reflexivity|split; [exact KN|right; exists a1, q1, v, n1; split; [exact Q1|split; [exact E1|left; reflexivity]]]]]]..].
  destruct (value_part_ok _ _ _ _ _ _ S) as (a2 & q2 & n2 & Q2 & _ & E2 & _ & P2).
  pose proof (tail_exact (m :: rest) (b2n m) (put_scheme (put_value (put_key o k) v) s) p2 ltac:(lia)) as T.
  destruct (decode_record_tail (m :: rest) (b2n m) p2) as [[[t g] p]| |]; cbn [rbind].
  - destruct T as (p3 & -> & TS & P). rewrite TS.
    assert (go_upto (m :: rest) p = Ok (firstn (Z.to_nat p) (m :: rest))) as ->.
    { unfold go_upto. assert ((0 <=? p) && (p <=? zlen (m :: rest)) = true) as ->; [|reflexivity].
      rewrite andb_true_iff. split; apply Z.leb_le; lia. }
    cbn [rbind]. intros H. inv H. split; [reflexivity|split; [|intros H; destruct (H _ eq_refl)]].
    intros b k' v' s' t' g' n H. inv H. exists m, rest. split; [reflexivity|].
    split. { unfold r_buf in *. cbn [r_len]. rewrite <- B. symmetry. apply firstn_within. rewrite B. unfold zlen in P. lia. }
    destruct (N.testbit (b2n m) 2), (N.testbit (b2n m) 1); cbn; auto 10.
  - rewrite T. intros H. inv H. split; [reflexivity|split; [discriminate|intros _; right]].
    exists m, rest, k, kn. split; [reflexivity|split; [exact KN|right]].
    exists a1, q1, v, n1. split; [exact Q1|split; [exact E1|right]].
    exists a2, q2, s, n2. auto.
  - destruct T.
Qed.

Lemma tail_unset (buf : bytes) magic pos t g p : decode_record_tail buf magic pos = Ok (t, g, p) ->
  (N.testbit magic 2 = false -> t = None) /\ (N.testbit magic 1 = false -> g = None).
Proof.
  unfold decode_record_tail.
  destruct (N.testbit magic 2).
  - destruct (zlen buf <? pos); [discriminate|]. destruct (go_from buf pos) as [rest| |]; [|discriminate..]. cbn [rbind].
    destruct (bytes_to_time rest) as [t'| |]; [|discriminate..]. cbn [rbind].
    destruct (N.testbit magic 1); [intros _; split; discriminate|]. intros H. inv H. split; [discriminate|reflexivity].
  - cbn [rbind]. destruct (N.testbit magic 1); [|intros H; inv H; split; reflexivity].
    destruct (zlen buf <? pos); [discriminate|]. destruct (zlen buf <? pos + 64); [intros H; inv H; split; [reflexivity|discriminate]|].
    destruct (go_slice buf pos (pos + 32)) as [r| |]; [|discriminate..]. cbn [rbind].
    destruct (go_slice buf (pos + 32) (pos + 64)) as [s| |]; [|discriminate..]. cbn [rbind]. intros H. inv H.
    split; [reflexivity|discriminate].
Qed.

(** What a parsed record consists of. *)
Lemma record_parts (m : byte) (rest : list byte) b k v s t g n : new_mapped_record (m :: rest) = Ok (MRec b k v s t g, n) ->
  exists p0 p1 p2,
    r_key_part (m :: rest) (b2n m) = Ok (k, p0) /\
    r_value_part (m :: rest) (N.testbit (b2n m) 5) max_value_length p0 = Ok (v, p1) /\
    r_value_part (m :: rest) (N.testbit (b2n m) 4) max_scheme_length p1 = Ok (s, p2) /\
    decode_record_tail (m :: rest) (b2n m) p2 = Ok (t, g, n) /\
    b = firstn (Z.to_nat n) (m :: rest) /\ 1 <= p0 <= p1 /\ p1 <= p2 /\ p2 <= n <= zlen (m :: rest).
Proof.
  unfold new_mapped_record. destruct (zlen (m :: rest) <? 1); [discriminate|].
  rewrite record_decode_parts. change (go_index (m :: rest) 0) with (Ok m). cbn [rbind]. cbn zeta.
  destruct (r_key_part (m :: rest) (b2n m)) as [[k' p0]| |] eqn:K; cbn [rbind]; [|discriminate..].
  destruct (key_part_ok _ m rest _ _ _ eq_refl K) as (_ & P0).
  destruct (r_value_part (m :: rest) (N.testbit (b2n m) 5) max_value_length p0) as [[v' p1]| |] eqn:V; cbn [rbind]; [|discriminate..].
  destruct (value_part_ok _ _ _ _ _ _ V) as (a1 & q1 & n1 & Q1 & _ & E1 & _ & P1).
  destruct (r_value_part (m :: rest) (N.testbit (b2n m) 4) max_scheme_length p1) as [[s' p2]| |] eqn:S; cbn [rbind]; [|discriminate..].
  destruct (value_part_ok _ _ _ _ _ _ S) as (a2 & q2 & n2 & Q2 & _ & E2 & _ & P2).
  destruct (tail_spec (m :: rest) (b2n m) p2 ltac:(lia)) as [T|(t' & g' & p & T & P)]; rewrite T; cbn [rbind]; [discriminate|].
  unfold go_upto. destruct ((0 <=? p) && (p <=? zlen (m :: rest))); [|discriminate]. cbn [rbind].
  intros H. injection H as <- <- <- <- <- <- <-. exists p0, p1, p2. repeat split; try assumption; try lia.
Qed.

Lemma record_face mem o o' m n : new_mapped_record (r_buf mem o) = Ok (m, n) -> r_decode mem o = (o', Ok n) ->
  exists x rest, r_buf mem o = x :: rest /\
  (r_shows o' m <-> (N.testbit (b2n x) 2 = true \/ r_ts o = None) /\ (N.testbit (b2n x) 1 = true \/ r_sig o = None)).
Proof.
  intros E D. assert (r_buf mem o <> []) as NE by (intros Q; rewrite Q in E; discriminate E).
  destruct m as [b k v s t g].
  destruct (record_exact mem o o' (Ok n) NE D) as (_ & S & _).
  destruct (S b k v s t g n E) as (x & rest & B & _ & Ek & Ev & Es & Et & Eg & _). exists x, rest. split; [exact B|].
  rewrite B in E. destruct (record_parts _ _ _ _ _ _ _ _ _ E) as (p0 & p1 & p2 & _ & _ & _ & T & _).
  destruct (tail_unset _ _ _ _ _ _ T) as (T2 & T1). unfold r_shows. rewrite Ek, Ev, Es, Et, Eg. cbn [keys_of option_map].
  split.
  - intros (_ & _ & _ & A & B').
    destruct (N.testbit (b2n x) 2), (N.testbit (b2n x) 1); rewrite ?T1, ?T2 in * by reflexivity; auto.
  - intros (A & B').
    destruct (N.testbit (b2n x) 2), (N.testbit (b2n x) 1); rewrite ?T1, ?T2 by reflexivity;
      (split; [reflexivity|split; [reflexivity|split; [reflexivity|]]]);
      destruct A as [A|A]; try discriminate A; destruct B' as [B'|B']; try discriminate B'; auto.
Qed.

(** The same on the bytes of the record alone. *)
Lemma value_part_trim (buf : bytes) bit limit pos v p q : 0 <= pos -> r_value_part buf bit limit pos = Ok (v, p) ->
  p <= Z.of_nat q -> r_value_part (firstn q buf) bit limit pos = Ok (v, p).
Proof.
  intros P0 H Q. destruct (value_part_ok _ _ _ _ _ _ H) as (pre & suf & n & -> & L & E & P & PB).
  unfold r_value_part in *. destruct (zlen (pre ++ suf) <? pos) eqn:C; [discriminate H|]. destruct bit; [|discriminate H].
  destruct (std_decode_inv _ _ _ E) as (l & c & body & s & -> & LA & -> & ->). cbn [mv_buf] in *.
  assert (firstn q (pre ++ l ++ s) = pre ++ l ++ firstn (q - length pre - length l) s) as F.
  { rewrite !firstn_app. unfold zlen in *. rewrite !firstn_all2 by lia. reflexivity. }
  rewrite F. assert (zlen (pre ++ l ++ firstn (q - length pre - length l) s) <? pos = false) as ->.
  { apply Z.ltb_ge. unfold zlen in *. rewrite app_length. lia. }
  rewrite <- L in *. rewrite go_from_app in *. cbn [rbind] in *.
  rewrite E in H. rewrite (std_decode_layout l c body _ LA). cbn [rbind mv_buf] in *. exact H.
Qed.
Lemma bytes_to_time_trim (l : bytes) k : (8 <= k)%nat -> (8 <= length l)%nat -> bytes_to_time (firstn k l) = bytes_to_time l.
Proof.
  intros K L. unfold bytes_to_time. rewrite firstn_length.
  destruct (Nat.ltb_spec (Nat.min k (length l)) 8); [lia|]. destruct (Nat.ltb_spec (length l) 8); [lia|].
  unfold go_upto, zlen. rewrite firstn_length.
  assert ((0 <=? 8) && (8 <=? Z.of_nat (Nat.min k (length l))) = true) as ->
    by (rewrite andb_true_iff; split; apply Z.leb_le; lia).
  assert ((0 <=? 8) && (8 <=? Z.of_nat (length l)) = true) as -> by (rewrite andb_true_iff; split; apply Z.leb_le; lia).
  rewrite firstn_firstn. replace (Nat.min (Z.to_nat 8) k) with (Z.to_nat 8) by lia. reflexivity.
Qed.
Lemma tail_trim (buf : bytes) magic pos t g p : 0 <= pos <= zlen buf -> decode_record_tail buf magic pos = Ok (t, g, p) ->
  decode_record_tail (firstn (Z.to_nat p) buf) magic pos = Ok (t, g, p).
Proof.
  intros P H. destruct (tail_spec buf magic pos P) as [Q|(t' & g' & p' & Q & PP)]; [congruence|].
  assert (p' = p) as -> by congruence. clear Q t' g'.
  assert (zlen (firstn (Z.to_nat p) buf) = p) as L by (unfold zlen in *; rewrite firstn_length; lia).
  unfold decode_record_tail in *. rewrite L.
  assert (zlen buf <? pos = false) as C by (apply Z.ltb_ge; lia). rewrite C in H.
  assert (p <? pos = false) as -> by (apply Z.ltb_ge; lia).
  assert (forall ts q, 0 <= q -> 
    (if N.testbit magic 1 then
       if zlen buf <? q then Err
       else if zlen buf <? q + 64 then Ok (ts, None, q)
       else let? r := go_slice buf q (q + 32) in
            let? s := go_slice buf (q + 32) (q + 64) in Ok (ts, Some (bytes_to_big r, bytes_to_big s), q + 64)
     else Ok (ts, None, q)) = Ok (t, g, p) ->
    (if N.testbit magic 1 then
       if p <? q then Err
       else if p <? q + 64 then Ok (ts, None, q)
       else let? r := go_slice (firstn (Z.to_nat p) buf) q (q + 32) in
            let? s := go_slice (firstn (Z.to_nat p) buf) (q + 32) (q + 64) in
            Ok (ts, Some (bytes_to_big r, bytes_to_big s), q + 64)
     else Ok (ts, None, q)) = Ok (t, g, p)) as SG.
  { intros ts q Q0. destruct (N.testbit magic 1); [|trivial].
    destruct (Z.ltb_spec (zlen buf) q); [discriminate|].
    destruct (Z.ltb_spec (zlen buf) (q + 64)).
    - intros E. assert (q = p) as -> by congruence. rewrite Z.ltb_irrefl.
      assert (p <? p + 64 = true) as -> by (apply Z.ltb_lt; lia). exact E.
    - destruct (go_slice buf q (q + 32)) as [r| |] eqn:G1; [|discriminate..]. cbn [rbind].
      destruct (go_slice buf (q + 32) (q + 64)) as [s| |] eqn:G2; [|discriminate..]. cbn [rbind]. intros E.
      assert (q + 64 = p) as <- by congruence.
      assert (q + 64 <? q = false) as -> by (apply Z.ltb_ge; lia). rewrite Z.ltb_irrefl.
      assert (go_slice (firstn (Z.to_nat (q + 64)) buf) q (q + 32) = Ok r) as ->.
      { rewrite <- G1. unfold go_slice. rewrite L.
        assert ((0 <=? q) && (q <=? q + 32) && (q + 32 <=? q + 64) = true) as ->
          by (rewrite !andb_true_iff; repeat split; apply Z.leb_le; lia).
        assert ((0 <=? q) && (q <=? q + 32) && (q + 32 <=? zlen buf) = true) as ->
          by (rewrite !andb_true_iff; repeat split; apply Z.leb_le; lia).
        rewrite skipn_firstn_comm, firstn_firstn. repeat f_equal. lia. }
      assert (go_slice (firstn (Z.to_nat (q + 64)) buf) (q + 32) (q + 64) = Ok s) as ->.
      { rewrite <- G2. unfold go_slice. rewrite L.
        assert ((0 <=? q + 32) && (q + 32 <=? q + 64) && (q + 64 <=? q + 64) = true) as ->
          by (rewrite !andb_true_iff; repeat split; apply Z.leb_le; lia).
        assert ((0 <=? q + 32) && (q + 32 <=? q + 64) && (q + 64 <=? zlen buf) = true) as ->
          by (rewrite !andb_true_iff; repeat split; apply Z.leb_le; lia).
        rewrite skipn_firstn_comm, firstn_firstn. repeat f_equal. lia. }
      cbn [rbind]. exact E. }
  destruct (N.testbit magic 2).
  - destruct (go_from buf pos) as [rest| |] eqn:G; [|discriminate H..]. cbn [rbind] in H.
    destruct (bytes_to_time rest) as [t'| |] eqn:BT; [|discriminate H..]. cbn [rbind] in H.
    destruct (skipn_suffix _ _ _ G) as (pre & E & PL).
    assert (8 <= length rest)%nat as L8.
    { unfold bytes_to_time in BT. destruct (Nat.ltb_spec (length rest) 8); [discriminate BT|lia]. }
    assert (pos + 8 <= p) as P8.
    { destruct (N.testbit magic 1); [|assert (p = pos + 8) by congruence; lia].
      destruct (zlen buf <? pos + 8); [discriminate H|].
      destruct (zlen buf <? pos + 8 + 64); [assert (p = pos + 8) by congruence; lia|].
      destruct (go_slice buf (pos + 8) (pos + 8 + 32)) as [r| |]; [|discriminate H..]. cbn [rbind] in H.
      destruct (go_slice buf (pos + 8 + 32) (pos + 8 + 64)) as [s| |]; [|discriminate H..]. cbn [rbind] in H.
      assert (p = pos + 8 + 64) by congruence. lia. }
    assert (go_from (firstn (Z.to_nat p) buf) pos = Ok (firstn (Z.to_nat (p - pos)) rest)) as ->.
    { rewrite E, firstn_app. rewrite firstn_all2 by (unfold zlen in *; lia).
      replace (Z.to_nat (p - pos)) with (Z.to_nat p - length pre)%nat by (unfold zlen in *; lia).
      rewrite <- PL. apply go_from_app. }
    cbn [rbind]. rewrite (bytes_to_time_trim rest) by lia. rewrite BT. cbn [rbind]. apply SG; [lia|exact H].
  - cbn [rbind] in *. apply SG; [lia|exact H].
Qed.

Lemma key_part_zero (m : byte) (r : list byte) : N.testbit (b2n m) 6 = true ->
  r_key_part (m :: x00 :: r) (b2n m) = Ok (KMapped [] (x00 :: r), 2).
Proof.
  intros B. unfold r_key_part. rewrite B.
  assert (go_from (m :: x00 :: r) 1 = Ok (x00 :: r)) as ->.
  { rewrite go_from_ok by (rewrite !zlen_cons; pose proof (zlen_nonneg r); lia). reflexivity. }
  cbn [rbind]. unfold new_mapped_key, decode_keys. cbn [gcontent].
  assert (decode_uvarint64 (x00 :: r) = Ok (0%N, 1)) as ->.
  { change (x00 :: r) with ([x00] ++ r).
    assert (uvarint_numeral [x00] 0) as U by (split; [exact (leb_last x00 eq_refl)|split; [cbn; lia|reflexivity]]).
    rewrite (decode_uvarint64_header _ _ _ U).
    assert (zlen r <? Z.of_N 0 = false) as -> by (apply Z.ltb_ge; unfold zlen; lia). rewrite andb_false_r. reflexivity. }
  reflexivity.
Qed.

Lemma record_again mem o o' n (m : byte) (r : list byte) : r_buf mem o = m :: x00 :: r ->
  r_decode mem o = (o', Ok n) ->
  exists o2, r_decode mem o' = (o2, Ok n) /\ r_buf mem o2 = r_buf mem o' /\ keys_of (r_key o2) = keys_of (r_key o') /\
    r_value o2 = r_value o' /\ r_scheme o2 = r_scheme o' /\ r_ts o2 = r_ts o' /\ r_sig o2 = r_sig o' /\ r_decoded o2 = true.
Proof.
  intros B D. destruct (record_exact mem o o' (Ok n) ltac:(congruence) D) as (R & SS & _).
  rewrite B in R, SS. destruct (new_mapped_record (m :: x00 :: r)) as [[[b k v s t g] n']| |] eqn:E; try discriminate R.
  cbn [outcome] in R. assert (n' = n) as -> by congruence.
  destruct (SS b k v s t g n eq_refl) as (m' & rest' & Bm & Bb & Ek & Ev & Es & Et & Eg & Ed).
  assert (m' = m) as -> by congruence. clear Bm rest'.
  destruct (record_parts _ _ _ _ _ _ _ _ _ E) as (p0 & p1 & p2 & K & V & Sc & T & Fb & P0 & P1 & P2).
  assert (N.testbit (b2n m) 6 = true) as B6.
  { unfold r_key_part in K. destruct (N.testbit (b2n m) 6); [reflexivity|discriminate K]. }
  rewrite (key_part_zero m r B6) in K. assert (k = KMapped [] (x00 :: r)) as -> by congruence. assert (p0 = 2) as -> by congruence.
  assert (firstn (Z.to_nat n) (m :: x00 :: r) = m :: x00 :: firstn (Z.to_nat n - 2) r) as Fr.
  { destruct (Z.to_nat n) as [|[|q]] eqn:Q; [lia..|]. cbn [firstn Nat.sub]. rewrite Nat.sub_0_r. reflexivity. }
  assert (r_buf mem o' = m :: x00 :: firstn (Z.to_nat n - 2) r) as B' by (rewrite Bb, Fb; exact Fr).
  assert (new_mapped_record (m :: x00 :: firstn (Z.to_nat n - 2) r) =
          Ok (MRec b (KMapped [] (x00 :: firstn (Z.to_nat n - 2) r)) v s t g, n)) as E'.
  { unfold new_mapped_record.
    assert (zlen (m :: x00 :: firstn (Z.to_nat n - 2) r) <? 1 = false) as -> by (apply Z.ltb_ge; unfold zlen; cbn [length]; lia).
    rewrite record_decode_parts. change (go_index (m :: x00 :: firstn (Z.to_nat n - 2) r) 0) with (Ok m). cbn [rbind]. cbn zeta.
    rewrite (key_part_zero m _ B6). cbn [rbind]. rewrite <- Fr.
    rewrite (value_part_trim (m :: x00 :: r) _ _ 2 v p1 (Z.to_nat n) ltac:(lia) V) by lia. cbn [rbind].
    rewrite (value_part_trim (m :: x00 :: r) _ _ p1 s p2 (Z.to_nat n) ltac:(lia) Sc) by lia. cbn [rbind].
    rewrite (tail_trim (m :: x00 :: r) _ p2 t g n ltac:(lia) T). cbn [rbind].
    assert (zlen (firstn (Z.to_nat n) (m :: x00 :: r)) = n) as L by (unfold zlen in *; rewrite firstn_length; lia).
    unfold go_upto. rewrite L. assert ((0 <=? n) && (n <=? n) = true) as -> by (rewrite andb_true_iff; split; apply Z.leb_le; lia).
    cbn [rbind]. rewrite firstn_firstn, Nat.min_id, <- Fb. reflexivity. }
  destruct (r_decode mem o') as [o2 r2] eqn:D2. exists o2.
  destruct (record_exact mem o' o2 r2 ltac:(rewrite B'; discriminate) D2) as (R2 & S2 & _).
  rewrite B' in R2, S2. rewrite E' in R2, S2. cbn [outcome] in R2. rewrite R2.
  destruct (S2 _ _ _ _ _ _ _ eq_refl) as (m2 & rest2 & Bm & Bb2 & Ek2 & Ev2 & Es2 & Et2 & Eg2 & Ed2).
  assert (m2 = m) as -> by congruence.
  split; [reflexivity|]. rewrite Ek2, Ev2, Es2, Et2, Eg2, Ek, Ev, Es, Et, Eg.
  split; [rewrite Bb2, Bb; reflexivity|split; [reflexivity|split; [reflexivity|split; [reflexivity|]]]].
  destruct (N.testbit (b2n m) 2), (N.testbit (b2n m) 1); auto.
Qed.
