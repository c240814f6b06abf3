(** * Parsing records. *)
From Coq Require Import List NArith ZArith Bool Lia.
From Coq Require Import Strings.Byte.
From Verif Require Import Base BaseProofs EndianModel EndianProofs VarintModel VarintSpec VarintProofs KeyModel KeySpec KeyProofs
  ValueModel ValueSpec ValueProofs ValueAccess ValueCopy.
Import ListNotations.
Local Open Scope Z_scope.

(** ** The number of sub keys found *)
Lemma decode_subkeys_length n : forall buf pos ks p, decode_subkeys n buf pos = Ok (ks, p) -> length ks = n.
Proof.
  induction n as [|n IH]; intros buf pos ks p E; cbn [decode_subkeys] in E; [inv E; reflexivity|].
  destruct (go_from buf pos); cbn [rbind] in E; try discriminate.
  destruct (decode_varchar _) as [[k l]| |]; cbn [rbind] in E; try discriminate.
  destruct (decode_subkeys n buf _) as [[ks' p']| |] eqn:D; cbn [rbind] in E; try discriminate. inv E.
  simpl. f_equal. eapply IH. eassumption.
Qed.
Lemma decode_keys_count buf ks n : decode_keys buf = Ok (ks, n) ->
  exists v l, decode_uvarint64 buf = Ok (v, l) /\ length ks = N.to_nat v.
Proof.
  unfold decode_keys. destruct (decode_uvarint64 buf) as [[v l]| |]; cbn [rbind]; try discriminate.
  destruct (make_slices_ok v); [|discriminate]. intros E. exists v, l. split; [reflexivity|].
  eapply decode_subkeys_length. eassumption.
Qed.
(** A longer buffer says the same number, if any. *)
Lemma decode_uvarint64_more buf v l more v' l' : buf <> [] -> decode_uvarint64 buf = Ok (v, l) ->
  decode_uvarint64 (buf ++ more) = Ok (v', l') -> v' = v.
Proof.
  intros Hb E E'. destruct (header_cases buf) as [u n Eu Hn|pre suf u Ep U].
  - destruct (bad_header_err _ _ _ Hb Eu Hn) as (_ & Q & _). congruence.
  - subst buf. rewrite <- app_assoc in E'. rewrite (decode_uvarint64_header _ _ _ U) in E. rewrite (decode_uvarint64_header _ _ _ U) in E'.
    destruct (_ && _) in E; [discriminate|]. destruct (_ && _) in E'; [discriminate|]. congruence.
Qed.

(** ** The tail *)
Lemma go_from_ok {A} (l : list A) i : 0 <= i <= zlen l -> go_from l i = Ok (skipn (Z.to_nat i) l).
Proof. intros H. unfold go_from. destruct (_ && _) eqn:E; [reflexivity|lia]. Qed.
Lemma go_slice_ok {A} (l : list A) i j : 0 <= i <= j -> j <= zlen l -> exists s, go_slice l i j = Ok s.
Proof. intros H1 H2. unfold go_slice. destruct (_ && _) eqn:E; [eauto|lia]. Qed.
Lemma tail_spec buf magic pos : 0 <= pos <= zlen buf ->
  decode_record_tail buf magic pos = Err \/
  exists ts sig p, decode_record_tail buf magic pos = Ok (ts, sig, p) /\ pos <= p <= zlen buf.
Proof.
  intros H. unfold decode_record_tail.
  assert ((if N.testbit magic 2 then if zlen buf <? pos then Err
     else let? rest := go_from buf pos in let? t := bytes_to_time rest in Ok (Some t, pos + 8) else Ok (None, pos)) = Err \/
    exists ts p, (if N.testbit magic 2 then if zlen buf <? pos then Err
     else let? rest := go_from buf pos in let? t := bytes_to_time rest in Ok (Some t, pos + 8) else Ok (None, pos)) = Ok (ts, p) /\
     pos <= p <= zlen buf) as [E|(ts & p & E & P)].
  { destruct (N.testbit magic 2); [|right; exists None, pos; split; [reflexivity|lia]].
    destruct (Z.ltb_spec (zlen buf) pos); [now left|]. rewrite go_from_ok by lia. cbn [rbind].
    destruct (bytes_to_time_spec (skipn (Z.to_nat pos) buf)) as [(_ & Q)|(L & t & Q & _)].
    - left. rewrite Q. reflexivity.
    - right. rewrite Q. cbn [rbind]. exists (Some t), (pos + 8). split; [reflexivity|].
      rewrite skipn_length in L. unfold zlen in *. lia. }
  { left. rewrite E. reflexivity. }
  rewrite E. cbn [rbind]. destruct (N.testbit magic 1); [|right; eexists _, _, _; split; [reflexivity|lia]].
  destruct (Z.ltb_spec (zlen buf) p); [now left|].
  destruct (Z.ltb_spec (zlen buf) (p + 64)); [right; eexists _, _, _; split; [reflexivity|lia]|].
  destruct (go_slice_ok buf p (p + 32)) as (r & ->); [lia..|]. destruct (go_slice_ok buf (p + 32) (p + 64)) as (s & ->); [lia..|].
  cbn [rbind]. right. eexists _, _, _. split; [reflexivity|lia].
Qed.

Lemma new_std_cases buf : new_std_value buf = Err \/ exists m, new_std_value buf = Ok (m, zlen (mv_buf m)) /\
  exists s, buf = mv_buf m ++ s.
Proof.
  destruct (new_std_value buf) as [[m n]| |] eqn:E; [|now left|].
  - right. exists m. destruct (new_std_split _ _ _ E) as (S & ->). split; [reflexivity|]. eauto.
  - destruct (new_std_no_panic buf E).
Qed.

(** ** Parsing a record, simplified *)
Definition record_rest (m : byte) (rest r1 : bytes) (key : ikey) : res (mrec * Z) :=
  let buf := m :: rest in
  if N.testbit (b2n m) 5 then
    match new_std_value r1 with
    | Ok (v, n) =>
        if max_value_length <? zlen (mv_buf v) then Err
        else if N.testbit (b2n m) 4 then
          match new_std_value (skipn (Z.to_nat n) r1) with
          | Ok (s, n') =>
              if max_scheme_length <? zlen (mv_buf s) then Err
              else let? (ts, sig, pos) := decode_record_tail buf (b2n m) (2 + n + n') in
                   let? buf' := go_upto buf pos in Ok (MRec buf' key v s ts sig, pos)
          | _ => Err
          end
        else Panic
    | _ => Err
    end
  else Panic.

Lemma record_parse_eq m rest : new_mapped_record (m :: rest) =
  if N.testbit (b2n m) 6 then
    match decode_keys rest with
    | Ok (_ :: _, _) => if 4096 <? zlen rest then Err else if N.testbit (b2n m) 5 then Err else Panic
    | Ok ([], _) => match rest with [] => Err | _ :: r1 => record_rest m rest r1 (KMapped [] rest) end
    | Err => Err
    | Panic => Panic
    end
  else Panic.
Proof.
  unfold new_mapped_record. rewrite zlen_cons. pose proof (zlen_nonneg rest) as P.
  destruct (Z.ltb_spec (1 + zlen rest) 1) as [C|_]; [lia|]. unfold record_decode.
  change (go_index (m :: rest) 0) with (Ok (A := byte) m). cbn [rbind].
  destruct (N.testbit (b2n m) 6); [|reflexivity].
  assert (go_from (m :: rest) 1 = Ok rest) as ->.
  { rewrite go_from_ok by (rewrite zlen_cons; lia). reflexivity. }
  cbn [rbind]. unfold new_mapped_key. cbn [gcontent].
  destruct (decode_keys rest) as [[ks n]| |] eqn:D; [|reflexivity..]. cbn [rbind].
  destruct ks as [|k ks].
  - assert (ikey_buf (KMapped [] rest) = Ok (Some [x00])) as -> by (destruct rest; reflexivity).
    cbn [rbind gcontent]. change (zlen [x00]) with 1. change (max_key_length <? 1) with false. cbn iota.
    destruct rest as [|z r1]; [reflexivity|]. rewrite !zlen_cons. pose proof (zlen_nonneg r1) as P1.
    destruct (Z.ltb_spec (1 + (1 + zlen r1)) (1 + 1)) as [C|_]; [lia|].
    unfold record_rest. destruct (N.testbit (b2n m) 5); [|reflexivity].
    assert (go_from (m :: z :: r1) (1 + 1) = Ok r1) as ->.
    { rewrite go_from_ok by (rewrite !zlen_cons; lia). reflexivity. }
    cbn [rbind]. destruct (new_std_cases r1) as [->|(v & -> & s & Es)]; [reflexivity|]. cbn [rbind].
    destruct (max_value_length <? zlen (mv_buf v)); [reflexivity|].
    assert (zlen r1 = zlen (mv_buf v) + zlen s) as Lr by (rewrite Es; apply zlen_app).
    pose proof (zlen_nonneg s). pose proof (zlen_nonneg (mv_buf v)).
    destruct (Z.ltb_spec (1 + (1 + zlen r1)) (1 + 1 + zlen (mv_buf v))) as [C|_]; [lia|].
    destruct (N.testbit (b2n m) 4); [|reflexivity].
    assert (go_from (m :: z :: r1) (1 + 1 + zlen (mv_buf v)) = Ok s) as ->.
    { rewrite go_from_ok by (rewrite !zlen_cons; lia).
      replace (Z.to_nat (1 + 1 + zlen (mv_buf v))) with (2 + length (mv_buf v))%nat by (unfold zlen; lia).
      cbn [Nat.add skipn]. rewrite Es. now rewrite skipn_app_exact. }
    assert (skipn (Z.to_nat (zlen (mv_buf v))) r1 = s) as ->.
    { rewrite Es, skipn_app_exact; [reflexivity|unfold zlen; lia]. }
    cbn [rbind]. destruct (new_std_cases s) as [->|(v' & -> & s' & Es')]; [reflexivity|]. cbn [rbind].
    destruct (max_scheme_length <? zlen (mv_buf v')); [reflexivity|].
    replace (1 + 1 + zlen (mv_buf v) + zlen (mv_buf v')) with (2 + zlen (mv_buf v) + zlen (mv_buf v')) by lia. reflexivity.
  - destruct rest as [|z r1].
    { unfold decode_keys in D. cbn in D. discriminate. }
    cbn [ikey_buf ikey_is_empty rbind gcontent]. change max_key_length with 4096.
    destruct (Z.ltb_spec 4096 (zlen (z :: r1))) as [C|C]; [reflexivity|]. rewrite (zlen_cons m), Z.ltb_irrefl.
    destruct (N.testbit (b2n m) 5); [|reflexivity].
    rewrite <- zlen_cons with (a := m). rewrite go_from_ok by (rewrite zlen_cons; lia).
    replace (Z.to_nat (zlen (m :: z :: r1))) with (length (m :: z :: r1)) by (unfold zlen; lia).
    rewrite skipn_all. reflexivity.
Qed.

(** ** When parsing panics *)
Lemma record_panic buf : new_mapped_record buf = Panic <->
  exists m rest, buf = m :: rest /\
   (N.testbit (b2n m) 6 = false \/
    N.testbit (b2n m) 6 = true /\
    (decode_keys rest = Panic \/
     (exists ks n, decode_keys rest = Ok (ks, n) /\ ks <> [] /\ zlen rest <= 4096 /\ N.testbit (b2n m) 5 = false) \/
     (exists n z r1, decode_keys rest = Ok ([], n) /\ rest = z :: r1 /\
        (N.testbit (b2n m) 5 = false \/
         exists v k, N.testbit (b2n m) 5 = true /\ new_std_value r1 = Ok (v, k) /\ k <= 57344 /\ N.testbit (b2n m) 4 = false)))).
Proof.
  destruct buf as [|m rest].
  { split; [discriminate|]. intros (m & rest & E & _). discriminate. }
  rewrite record_parse_eq. split.
  - intros H. exists m, rest. split; [reflexivity|]. destruct (N.testbit (b2n m) 6); [|now left]. right. split; [reflexivity|].
    destruct (decode_keys rest) as [[[|k ks] n]| |] eqn:D; try discriminate; [| |now left].
    + right. right. destruct rest as [|z r1]; [discriminate|]. exists n, z, r1. split; [reflexivity|]. split; [reflexivity|].
      unfold record_rest in H. destruct (N.testbit (b2n m) 5); [|now left]. right.
      destruct (new_std_cases r1) as [E|(v & E & s & Es)]; rewrite E in H; [discriminate|].
      change max_value_length with 57344 in H.
      destruct (Z.ltb_spec 57344 (zlen (mv_buf v))) as [C|C]; [discriminate|].
      exists v, (zlen (mv_buf v)). split; [reflexivity|]. split; [assumption|]. split; [assumption|].
      destruct (N.testbit (b2n m) 4); [|reflexivity]. exfalso.
      assert (skipn (Z.to_nat (zlen (mv_buf v))) r1 = s) as Q.
      { rewrite Es, skipn_app_exact; [reflexivity|unfold zlen; lia]. }
      rewrite Q in H. destruct (new_std_cases s) as [E'|(v' & E' & s' & Es')]; rewrite E' in H; [discriminate|].
      destruct (max_scheme_length <? _); [discriminate|].
      assert (zlen (m :: z :: r1) = 2 + zlen (mv_buf v) + zlen (mv_buf v') + zlen s') as L
        by (rewrite Es, Es', !zlen_cons, !zlen_app; lia).
      pose proof (zlen_nonneg (mv_buf v)). pose proof (zlen_nonneg (mv_buf v')). pose proof (zlen_nonneg s').
      destruct (tail_spec (m :: z :: r1) (b2n m) (2 + zlen (mv_buf v) + zlen (mv_buf v'))) as [T|(ts & sig & p & T & Pp)];
        [lia| |]; rewrite T in H; cbn [rbind] in H; [discriminate|].
      unfold go_upto in H. destruct (_ && _) eqn:B; [discriminate|lia].
    + right. left. exists (k :: ks), n. split; [reflexivity|]. split; [intros Q; discriminate Q|].
      destruct (Z.ltb_spec 4096 (zlen rest)); [discriminate|]. split; [assumption|].
      destruct (N.testbit (b2n m) 5); [discriminate|reflexivity].
  - intros (m' & rest' & E & H). injection E as <- <-.
    destruct H as [-> |(-> & [-> |[(ks & n & -> & Hk & L & ->)|(n & z & r1 & -> & -> & H)]])]; try reflexivity.
    + destruct ks as [|k ks]; [contradiction|]. destruct (Z.ltb_spec 4096 (zlen rest)); [lia|reflexivity].
    + unfold record_rest. destruct H as [-> |(v & k & -> & E & L & ->)]; [reflexivity|]. rewrite E.
      destruct (new_std_split _ _ _ E) as (_ & ->). change max_value_length with 57344.
      destruct (Z.ltb_spec 57344 (zlen (mv_buf v))); [lia|reflexivity].
Qed.

(** ** Encoded records are never parsed back *)
Lemma encode_keys_count ks b : encode_keys ks = Ok b -> ks <> [] -> forall more ks' n,
  decode_keys (b ++ more) = Ok (ks', n) -> b <> [] /\ ks' <> [].
Proof.
  intros E Hk more ks' n D. unfold encode_keys in E.
  destruct (encode_uvarint64 (N.of_nat (length ks))) as [c| |] eqn:Ec; cbn [rbind] in E; try discriminate.
  destruct (max_key_length <? zlen c); [discriminate|].
  assert (forall ks buf b, encode_subkeys ks buf = Ok b -> exists x, b = buf ++ x /\ (zlen buf <= 4096 -> zlen ks <= zlen x /\ zlen b <= 4096)) as G.
  { clear. induction ks as [|k ks IH]; intros buf b E; cbn [encode_subkeys] in E.
    - inv E. exists []. rewrite app_nil_r. split; [reflexivity|]. cbn. lia.
    - destruct (encode_varchar (gcontent k)) as [e| |] eqn:Ee; cbn [rbind] in E; try discriminate.
      destruct (Z.ltb_spec max_key_length (zlen (buf ++ e))) as [C|C]; [discriminate|]. change max_key_length with 4096 in C.
      destruct (IH _ _ E) as (x & -> & Hx). exists (e ++ x). split; [now rewrite app_assoc|]. intros _. destruct (Hx C) as (A & B).
      split; [|exact B]. rewrite zlen_cons, zlen_app.
      assert (1 <= zlen e); [|lia]. unfold encode_varchar in Ee.
      destruct (put_uvarint_10 (N.of_nat (length (gcontent k)) mod 2 ^ 64)) as (l & El & U); [apply N.mod_lt; discriminate|].
      rewrite El in Ee. cbn [rbind] in Ee. inv Ee.
      rewrite zlen_app. pose proof (zlen_nonneg (gcontent k)). pose proof (numeral_length _ _ U). unfold zlen in *. lia. }
  assert (1 <= zlen c <= 10 /\ uvarint_numeral c (N.of_nat (length ks) mod 2 ^ 64)) as (Lc & U).
  { destruct (put_uvarint_10 (N.of_nat (length ks) mod 2 ^ 64)) as (l & El & U); [apply N.mod_lt; discriminate|].
    unfold encode_uvarint64 in Ec. assert (c = l) as -> by congruence. split; [|assumption].
    pose proof (numeral_length _ _ U). unfold zlen. lia. }
  destruct (G _ _ _ E) as (x & -> & Hx). destruct (Hx ltac:(lia)) as (A & B). rewrite zlen_app in B.
  split; [destruct c; [cbn in Lc; lia|discriminate]|].
  assert (N.of_nat (length ks) mod 2 ^ 64 = N.of_nat (length ks))%N as Em.
  { apply N.mod_small. unfold zlen in *. assert (Z.of_N (N.of_nat (length ks)) < 2 ^ 64); lia. }
  rewrite Em in U. destruct (decode_keys_count _ _ _ D) as (v & l & Dv & Lv).
  rewrite <- app_assoc, (decode_uvarint64_header _ _ _ U) in Dv. destruct (_ && _); [discriminate|]. inv Dv.
  rewrite Nat2N.id in Lv. intros ->. destruct ks; [contradiction|discriminate].
Qed.

Lemma record_never_back r b : rmade r -> record_encode r = Ok b -> forall s m n, new_mapped_record (b ++ s) <> Ok (m, n).
Proof.
  intros M E s m n. destruct r as [e k v sc t a c|mr]; [|discriminate].
  rewrite record_encode_parts in E.
  destruct (key_part k) as [[kb kbytes]| |] eqn:Ek; cbn [rbind] in E; try discriminate.
  destruct (opt_part v _) as [[vb vbytes]| |] eqn:Ev; cbn [rbind] in E; try discriminate.
  destruct (opt_part sc _) as [[sb sbytes]| |] eqn:Es; cbn [rbind] in E; try discriminate.
  destruct (tail_part t a c) as [tb tbytes] eqn:Et. injection E as <-.
  rewrite <- app_comm_cons, record_parse_eq.
  assert (vb = 0 \/ vb = 32)%N as Hv.
  { unfold opt_part in Ev. destruct v as [v|]; [|inv Ev; auto]. destruct (value_is_nil v); [inv Ev; auto|].
    destruct (value_encode v); cbn [rbind] in Ev; inv Ev. auto. }
  assert (sb = 0 \/ sb = 16)%N as Hs.
  { unfold opt_part in Es. destruct sc as [v0|]; [|inv Es; auto]. destruct (value_is_nil v0); [inv Es; auto|].
    destruct (value_encode v0); cbn [rbind] in Es; inv Es. auto. }
  assert (tb = 0 \/ tb = 4 \/ tb = 6)%N as Ht.
  { apply (f_equal fst) in Et. cbn [fst] in Et. rewrite <- Et. unfold tail_part.
    destruct t; [destruct a, c; cbn [fst]; auto|now left]. }
  assert ((kb = 0 /\ kbytes = []) \/ (kb = 64 /\ forall more ks' n, decode_keys (kbytes ++ more) = Ok (ks', n) -> ks' <> []))%N as Hk.
  { unfold key_part in Ek. destruct k as [k|]; [|inv Ek; auto]. destruct (ikey_is_empty k) eqn:Ee; [inv Ek; auto|]. right.
    destruct k as [|ks buf|en ks buf est]; [discriminate| |].
    - cbn [key_encode rbind ikey_buf] in Ek. rewrite Ee in Ek. cbn [rbind gcontent] in Ek. inv Ek. split; [reflexivity|].
      intros more ks' n' D. inversion M as [? ? ? ? ? ? ? Mk|]; subst. destruct (Mk _ eq_refl) as (n0 & D0).
      destruct (decode_keys_count _ _ _ D0) as (v0 & l0 & D1 & L0). destruct (decode_keys_count _ _ _ D) as (v1 & l1 & D2 & L1).
      cbn [ikey_is_empty] in Ee. destruct kbytes as [|x y]; [discriminate|]. destruct ks as [|k0 ks]; [discriminate|].
      rewrite (decode_uvarint64_more (x :: y) v0 l0 more v1 l1) in L1; [|discriminate|assumption..].
      intros ->. simpl in *. lia.
    - cbn [key_encode] in Ek. destruct (encode_keys ks) as [b| |] eqn:E; cbn [rbind] in Ek; try discriminate.
      cbn [ikey_buf rbind gcontent] in Ek. inv Ek. split; [reflexivity|]. intros more ks' n' D.
      cbn [ikey_is_empty] in Ee. destruct ks as [|k0 ks]; [discriminate|].
      apply (encode_keys_count _ _ E ltac:(discriminate) _ _ _ D). }
  destruct Hk as [(-> & ->)|(-> & Hk)].
  - assert (N.testbit (b2n (n2b (N.lor (N.lor (N.lor 0 vb) sb) tb))) 6 = false) as ->
      by (destruct Hv as [-> | ->], Hs as [-> | ->], Ht as [-> |[-> | ->]]; reflexivity).
    discriminate.
  - destruct (N.testbit _ 6); [|discriminate]. rewrite <- app_assoc.
    destruct (decode_keys (kbytes ++ _)) as [[[|k0 ks0] n0]| |] eqn:D; [|destruct (4096 <? _); [discriminate|destruct (N.testbit _ 5); discriminate]|discriminate..].
    destruct (Hk _ _ _ D eq_refl).
Qed.

(** ** Hand-laid records with an explicit empty key *)
Lemma testbits6 (m : byte) (x y : N) : b2n m = (112 + 4 * x + 2 * y)%N -> (x <= 1 -> y <= 1 -> 
  N.testbit (b2n m) 6 = true /\ N.testbit (b2n m) 5 = true /\ N.testbit (b2n m) 4 = true /\
  N.testbit (b2n m) 2 = N.eqb x 1 /\ N.testbit (b2n m) 1 = N.eqb y 1)%N.
Proof.
  intros -> Hx Hy. assert (x = 0 \/ x = 1)%N as [-> | ->] by lia; assert (y = 0 \/ y = 1)%N as [-> | ->] by lia;
    repeat split; reflexivity.
Qed.
Lemma decode_keys_zero r : decode_keys (x00 :: r) = Ok ([], 1).
Proof.
  unfold decode_keys. assert (decode_uvarint64 (x00 :: r) = Ok (0%N, 1)) as ->; [|reflexivity].
  change (x00 :: r) with ([x00] ++ r). assert (uvarint_numeral [x00] 0) as U.
  { split; [|split; [simpl; lia|reflexivity]]. change 0%N with (Byte.to_N x00). constructor. reflexivity. }
  rewrite (decode_uvarint64_header _ _ _ U). pose proof (zlen_nonneg r).
  destruct (Z.ltb_spec (zlen r) (Z.of_N 0)); [lia|]. now rewrite andb_false_r.
Qed.
Lemma go_slice_mid {A} (a b c : list A) i j : i = zlen a -> j = zlen a + zlen b -> go_slice (a ++ b ++ c) i j = Ok b.
Proof.
  intros -> ->. unfold go_slice. pose proof (zlen_nonneg a). pose proof (zlen_nonneg b). pose proof (zlen_nonneg c).
  rewrite !zlen_app. destruct (_ && _) eqn:E; [|lia].
  replace (zlen a + zlen b - zlen a) with (zlen b) by lia.
  rewrite skipn_app_exact by (unfold zlen; lia). rewrite firstn_app_exact by (unfold zlen; lia). reflexivity.
Qed.

Definition tail_bytes (t : option (Z * option (Z * Z))) : bytes :=
  match t with
  | None => []
  | Some (ns, None) => time_to_bytes ns
  | Some (ns, Some (r, s)) => time_to_bytes ns ++ big_to_bytes r ++ big_to_bytes s
  end.
Definition tail_fits (t : option (Z * option (Z * Z))) : Prop :=
  match t with
  | None => True
  | Some (ns, None) => - 2 ^ 63 <= ns < 2 ^ 63
  | Some (ns, Some (r, s)) => - 2 ^ 63 <= ns < 2 ^ 63 /\ 0 <= r < 2 ^ 256 /\ 0 <= s < 2 ^ 256
  end.

Lemma hand_laid m vb vc vbody sb sc sbody t suf :
  layout vb vc vbody -> layout sb sc sbody -> zlen vb <= 57344 -> zlen sb <= 1024 -> tail_fits t ->
  b2n m = (112 + bit t 4 + bit (has_sig t) 2)%N ->
  exists rest, new_mapped_record (m :: x00 :: vb ++ sb ++ tail_bytes t ++ suf) =
  Ok (MRec (m :: x00 :: vb ++ sb ++ tail_bytes t) (KMapped [] rest) (MVal vb vc vbody) (MVal sb sc sbody) (option_map fst t) (has_sig t),
      zlen (m :: x00 :: vb ++ sb ++ tail_bytes t)).
Proof.
  intros Lv Ls Hv Hs F Em. exists (x00 :: vb ++ sb ++ tail_bytes t ++ suf). rewrite record_parse_eq, decode_keys_zero.
  assert (bit t 4 = 4 * bit t 1 /\ bit (has_sig t) 2 = 2 * bit (has_sig t) 1 /\ bit t 1 <= 1 /\ bit (has_sig t) 1 <= 1)%N as (E1 & E2 & B1 & B2).
  { destruct t as [[ns [[r s]|]]|]; cbn; lia. }
  rewrite E1, E2 in Em. destruct (testbits6 m _ _ Em B1 B2) as (T6 & T5 & T4 & T2 & T1). rewrite T6.
  unfold record_rest. rewrite T5, T4. rewrite (std_decode_layout _ _ _ _ Lv).
  cbn [mv_buf]. change max_value_length with 57344. destruct (Z.ltb_spec 57344 (zlen vb)) as [C|_]; [lia|].
  rewrite skipn_app_exact by (unfold zlen; lia). rewrite (std_decode_layout _ _ _ _ Ls). cbn [mv_buf].
  change max_scheme_length with 1024. destruct (Z.ltb_spec 1024 (zlen sb)) as [C|_]; [lia|].
  set (pre := m :: x00 :: vb ++ sb).
  assert (m :: x00 :: vb ++ sb ++ tail_bytes t ++ suf = pre ++ tail_bytes t ++ suf) as -> by (unfold pre; cbn [app]; now rewrite <- app_assoc).
  assert (m :: x00 :: vb ++ sb ++ tail_bytes t = pre ++ tail_bytes t) as -> by (unfold pre; cbn [app]; now rewrite <- app_assoc).
  assert (2 + zlen vb + zlen sb = zlen pre) as -> by (unfold pre; rewrite !zlen_cons, zlen_app; lia).
  assert (decode_record_tail (pre ++ tail_bytes t ++ suf) (b2n m) (zlen pre) =
    Ok (option_map fst t, has_sig t, zlen (pre ++ tail_bytes t))) as ->.
  { unfold decode_record_tail. rewrite T2, T1. pose proof (zlen_nonneg suf).
    destruct t as [[ns [[r s]|]]|]; cbn [tail_bytes option_map has_sig fst bit tail_fits] in *.
    - destruct F as (F1 & F2 & F3). change (N.eqb 1 1) with true. cbn iota. rewrite !zlen_app.
      pose proof (zlen_nonneg (time_to_bytes ns)). pose proof (zlen_nonneg (big_to_bytes r)). pose proof (zlen_nonneg (big_to_bytes s)).
      destruct (Z.ltb_spec (zlen pre + (zlen (time_to_bytes ns) + (zlen (big_to_bytes r) + zlen (big_to_bytes s)) + zlen suf)) (zlen pre)) as [C|_]; [lia|].
      rewrite go_from_app. cbn [rbind]. rewrite <- app_assoc. destruct (time_to_bytes_spec ns F1) as (Lt & _).
      assert (zlen (time_to_bytes ns) = 8) as L8 by (unfold zlen; lia). rewrite L8.
      rewrite time_roundtrip by assumption. cbn [rbind].
      assert (zlen (big_to_bytes r) = 32) as Lr by (unfold zlen; rewrite big_to_bytes_length; reflexivity).
      assert (zlen (big_to_bytes s) = 32) as Lz by (unfold zlen; rewrite big_to_bytes_length; reflexivity).
      rewrite Lr, Lz.
      destruct (Z.ltb_spec (zlen pre + (8 + (32 + 32) + zlen suf)) (zlen pre + 8)) as [C|_]; [lia|].
      destruct (Z.ltb_spec (zlen pre + (8 + (32 + 32) + zlen suf)) (zlen pre + 8 + 64)) as [C|_]; [lia|].
      rewrite (app_assoc pre), <- (app_assoc (big_to_bytes r)).
      rewrite (go_slice_mid (pre ++ time_to_bytes ns) (big_to_bytes r)) by (rewrite ?zlen_app; lia). cbn [rbind].
      rewrite (app_assoc (pre ++ time_to_bytes ns)).
      rewrite (go_slice_mid ((pre ++ time_to_bytes ns) ++ big_to_bytes r) (big_to_bytes s)) by (rewrite ?zlen_app; lia). cbn [rbind].
      rewrite !big_roundtrip by assumption. do 2 f_equal. lia.
    - change (N.eqb 1 1) with true. change (N.eqb 0 1) with false. cbn iota. rewrite !zlen_app.
      destruct (time_to_bytes_spec ns F) as (Lt & _). assert (zlen (time_to_bytes ns) = 8) as L8 by (unfold zlen; lia). rewrite L8.
      destruct (Z.ltb_spec (zlen pre + (8 + zlen suf)) (zlen pre)) as [C|_]; [lia|].
      rewrite go_from_app. cbn [rbind]. rewrite time_roundtrip by assumption. reflexivity.
    - change (N.eqb 0 1) with false. cbn iota. now rewrite app_nil_r. }
  cbn [rbind]. rewrite app_assoc, go_upto_app. cbn [rbind]. reflexivity.
Qed.

(** ** Signatures *)
Lemma record_encode_sig e k v s t a b l : record_encode (Rec e k v s (Some t) (Some a) (Some b)) = Ok l ->
  exists p, l = p ++ big_to_bytes a ++ big_to_bytes b /\
    forall e' a' b', record_encode (Rec e' k v s (Some t) (Some a') (Some b')) = Ok (p ++ big_to_bytes a' ++ big_to_bytes b').
Proof.
  rewrite record_encode_parts. intros E.
  destruct (key_part k) as [[kb kbytes]| |] eqn:Ek; cbn [rbind] in E; try discriminate.
  destruct (opt_part v _) as [[vb vbytes]| |] eqn:Ev; cbn [rbind] in E; try discriminate.
  destruct (opt_part s _) as [[sb sbytes]| |] eqn:Es; cbn [rbind] in E; try discriminate.
  cbn [tail_part] in E. apply (f_equal (fun r => match r with Ok x => x | _ => [] end)) in E.
  eexists (_ :: kbytes ++ vbytes ++ sbytes ++ time_to_bytes t). split.
  - rewrite <- E. cbn [app]. rewrite <- !app_assoc. reflexivity.
  - intros e' a' b'. rewrite record_encode_parts, Ek. cbn [rbind]. rewrite Ev. cbn [rbind]. rewrite Es. cbn [rbind tail_part app].
    rewrite <- !app_assoc. reflexivity.
Qed.
