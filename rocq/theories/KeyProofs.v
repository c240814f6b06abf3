(** * Proofs about keys. *)
From Coq Require Import List NArith ZArith Bool Lia.
From Coq Require Import Strings.Byte.
From Verif Require Import Base BaseProofs CmpModel CmpSpec CmpProofs EndianModel EndianProofs
  VarintModel VarintSpec VarintProofs KeyModel KeySpec.
Import ListNotations.

(** A byte string that fits in a Go slice together with its length prefix. *)
Definition sized (d : bytes) : Prop := (zlen d + 10 < 2 ^ 63)%Z.

(** ** Encoding *)
Lemma key_bytes_fun keys l l' : key_bytes keys l -> key_bytes keys l' -> l = l'.
Proof.
  intros (n & ls & M & F & ->) (n' & ls' & M' & F' & ->). f_equal; [eapply uvarint_minimal_fun; eauto|].
  f_equal. clear M M'. revert ls' F'. induction F as [|k l ks ls Hk F IH]; intros ls' F'; inv F'; [reflexivity|].
  f_equal; [eapply varchar_of_fun; eauto|auto].
Qed.

Lemma varchars_exist keys : Forall sized keys -> exists ls, Forall2 varchar_of keys ls.
Proof.
  induction 1 as [|k ks Hk F (ls & IH)]; [exists []; constructor|].
  destruct (encode_varchar_of k Hk) as (l & _ & V). exists (l :: ls). now constructor.
Qed.

Lemma encode_subkeys_spec keys ls : Forall2 varchar_of (map gcontent keys) ls -> Forall sized (map gcontent keys) ->
  forall buf, (zlen buf <= max_key_length)%Z ->
  encode_subkeys keys buf =
    if (max_key_length <? zlen (buf ++ concat ls))%Z then Err else Ok (buf ++ concat ls).
Proof.
  revert ls. induction keys as [|k keys IH]; intros ls F S buf H; simpl in F; inversion F as [|k' l ks' ls' Vk F' E1 E2]; subst.
  - simpl. rewrite app_nil_r. destruct (Z.ltb_spec max_key_length (zlen buf)); [lia|reflexivity].
  - cbn [encode_subkeys]. inv S. destruct (encode_varchar_of (gcontent k) H2) as (l2 & E & V).
    rewrite (varchar_of_fun _ _ _ Vk V) in *. rewrite E. cbn [rbind].
    simpl concat. rewrite app_assoc.
    destruct (Z.ltb_spec max_key_length (zlen (buf ++ l2))) as [C|C].
    + rewrite zlen_app. pose proof (zlen_nonneg (concat ls')).
      destruct (Z.ltb_spec max_key_length (zlen (buf ++ l2) + zlen (concat ls'))); [reflexivity|lia].
    + apply IH; assumption.
Qed.

Lemma zlen_numeral l v : uvarint_numeral l v -> (1 <= zlen l <= 10)%Z.
Proof. intros U. pose proof (numeral_length _ _ U). unfold zlen. lia. Qed.

Lemma encode_keys_spec keys l : key_bytes (map gcontent keys) l -> Forall sized (map gcontent keys) ->
  (zlen keys < 2 ^ 63)%Z ->
  encode_keys keys = if (max_key_length <? zlen l)%Z then Err else Ok l.
Proof.
  intros (n & ls & M & F & ->) S Hk. unfold zlen in Hk. unfold encode_keys.
  rewrite map_length in M.
  destruct (encode_uvarint64_minimal (N.of_nat (length keys)) ltac:(lia)) as (n' & E & M').
  rewrite E. cbn [rbind]. rewrite (uvarint_minimal_fun _ _ _ M M') in *.
  pose proof (zlen_numeral _ _ (minimal_numeral _ _ M' ltac:(lia))) as Ln.
  destruct (Z.ltb_spec max_key_length (zlen n')) as [C|C]; [unfold max_key_length in C; lia|].
  apply encode_subkeys_spec; assumption.
Qed.

Lemma key_bytes_exists keys : Forall sized keys -> (zlen keys < 2 ^ 63)%Z -> exists l, key_bytes keys l.
Proof.
  intros S H. unfold zlen in H. destruct (varchars_exist keys S) as (ls & F).
  destruct (encode_uvarint64_minimal (N.of_nat (length keys)) ltac:(lia)) as (n & _ & M).
  exists (n ++ concat ls), n, ls. auto.
Qed.

(** ** Decoding *)
Lemma decode_subkeys_ok keys ls : Forall2 varchar_of keys ls -> Forall sized keys -> forall pre suf,
  decode_subkeys (length keys) (pre ++ concat ls ++ suf) (zlen pre) =
  Ok (map Some keys, (zlen pre + zlen (concat ls))%Z).
Proof.
  induction 1 as [|k l ks ls Vk F IH]; intros S pre suf.
  - simpl. rewrite zlen_nil, Z.add_0_r. reflexivity.
  - cbn [decode_subkeys length]. rewrite go_from_app. cbn [rbind]. simpl concat. inv S.
    rewrite <- (app_assoc l). rewrite (varchar_of_decode k l _ H1 Vk). cbn [rbind].
    rewrite app_assoc. rewrite <- zlen_app. rewrite IH by assumption. cbn [rbind].
    rewrite !zlen_app. do 2 f_equal. lia.
Qed.

Lemma concat_length_ge keys ls : Forall2 varchar_of keys ls -> (length keys <= length (concat ls))%nat.
Proof.
  induction 1 as [|k l ks ls Vk F IH]; simpl; [lia|]. rewrite app_length.
  pose proof (varchar_of_nonempty _ _ Vk). lia.
Qed.

Lemma decode_keys_ok keys l suf : key_bytes keys l -> Forall sized keys -> (zlen keys < 2 ^ 43)%Z ->
  decode_keys (l ++ suf) = Ok (map Some keys, zlen l).
Proof.
  intros (n & ls & M & F & ->) S Hk. unfold zlen in Hk.
  pose proof (minimal_numeral _ _ M ltac:(lia)) as U. pose proof (zlen_numeral _ _ U) as Ln.
  unfold decode_keys. rewrite <- app_assoc, (decode_uvarint64_header _ _ _ U).
  pose proof (concat_length_ge _ _ F) as G.
  assert ((zlen (concat ls ++ suf) <? Z.of_N (N.of_nat (length keys)))%Z = false) as ->.
  { apply Z.ltb_ge. rewrite zlen_app. unfold zlen. lia. }
  rewrite andb_false_r. cbn [rbind].
  assert (make_slices_ok (N.of_nat (length keys)) = true) as -> by (apply N.leb_le; lia).
  rewrite Nat2N.id, decode_subkeys_ok by assumption. now rewrite zlen_app.
Qed.

(** ** Panics *)
Lemma decode_subkeys_panic n : forall buf pos, (0 <= pos <= zlen buf)%Z ->
  decode_subkeys n buf pos = Panic ->
  exists ds ls tail, (length ds < n)%nat /\ Forall2 (fun d l => l <> [] /\ forall s, decode_varchar (l ++ s) = Ok (d, zlen l)) ds ls /\
    skipn (Z.to_nat pos) buf = concat ls ++ tail /\ decode_varchar tail = Panic.
Proof.
  induction n as [|n IH]; intros buf pos Hp H; [discriminate|].
  cbn [decode_subkeys] in H. unfold go_from in H.
  assert (((0 <=? pos) && (pos <=? zlen buf))%Z = true) as G by lia. rewrite G in H. cbn [rbind] in H. clear G.
  set (rest := skipn (Z.to_nat pos) buf) in *.
  destruct (decode_varchar rest) as [[k l]| |] eqn:D; cbn [rbind] in H; try discriminate.
  2:{ exists [], [], rest. split; [simpl; lia|]. split; [constructor|]. auto. }
  destruct (decode_subkeys n buf (pos + l)) as [[ks p']| |] eqn:R; cbn [rbind] in H; try discriminate.
  destruct (varchar_inside _ _ _ D) as [(E & -> & ->)|(pre & more & E & U & ->)].
  - (* at the end of the buffer *)
    rewrite Z.add_0_r in R. destruct (IH _ _ Hp R) as (ds & ls & tail & Hl & F & E2 & P).
    fold rest in E2. rewrite E in E2. destruct ls as [|a ls].
    + simpl in E2. subst tail. discriminate.
    + inversion F as [|d0 l0 ds0 ls0 [Na _] F0 Ed El]; subst. destruct a; [congruence|discriminate].
  - assert (zlen rest = zlen buf - pos)%Z as Lr.
    { unfold rest, zlen in *. rewrite skipn_length. lia. }
    assert (zlen (pre ++ k) <= zlen rest)%Z as Lp.
    { rewrite E, app_assoc, !zlen_app. pose proof (zlen_nonneg more). rewrite <- zlen_app. lia. }
    pose proof (zlen_nonneg (pre ++ k)).
    destruct (IH buf (pos + zlen (pre ++ k))%Z ltac:(lia) R) as (ds & ls & tail & Hl & F & E2 & P).
    exists (k :: ds), ((pre ++ k) :: ls), tail. split; [simpl; lia|]. split.
    + constructor; [|assumption]. pose proof (numeral_length _ _ U).
      split; [destruct pre; simpl in *; [lia|discriminate]|].
      intros s. rewrite <- app_assoc. rewrite (decode_varchar_header _ _ _ U), of_nat_zlen, zlen_app.
      assert (decode_varchar rest = Ok (k, zlen (pre ++ k))) as D2 by assumption.
      rewrite E in D2. rewrite (decode_varchar_header _ _ _ U), of_nat_zlen, zlen_app in D2.
      destruct (2 ^ 63 <=? zlen pre + zlen k)%Z; [discriminate|].
      pose proof (zlen_nonneg s). destruct (Z.ltb_spec (zlen k + zlen s) (zlen k)); [lia|].
      rewrite Nat2N.id, firstn_app_exact by reflexivity. now rewrite zlen_app.
    + split; [|assumption]. simpl concat.
      replace (Z.to_nat (pos + zlen (pre ++ k))) with (length (pre ++ k) + Z.to_nat pos)%nat in E2
        by (unfold zlen; lia).
      rewrite <- app_assoc, <- E2.
      assert (rest = (pre ++ k) ++ skipn (length (pre ++ k)) rest) as E3.
      { rewrite E, app_assoc. now rewrite skipn_app_exact by reflexivity. }
      rewrite E3 at 1. f_equal. unfold rest. rewrite skipn_add. f_equal. lia.
Qed.

Lemma decode_subkeys_panic_conv ds ls tail n :
  (length ds < n)%nat -> Forall2 (fun d l => forall s, decode_varchar (l ++ s) = Ok (d, zlen l)) ds ls ->
  decode_varchar tail = Panic -> forall pre, decode_subkeys n (pre ++ concat ls ++ tail) (zlen pre) = Panic.
Proof.
  intros Hn F. revert n Hn. induction F as [|d l ds ls Hd F IH]; intros n Hn P pre; (destruct n as [|n]; [simpl in Hn; lia|]).
  - cbn [decode_subkeys]. rewrite go_from_app. cbn [rbind]. simpl. now rewrite P.
  - cbn [decode_subkeys]. rewrite go_from_app. cbn [rbind]. simpl concat. rewrite <- app_assoc, Hd. cbn [rbind].
    rewrite app_assoc, <- zlen_app. rewrite IH; [reflexivity|simpl in Hn; lia|assumption].
Qed.

(** Length-prefixed string whose numeral need not be the shortest, short enough for the position arithmetic. *)
Definition lp_string (d l : bytes) : Prop :=
  exists n, uvarint_numeral n (N.of_nat (length d)) /\ l = n ++ d /\ (zlen l < 2 ^ 63)%Z.

Lemma lp_string_decode d l : (l <> [] /\ forall s, decode_varchar (l ++ s) = Ok (d, zlen l)) <-> lp_string d l.
Proof.
  split.
  - intros [Hne H]. specialize (H []). rewrite app_nil_r in H.
    assert (D := H). destruct (varchar_inside _ _ _ H) as [(-> & _)|(pre & rest & E & U & L)]; [congruence|].
    assert (rest = []) as ->.
    { apply (f_equal (@length _)) in E. rewrite app_assoc, app_length in E. unfold zlen in L.
      destruct rest; [reflexivity|]. simpl in E. lia. }
    rewrite app_nil_r in E. exists pre. split; [assumption|]. split; [assumption|].
    rewrite E in D. rewrite (decode_varchar_header _ _ _ U), of_nat_zlen in D.
    destruct (Z.leb_spec (2 ^ 63) (zlen pre + zlen d)); [discriminate|]. rewrite E, zlen_app. lia.
  - intros (n & U & -> & L). pose proof (numeral_length _ _ U). split; [destruct n; simpl in *; [lia|discriminate]|].
    intros s. rewrite <- app_assoc, (decode_varchar_header _ _ _ U), of_nat_zlen, !zlen_app in *.
    destruct (Z.leb_spec (2 ^ 63) (zlen n + zlen d)); [lia|]. pose proof (zlen_nonneg s).
    destruct (Z.ltb_spec (zlen d + zlen s) (zlen d)); [lia|].
    now rewrite Nat2N.id, firstn_app_exact by reflexivity.
Qed.

(** A buffer starts with a numeral so large that adding it to a position overflows. *)
Definition huge_header (l : bytes) : Prop :=
  exists pre suf v, l = pre ++ suf /\ uvarint_numeral pre v /\ (2 ^ 63 <= zlen pre + Z.of_N v)%Z.

(** A count whose slice headers (24 bytes each) exceed 2^48 bytes, with at least as many bytes behind it. *)
Definition large_count (l : bytes) : Prop :=
  exists pre suf v, l = pre ++ suf /\ uvarint_numeral pre v /\ (Z.of_N v <= zlen suf)%Z /\ (2 ^ 48 < Z.of_N v * 24)%Z.

Lemma decode_keys_panic buf :
  (decode_keys buf = Panic <->
   huge_header buf \/ large_count buf \/
   exists n v ds ls tail, uvarint_numeral n v /\ (Z.of_N v <= zlen (concat ls ++ tail))%Z /\
     (N.of_nat (length ds) < v)%N /\ Forall2 lp_string ds ls /\ huge_header tail /\
     buf = n ++ concat ls ++ tail).
Proof.
  split.
  - unfold decode_keys. intros H.
    destruct (decode_uvarint64 buf) as [[v l]| |] eqn:D; cbn [rbind] in H; try discriminate.
    2:{ exfalso. destruct (header_cases buf) as [v n E Hn|pre suf v Eb U E].
        - destruct buf as [|b buf]; [discriminate|].
          destruct (bad_header_err (b :: buf) v n) as (_ & F & _); [discriminate|assumption..|]. congruence.
        - rewrite Eb, (decode_uvarint64_header _ _ _ U) in D. destruct (_ && _)%bool; discriminate. }
    destruct (header_cases buf) as [v' n E Hn|pre suf v' Eb U E].
    { destruct buf as [|b buf].
      - simpl in D. inv D. simpl in H. discriminate.
      - destruct (bad_header_err (b :: buf) v' n) as (_ & F & _); [discriminate|assumption..|]. congruence. }
    rewrite Eb, (decode_uvarint64_header _ _ _ U) in D.
    destruct ((zlen pre + Z.of_N v' <? 2 ^ 63) && (zlen suf <? Z.of_N v'))%Z eqn:G; [discriminate|]. inv D.
    destruct (Z.le_gt_cases (2 ^ 63) (zlen pre + Z.of_N v)) as [C|C].
    { left. exists pre, suf, v. auto. }
    right. assert (Z.of_N v <= zlen suf)%Z as Hv by lia. unfold make_slices_ok in H.
    destruct (N.leb_spec (v * 24) (2 ^ 48)) as [Mk|Mk]; [right|left; exists pre, suf, v; (split; [reflexivity|split; [exact U|split; [exact Hv|clear - Mk; lia]]])].
    pose proof (zlen_nonneg pre).
    assert (0 <= zlen pre <= zlen (pre ++ suf))%Z as Hpos by (rewrite zlen_app; pose proof (zlen_nonneg suf); lia).
    destruct (decode_subkeys_panic _ _ _ Hpos H)
      as (ds & ls & tail & Hl & F & E2 & P).
    rewrite skipn_app_exact in E2 by (unfold zlen; lia). subst suf.
    exists pre, v, ds, ls, tail. split; [assumption|]. split; [assumption|]. split; [lia|]. split.
    + eapply Forall2_imp; [|exact F]. intros d l. apply lp_string_decode.
    + split; [|reflexivity]. now apply varchar_panic_exact.
  - intros [(pre & suf & v & -> & U & C)|[(pre & suf & v & -> & U & Hv & C)|(n & v & ds & ls & tail & U & Hv & Hl & F & P & ->)]].
    + unfold decode_keys. rewrite (decode_uvarint64_header _ _ _ U).
      destruct (Z.ltb_spec (zlen pre + Z.of_N v) (2 ^ 63)); [lia|]. cbn [andb rbind].
      pose proof (zlen_numeral _ _ U). assert (make_slices_ok v = false) as -> by (apply N.leb_gt; lia). reflexivity.
    + unfold decode_keys. rewrite (decode_uvarint64_header _ _ _ U).
      destruct (Z.ltb_spec (zlen suf) (Z.of_N v)); [lia|]. rewrite andb_false_r. cbn [rbind].
      assert (make_slices_ok v = false) as -> by (apply N.leb_gt; lia). reflexivity.
    + unfold decode_keys. rewrite (decode_uvarint64_header _ _ _ U).
      destruct (Z.ltb_spec (zlen (concat ls ++ tail)) (Z.of_N v)); [lia|]. rewrite andb_false_r. cbn [rbind].
      destruct (make_slices_ok v); [|reflexivity].
      apply decode_subkeys_panic_conv with (ds := ds).
      * lia.
      * eapply Forall2_imp; [|exact F]. intros d l L. now apply lp_string_decode.
      * now apply varchar_panic_exact.
Qed.

(** ** Truncation *)
Lemma decode_subkeys_end n : forall buf, decode_subkeys n buf (zlen buf) = Ok (repeat (Some []) n, zlen buf).
Proof.
  induction n as [|n IH]; intros buf; [reflexivity|]. cbn [decode_subkeys].
  rewrite <- (app_nil_r buf) at 1. rewrite go_from_app. cbn [rbind decode_varchar]. rewrite Z.add_0_r, IH. reflexivity.
Qed.

Lemma decode_subkeys_cut keys ls : Forall2 varchar_of keys ls -> Forall sized keys ->
  forall p x q, concat ls = p ++ x :: q -> forall pre,
  (exists m, (m < length keys)%nat /\ p = concat (firstn m ls) /\
     decode_subkeys (length keys) (pre ++ p) (zlen pre) =
       Ok (map Some (firstn m keys) ++ repeat (Some []) (length keys - m), zlen (pre ++ p))) \/
  ((forall m, p <> concat (firstn m ls)) /\ decode_subkeys (length keys) (pre ++ p) (zlen pre) = Err).
Proof.
  induction 1 as [|k l ks ls Vk F IH]; intros S p x q E pre; simpl in E; [destruct p; discriminate|].
  inversion S as [|k0 ks0 H1 H2 Ek]; subst.
  assert ((exists t, p = l ++ t /\ concat ls = t ++ x :: q) \/ (exists y t, l = p ++ y :: t)) as [(t & -> & E2)|(y & t & El)].
  { destruct (app_prefix_cases l (concat ls) p (x :: q) E) as [(t & Ep & E2)|(t & El & Eq)]; [eauto|].
    destruct t as [|y t]; [|eauto]. left. exists []. rewrite app_nil_r in *. split; [congruence|]. symmetry. exact Eq. }
  - (* the first sub key is complete *)
    destruct (IH H2 _ _ _ E2 (pre ++ l)) as [(m & Hm & -> & D)|(Nm & D)].
    + left. exists (Datatypes.S m). split; [simpl; lia|]. split; [reflexivity|].
      cbn [decode_subkeys length]. rewrite go_from_app. cbn [rbind].
      rewrite (varchar_of_decode k l _ H1 Vk). cbn [rbind].
      rewrite app_assoc, <- zlen_app, D. cbn [rbind]. simpl. rewrite <- app_assoc. reflexivity.
    + right. split.
      * intros [|m] Em; simpl in Em.
        -- pose proof (varchar_of_nonempty _ _ Vk). destruct l; simpl in *; [lia|discriminate].
        -- apply app_inv_head in Em. now apply (Nm m).
      * cbn [decode_subkeys length]. rewrite go_from_app. cbn [rbind].
        rewrite (varchar_of_decode k l _ H1 Vk). cbn [rbind].
        rewrite app_assoc, <- zlen_app, D. reflexivity.
  - destruct p as [|b p].
    + left. exists 0%nat. split; [simpl; lia|]. split; [reflexivity|]. rewrite app_nil_r.
      rewrite decode_subkeys_end. reflexivity.
    + right. split.
      * intros [|m] Em; simpl in Em; [discriminate|].
        apply (f_equal (@length _)) in Em, El. rewrite app_length in *. simpl in *. lia.
      * cbn [decode_subkeys length]. rewrite go_from_app. cbn [rbind].
        rewrite (varchar_of_truncated k l (b :: p) y t H1 Vk El ltac:(discriminate)). reflexivity.
Qed.

Lemma decode_keys_cut keys n ls : uvarint_minimal n (N.of_nat (length keys)) -> Forall2 varchar_of keys ls ->
  Forall sized keys -> (zlen keys < 2 ^ 43)%Z -> forall p x q, n ++ concat ls = p ++ x :: q ->
  (p = [] /\ decode_keys p = Ok ([], 0%Z)) \/
  (exists m, (m < length keys)%nat /\ p = n ++ concat (firstn m ls) /\
     (length keys <= length (concat (firstn m ls)))%nat /\
     decode_keys p = Ok (map Some (firstn m keys) ++ repeat (Some []) (length keys - m), zlen p)) \/
  (p <> [] /\ (forall m, p = n ++ concat (firstn m ls) -> (length (concat (firstn m ls)) < length keys)%nat) /\
   decode_keys p = Err).
Proof.
  intros M F Sz Hk p x q E. unfold zlen in Hk.
  pose proof (minimal_numeral _ _ M ltac:(lia)) as U. pose proof (zlen_numeral _ _ U) as Ln.
  destruct p as [|b p]; [left; split; reflexivity|]. right.
  assert ((exists t, b :: p = n ++ t /\ concat ls = t ++ x :: q) \/ (exists y t, n = (b :: p) ++ y :: t))
    as [(t & Ep & E2)|(y & t & En)].
  { destruct (app_prefix_cases n (concat ls) (b :: p) (x :: q) E) as [(t & Ep & E2)|(t & El & Eq)]; [eauto|].
    destruct t as [|y t]; [|eauto]. left. exists []. rewrite app_nil_r in *. split; [congruence|]. symmetry. exact Eq. }
  - unfold decode_keys. rewrite Ep, (decode_uvarint64_header _ _ _ U), of_nat_zlen.
    destruct (Z.ltb_spec (zlen n + zlen keys) (2 ^ 63)) as [_|?]; [|unfold zlen in *; lia]. cbn [andb].
    destruct (Z.ltb_spec (zlen t) (zlen keys)) as [C|C].
    + right. split; [rewrite <- Ep; discriminate|]. split; [|reflexivity].
      intros m Em. apply app_inv_head in Em. rewrite <- Em. unfold zlen in C. lia.
    + cbn [rbind]. assert (make_slices_ok (N.of_nat (length keys)) = true) as -> by (apply N.leb_le; lia).
      rewrite Nat2N.id.
      destruct (decode_subkeys_cut _ _ F Sz _ _ _ E2 n) as [(m & Hm & -> & D)|(Nm & D)].
      * left. exists m. split; [assumption|]. split; [reflexivity|]. split; [unfold zlen in C; lia|]. exact D.
      * right. split; [rewrite <- Ep; discriminate|]. split; [|exact D].
        intros m Em. apply app_inv_head in Em. exfalso. now apply (Nm m).
  - right. split; [discriminate|]. split.
    + intros m Em. apply (f_equal (@length _)) in Em, En. rewrite app_length in *. simpl in *. lia.
    + destruct (header_cases (b :: p)) as [v m Ev Hm|pre suf v Eb U' Ev].
      * destruct (bad_header_err (b :: p) v m) as (_ & R & _); [discriminate|assumption..|].
        unfold decode_keys. now rewrite R.
      * exfalso. rewrite En, Eb in U.
        assert (n ++ [] = pre ++ (suf ++ y :: t)) as E3 by (rewrite app_nil_r, En, Eb, <- app_assoc; reflexivity).
        rewrite <- Eb, <- En in U. destruct (numeral_prefix _ _ _ _ _ _ U U' E3) as (_ & _ & E4).
        destruct suf; discriminate.
Qed.

(** ** Equality *)
Lemma sub_key_at_nth k i : sub_key_at k i = match nth_error (ikey_keys k) i with Some s => Ok s | None => Panic end.
Proof. destruct k; simpl; try reflexivity. now destruct i. Qed.

Lemma equal_subkeys_spec ks t : forall done, (length ks + length done = length (ikey_keys t))%nat ->
  forall rest, ikey_keys t = done ++ rest ->
  exists b, equal_subkeys ks t (length done) = Ok b /\ (b = true <-> ks = rest).
Proof.
  induction ks as [|k ks IH]; intros done L rest E; cbn [equal_subkeys].
  - exists true. split; [reflexivity|]. rewrite E, app_length in L. destruct rest; simpl in L; [tauto|lia].
  - rewrite sub_key_at_nth. rewrite E, app_length in L.
    destruct rest as [|r rest]; [simpl in L; lia|].
    rewrite E, nth_error_app2, Nat.sub_diag by lia. cbn [nth_error rbind].
    destruct (equal_byte_slice k r) eqn:B.
    + apply equal_byte_slice_exact in B. subst r.
      destruct (IH (done ++ [k])) with (rest := rest) as (b & Eb & Hb).
      * rewrite E, !app_length in *. simpl in *. lia.
      * rewrite <- app_assoc. exact E.
      * rewrite app_length in Eb. simpl in Eb. rewrite Nat.add_1_r in Eb. exists b. split; [assumption|].
        rewrite Hb. split; [now intros ->|]. now injection 1.
    + exists false. split; [reflexivity|]. split; [discriminate|]. intros H. injection H as -> _.
      assert (equal_byte_slice r r = true) by now apply equal_byte_slice_exact. congruence.
Qed.

Lemma ikey_equal_exact k t : exists b, ikey_equal k (OKey t) = Ok b /\ (b = true <-> ikey_keys k = ikey_keys t).
Proof.
  unfold ikey_equal. destruct k as [|ks buf|e ks buf est]; cbn [ikey_keys].
  - eexists. split; [reflexivity|]. rewrite Nat.eqb_eq. split; [|now intros <-].
    intros H. symmetry. now apply length_zero_iff_nil.
  - destruct (Nat.eqb_spec (length ks) (length (ikey_keys t))) as [L|L].
    + apply (equal_subkeys_spec ks t []); [simpl; lia|reflexivity].
    + exists false. split; [reflexivity|]. split; [discriminate|]. congruence.
  - destruct (Nat.eqb_spec (length ks) (length (ikey_keys t))) as [L|L].
    + apply (equal_subkeys_spec ks t []); [simpl; lia|reflexivity].
    + exists false. split; [reflexivity|]. split; [discriminate|]. congruence.
Qed.

(** ** Comparison *)
Fixpoint cmp_keys (ks ts : list gslice) : res Z :=
  match ks, ts with
  | [], [] => Ok 0%Z
  | [], _ :: _ => Ok (-1)%Z
  | _ :: _, [] => Panic
  | k :: ks', t :: ts' => let? r := compare_byte_slice k t in if Z.eqb r 0 then cmp_keys ks' ts' else Ok r
  end.

Lemma compare_subkeys_spec ks t : forall done rest total, ikey_keys t = done ++ rest ->
  total = (length done + length ks)%nat ->
  compare_subkeys ks t (length done) total = cmp_keys ks rest.
Proof.
  induction ks as [|k ks IH]; intros done rest total E T; cbn [compare_subkeys cmp_keys].
  - rewrite E, app_length, T. simpl. destruct rest; simpl.
    + destruct (Nat.ltb_spec (length done + 0) (length done + 0)); [lia|reflexivity].
    + destruct (Nat.ltb_spec (length done + 0) (length done + Datatypes.S (length rest))); [reflexivity|lia].
  - rewrite sub_key_at_nth, E, app_length.
    destruct (Nat.ltb_spec (length done + length rest) (length done)); [lia|].
    rewrite nth_error_app2, Nat.sub_diag by lia. destruct rest as [|r rest]; cbn [nth_error rbind]; [reflexivity|].
    destruct (compare_byte_slice k r) as [c| |]; cbn [rbind]; try reflexivity.
    destruct (Z.eqb c 0); [|reflexivity].
    replace (Datatypes.S (length done)) with (length (done ++ [r])) by (rewrite app_length; simpl; lia).
    apply IH; [rewrite <- app_assoc; exact E|]. rewrite app_length. simpl in *. lia.
Qed.

Lemma ikey_compare_cmp k t : ikey_compare k (OKey t) = cmp_keys (ikey_keys k) (ikey_keys t).
Proof.
  unfold ikey_compare. destruct k as [|ks buf|e ks buf est]; cbn [ikey_keys].
  - destruct (ikey_keys t); reflexivity.
  - now apply (compare_subkeys_spec ks t []).
  - now apply (compare_subkeys_spec ks t []).
Qed.

Lemma cmp_keys_values ks : forall ts, cmp_keys ks ts = Ok (-1)%Z \/ cmp_keys ks ts = Ok 0%Z \/
  cmp_keys ks ts = Ok 1%Z \/ cmp_keys ks ts = Panic.
Proof.
  induction ks as [|k ks IH]; intros [|t ts]; simpl; auto.
  destruct (compare_byte_slice k t) as [c| |] eqn:E; cbn [rbind]; auto.
  - destruct (Z.eqb_spec c 0) as [->|N]; [auto|].
    unfold compare_byte_slice in E.
    pose proof (compare_slice_values byte_ltb k t) as V.
    rewrite E in V. intuition congruence.
  - exfalso. pose proof (compare_slice_values byte_ltb k t) as V.
    unfold compare_byte_slice in E. rewrite E in V. intuition congruence.
Qed.

(** Where comparing [ks] with [ts] panics: after equal sub keys, either [ts] ends while [ks] goes on, or the sub key
    of [ts] is a proper prefix of the one of [ks]. *)
Definition cmp_panics (ks ts : list gslice) : Prop :=
  exists common a ks', ks = common ++ a :: ks' /\
    (ts = common \/ exists b ts', ts = common ++ b :: ts' /\ slice_proper_prefix b a).

Lemma cmp_panics_cons k ks ts : cmp_panics (k :: ks) (k :: ts) <-> cmp_panics ks ts.
Proof.
  split.
  - intros (common & a & ks' & E & H). destruct common as [|c common]; simpl in *; injection E as -> ->.
    + exfalso. destruct H as [H|(b & ts' & H & (p & l & -> & E & x & xs & ->))]; [discriminate|].
      injection H as H _. rewrite H in E. injection E as E. apply (f_equal (@length _)) in E.
      rewrite app_length in E. simpl in E. lia.
    + exists common, a, ks'. split; [reflexivity|].
      destruct H as [H|(b & ts' & H & P)]; injection H as ->; [left; reflexivity|right; eauto].
  - intros (common & a & ks' & -> & H). exists (k :: common), a, ks'. split; [reflexivity|].
    destruct H as [->|(b & ts' & -> & P)]; [now left|right; exists b, ts'; auto].
Qed.

Lemma cmp_panics_head k ks t ts : k <> t -> (cmp_panics (k :: ks) (t :: ts) <-> slice_proper_prefix t k).
Proof.
  intros N. split.
  - intros (common & a & ks' & E & H). destruct common as [|c common]; simpl in *; injection E as -> ->.
    + destruct H as [H|(b & ts' & H & P)]; [discriminate|]. injection H as -> _. assumption.
    + destruct H as [H|(b & ts' & H & P)]; injection H as H _; congruence.
  - intros P. exists [], k, ks. split; [reflexivity|]. right. exists t, ts. auto.
Qed.

Lemma key_lt_cons k ks ts : key_lt (k :: ks) (k :: ts) <-> key_lt ks ts.
Proof.
  unfold key_lt. split; [|now constructor 3]. intros H. inv H; [|assumption].
  exfalso. eapply (slice_lt_irrefl byte_lt byte_lt_irrefl); eauto.
Qed.

Lemma key_lt_head k ks t ts : k <> t -> (key_lt (k :: ks) (t :: ts) <-> slice_lt byte_lt k t).
Proof.
  intros N. unfold key_lt. split; [|now constructor]. intros H. inv H; [assumption|congruence].
Qed.

Lemma cmp_keys_exact ks : forall ts,
  (cmp_keys ks ts = Ok (-1)%Z <-> key_lt ks ts) /\
  (cmp_keys ks ts = Ok 0%Z <-> ks = ts) /\
  (cmp_keys ks ts = Ok 1%Z <-> key_lt ts ks /\ ~ cmp_panics ks ts) /\
  (cmp_keys ks ts = Panic <-> cmp_panics ks ts).
Proof.
  induction ks as [|k ks IH]; intros [|t ts].
  - simpl. split; [|split; [|split]]; split; try discriminate; try tauto.
    + inversion 1.
    + intros [H _]. inversion H.
    + intros (c & a & ks' & E & _). destruct c; discriminate.
  - simpl. split; [|split; [|split]]; split; try discriminate; try tauto.
    + intros _. constructor.
    + intros [H _]. inversion H.
    + intros (c & a & ks' & E & _). destruct c; discriminate.
  - simpl. split; [|split; [|split]]; split; try discriminate; try tauto.
    + inversion 1.
    + intros [_ H]. exfalso. apply H. exists [], k, ks. split; [reflexivity|]. now left.
    + intros _. exists [], k, ks. split; [reflexivity|]. now left.
  - cbn [cmp_keys]. destruct (byte_compare_exact k t) as (L & E & G & P).
    fold (compare_byte_slice k t) in *.
    destruct (compare_byte_slice k t) as [c| |] eqn:C; cbn [rbind].
    + destruct (Z.eqb_spec c 0) as [->|Nz].
      * assert (k = t) as <- by now apply E. destruct (IH ts) as (L' & E' & G' & P').
        rewrite !key_lt_cons, cmp_panics_cons. rewrite L', E', G', P'.
        split; [tauto|]. split; [|tauto]. split; [now intros ->|now injection 1].
      * assert (k <> t) as N by (intros H; apply E in H; congruence).
        rewrite !key_lt_head, cmp_panics_head by congruence.
        rewrite L, G, P. split; [tauto|]. split; [|tauto]. split; [congruence|]. intros H. injection H as H _. congruence.
    + exfalso. pose proof (compare_slice_values byte_ltb k t) as V.
      unfold compare_byte_slice in C. rewrite C in V. intuition congruence.
    + assert (slice_proper_prefix t k) as Pp by now apply P.
      assert (k <> t) as N by (intros H; apply E in H; congruence).
      rewrite !key_lt_head, cmp_panics_head by congruence.
      split; [split; [discriminate|]|].
      { intros H. apply L in H. discriminate. }
      split; [split; [discriminate|congruence]|]. split; [split; [discriminate|tauto]|tauto].
Qed.

(** ** Copies *)
Lemma add_all_ok e ks buf est l : Forall (fun s => gcontent s <> []) l ->
  exists est', add_all (KKey e ks buf est) l = Ok (KKey e (ks ++ l) buf est').
Proof.
  intros F. revert ks est. induction F as [|s l Hs F IH]; intros ks est.
  - exists est. simpl. now rewrite app_nil_r.
  - cbn [add_all key_add]. destruct (gcontent s) as [|b c] eqn:G; [congruence|]. cbn [rbind].
    destruct (IH (ks ++ [s]) (est + 1 + zlen (b :: c))%Z) as (est' & E). exists est'. rewrite E, <- app_assoc. reflexivity.
Qed.

Lemma add_all_panic l : Exists (fun s => gcontent s = []) l -> forall e ks buf est,
  add_all (KKey e ks buf est) l = Panic.
Proof.
  induction 1 as [s l Hs|s l X IH]; intros e ks buf est; cbn [add_all key_add].
  - now rewrite Hs.
  - destruct (gcontent s); [reflexivity|]. cbn [rbind]. apply IH.
Qed.
