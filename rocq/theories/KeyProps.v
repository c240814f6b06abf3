(** * Final theorems on keys: C28 - C35 and C73. *)
From Coq Require Import List NArith ZArith Bool Lia.
From Coq Require Import Strings.Byte.
From Verif Require Import Base BaseProofs CmpModel CmpSpec CmpProofs VarintModel VarintSpec VarintProofs
  KeyModel KeySpec KeyProofs KeyHistory.
Import ListNotations.

(** [sized d]: [d] plus a length prefix fits in a Go slice, [zlen d + 10 < 2^63]. The theorems that assume it, or
    a bound on the number of sub keys, say nothing about objects that do not fit into memory. *)

(** ** C28 *)
(** Whatever Encode accepts, parsing gives back the sub keys' contents and consumes exactly the encoding. *)
Theorem C28_key_roundtrip : forall (e : bool) (keys : list gslice) (buf0 : gslice) (est : Z) (l suffix : bytes),
  Forall sized (map gcontent keys) -> (zlen keys < 2 ^ 43)%Z ->
  key_encode (KKey e keys buf0 est) = Ok (KKey true keys (Some l) (zlen l)) ->
  exists k, new_mapped_key (Some (l ++ suffix)) = Ok (k, zlen l) /\
            ikey_keys k = map (fun s => Some (gcontent s)) keys.
Proof.
  intros e keys buf0 est l suf S Hk H. cbn [key_encode] in H.
  destruct (key_bytes_exists (map gcontent keys) S) as (l' & B); [unfold zlen in *; rewrite map_length; lia|].
  rewrite (encode_keys_spec keys l' B S ltac:(lia)) in H.
  destruct (max_key_length <? zlen l')%Z; cbn [rbind] in H; [discriminate|]. inv H.
  unfold new_mapped_key. cbn [gcontent].
  rewrite (decode_keys_ok (map gcontent keys) l suf B S) by (unfold zlen in *; rewrite map_length; lia).
  cbn [rbind]. eexists. split; [reflexivity|]. cbn [ikey_keys]. now rewrite map_map.
Qed.
Print Assumptions C28_key_roundtrip.

(** The parsed key is Equal to the original if no sub key is the nil slice.
    Missing from the full statement: keys with a nil sub key, see the refutation. *)
Theorem C28_key_roundtrip_equal_partial : forall (e : bool) (keys : list gslice) (buf0 : gslice) (est : Z) (l suffix : bytes),
  Forall sized (map gcontent keys) -> (zlen keys < 2 ^ 43)%Z -> ~ In None keys ->
  key_encode (KKey e keys buf0 est) = Ok (KKey true keys (Some l) (zlen l)) ->
  exists k, new_mapped_key (Some (l ++ suffix)) = Ok (k, zlen l) /\
            ikey_equal k (OKey (KKey true keys (Some l) (zlen l))) = Ok true /\
            ikey_equal (KKey true keys (Some l) (zlen l)) (OKey k) = Ok true.
Proof.
  intros e keys buf0 est l suf S Hk Hn H.
  destruct (C28_key_roundtrip e keys buf0 est l suf S Hk H) as (k & P & K). exists k. split; [assumption|].
  assert (ikey_keys k = keys) as K'.
  { rewrite K. clear - Hn. induction keys as [|s keys IH]; [reflexivity|]. simpl. f_equal.
    - destruct s; [reflexivity|]. exfalso. apply Hn. now left.
    - apply IH. intros H. apply Hn. now right. }
  split.
  - destruct (ikey_equal_exact k (KKey true keys (Some l) (zlen l))) as (b & -> & Hb). f_equal. now apply Hb.
  - destruct (ikey_equal_exact (KKey true keys (Some l) (zlen l)) k) as (b & -> & Hb). f_equal. now apply Hb.
Qed.
Print Assumptions C28_key_roundtrip_equal_partial.

(** Exactly which keys the parsed key is Equal to: those without a nil sub key. *)
Theorem C28_equal_exact : forall (e : bool) (keys : list gslice) (buf0 : gslice) (est : Z) (l suffix : bytes),
  Forall sized (map gcontent keys) -> (zlen keys < 2 ^ 43)%Z ->
  key_encode (KKey e keys buf0 est) = Ok (KKey true keys (Some l) (zlen l)) ->
  exists k b, new_mapped_key (Some (l ++ suffix)) = Ok (k, zlen l) /\
    ikey_equal k (OKey (KKey true keys (Some l) (zlen l))) = Ok b /\
    ikey_equal (KKey true keys (Some l) (zlen l)) (OKey k) = Ok b /\
    (b = true <-> ~ In None keys).
Proof.
  intros e keys buf0 est l suf S Hk H.
  destruct (C28_key_roundtrip e keys buf0 est l suf S Hk H) as (k & P & K).
  assert (ikey_keys k = keys <-> ~ In None keys) as N.
  { rewrite K. clear. split.
    - intros E F. rewrite <- E in F. apply in_map_iff in F. destruct F as (s & F & _). discriminate.
    - intros Hn. induction keys as [|s keys IH]; [reflexivity|]. simpl. f_equal.
      + destruct s; [reflexivity|]. exfalso. apply Hn. now left.
      + apply IH. intros H. apply Hn. now right. }
  destruct (ikey_equal_exact k (KKey true keys (Some l) (zlen l))) as (b & E1 & B1).
  destruct (ikey_equal_exact (KKey true keys (Some l) (zlen l)) k) as (b' & E2 & B2).
  assert (ikey_keys (KKey true keys (Some l) (zlen l)) = keys) as Q by reflexivity.
  rewrite Q in B1, B2.
  assert (b' = b) as ->.
  { destruct b, b'; try reflexivity.
    - apply (proj2 B2). symmetry. now apply (proj1 B1).
    - symmetry. apply (proj2 B1). symmetry. now apply (proj1 B2). }
  exists k, b. split; [assumption|]. split; [assumption|]. split; [assumption|]. rewrite <- N. exact B1.
Qed.
Print Assumptions C28_equal_exact.
Example C28_equal_exact_applies : exists keys l k, In None keys /\ (2 <= zlen keys)%Z /\ Forall sized (map gcontent keys) /\
  key_encode (KKey false keys None 1) = Ok (KKey true keys (Some l) (zlen l)) /\
  new_mapped_key (Some l) = Ok (k, zlen l) /\ ikey_equal k (OKey (KKey true keys (Some l) (zlen l))) = Ok false.
Proof.
  exists [Some [x61]; None], [x02; x01; x61; x00]. eexists. split; [simpl; auto|]. split; [vm_compute; discriminate|].
  split; [repeat constructor|]. repeat split; vm_compute; reflexivity.
Qed.

(** A key made from a nil slice is accepted, encoded, and not equal to what is parsed back. *)
Theorem C28_key_roundtrip_refuted : exists (k k' : ikey) (l : bytes),
  key_encode (new_simple_key None) = Ok k /\ ikey_buf k = Ok (Some l) /\
  new_mapped_key (Some l) = Ok (k', zlen l) /\ ikey_equal k' (OKey k) = Ok false.
Proof. do 3 eexists. repeat split; vm_compute; reflexivity. Qed.
Print Assumptions C28_key_roundtrip_refuted.

Example C28_applies :
  key_encode (KKey false [Some [x61]; Some [x62; x63]] None 1) =
    Ok (KKey true [Some [x61]; Some [x62; x63]] (Some [x02; x01; x61; x02; x62; x63]) 6) /\
  new_mapped_key (Some [x02; x01; x61; x02; x62; x63; xff]) =
    Ok (KMapped [Some [x61]; Some [x62; x63]] [x02; x01; x61; x02; x62; x63; xff], 6%Z) /\
  new_mapped_key (Some [x00]) = Ok (KMapped [] [x00], 1%Z) /\ new_mapped_key None = Ok (KMapped [] [], 0%Z).
Proof. repeat split; vm_compute; reflexivity. Qed.

(** ** C29 *)
Theorem C29_key_limit : forall (keys : list gslice),
  Forall sized (map gcontent keys) -> (zlen keys < 2 ^ 63)%Z ->
  exists l, key_bytes (map gcontent keys) l /\
    ((zlen l <= 4096)%Z -> encode_keys keys = Ok l) /\ ((zlen l > 4096)%Z -> encode_keys keys = Err).
Proof.
  intros keys S Hk. destruct (key_bytes_exists (map gcontent keys) S) as (l & B); [unfold zlen in *; rewrite map_length; lia|].
  exists l. split; [assumption|]. rewrite (encode_keys_spec keys l B S Hk). unfold max_key_length.
  destruct (Z.ltb_spec 4096 (zlen l)); split; intros; try lia; reflexivity.
Qed.
Print Assumptions C29_key_limit.

(** The Encode method reports an error exactly then, and otherwise stores the encoding. *)
Theorem C29_key_encode : forall e keys buf est,
  key_encode (KKey e keys buf est) =
  match encode_keys keys with
  | Ok l => Ok (KKey true keys (Some l) (zlen l)) | Err => Err | Panic => Panic end.
Proof. intros. cbn [key_encode]. destruct (encode_keys keys); reflexivity. Qed.
Print Assumptions C29_key_encode.

(** The wire format determines the bytes. *)
Theorem C29_key_bytes_unique : forall keys l l', key_bytes keys l -> key_bytes keys l' -> l = l'.
Proof. exact key_bytes_fun. Qed.
Print Assumptions C29_key_bytes_unique.

Example C29_applies :
  match encode_keys [Some (repeat x07 4093)] with Ok l => zlen l | _ => 0%Z end = 4096%Z /\
  encode_keys [Some (repeat x07 4094)] = Err.
Proof. split; vm_compute; reflexivity. Qed.

(** ** C30. Full statement: [forall buf, new_mapped_key buf <> Panic]. False; the exact set of panicking buffers is: a
    huge count, a count too large to allocate, or a huge length after some well-formed sub keys. *)
Theorem C30_key_parse_panic_exact : forall buf : bytes,
  (new_mapped_key (Some buf) = Panic <->
   huge_header buf \/ large_count buf \/
   exists n v ds ls tail, uvarint_numeral n v /\ (Z.of_N v <= zlen (concat ls ++ tail))%Z /\
     (N.of_nat (length ds) < v)%N /\ Forall2 lp_string ds ls /\ huge_header tail /\
     buf = n ++ concat ls ++ tail).
Proof.
  intros buf. rewrite <- (decode_keys_panic buf). unfold new_mapped_key. cbn [gcontent].
  destruct (decode_keys buf) as [[ks n]| |]; cbn [rbind]; split; congruence.
Qed.
Print Assumptions C30_key_parse_panic_exact.

Theorem C30_key_parse_refuted :
  new_mapped_key (Some [xff; xff; xff; xff; xff; xff; xff; xff; xff; x01]) = Panic /\
  new_mapped_key (Some [x01; xff; xff; xff; xff; xff; xff; xff; xff; xff; x01]) = Panic.
Proof. split; vm_compute; reflexivity. Qed.
Print Assumptions C30_key_parse_refuted.

(** Missing: buffers in which eight consecutive bytes are 128 or more. *)
Theorem C30_key_parse_safe_partial : forall buf : bytes, (zlen buf < 2 ^ 43)%Z ->
  (forall i, i + 8 <= length buf -> exists j b, i <= j < i + 8 /\ nth_error buf j = Some b /\ (b2n b < 128)%N) ->
  new_mapped_key (Some buf) <> Panic.
Proof.
  intros buf Hb W P. apply (C30_key_parse_panic_exact buf) in P.
  assert (forall pre l, buf = pre ++ l -> huge_header l -> False) as NH.
  { intros pre l E H. apply (varchar_no_panic_short l); [|now apply varchar_panic_exact].
    destruct (le_lt_dec 9 (length l)) as [L|L]; [right|left; assumption].
    destruct (W (length pre)) as (j & b & Hj & Hn & B); [rewrite E, app_length; lia|].
    exists (j - length pre), b. split; [lia|]. split; [|assumption].
    rewrite E, nth_error_app2 in Hn by lia. exact Hn. }
  destruct P as [P|[(pre & suf & v & -> & _ & Hv & C)|(n & v & ds & ls & tail & _ & _ & _ & _ & P & E)]].
  - now apply (NH [] buf).
  - rewrite zlen_app in Hb. pose proof (zlen_nonneg pre). lia.
  - apply (NH (n ++ concat ls) tail); [now rewrite <- app_assoc|assumption].
Qed.
Print Assumptions C30_key_parse_safe_partial.

Example C30_applies : new_mapped_key (Some [x02; x05; x61]) = Err /\ new_mapped_key (Some [x80]) = Err.
Proof. split; vm_compute; reflexivity. Qed.

(** ** C31. Full statement: parsing a proper prefix of an encoded non-empty key is an error. False; exactly these
    truncations are accepted: the empty prefix, and cuts between sub keys after at least as many bytes of sub keys as
    there are sub keys, where the missing ones come out as empty strings. *)
Theorem C31_truncation_exact : forall (keys : list bytes) (n : bytes) (ls : list bytes) (p q : bytes) (x : byte),
  uvarint_minimal n (N.of_nat (length keys)) -> Forall2 varchar_of keys ls ->
  Forall sized keys -> (zlen keys < 2 ^ 43)%Z -> n ++ concat ls = p ++ x :: q ->
  (p = [] /\ decode_keys p = Ok ([], 0%Z)) \/
  (exists m, m < length keys /\ p = n ++ concat (firstn m ls) /\
     length keys <= length (concat (firstn m ls)) /\
     decode_keys p = Ok (map Some (firstn m keys) ++ repeat (Some []) (length keys - m), zlen p)) \/
  (p <> [] /\ (forall m, p = n ++ concat (firstn m ls) -> length (concat (firstn m ls)) < length keys) /\
   decode_keys p = Err).
Proof. intros keys n ls p q x M F S Hk E. exact (decode_keys_cut keys n ls M F S Hk p x q E). Qed.
Print Assumptions C31_truncation_exact.

(** Cuts inside the count or inside a sub key are rejected. Missing: cuts between sub keys and the empty prefix. *)
Theorem C31_truncation_partial : forall (keys : list bytes) (n : bytes) (ls : list bytes) (p q : bytes) (x : byte),
  uvarint_minimal n (N.of_nat (length keys)) -> Forall2 varchar_of keys ls ->
  Forall sized keys -> (zlen keys < 2 ^ 43)%Z -> n ++ concat ls = p ++ x :: q ->
  p <> [] -> (forall m, p <> n ++ concat (firstn m ls)) -> new_mapped_key (Some p) = Err.
Proof.
  intros keys n ls p q x M F S Hk E Hp Hc. unfold new_mapped_key. cbn [gcontent].
  destruct (decode_keys_cut keys n ls M F S Hk p x q E) as [[H _]|[(m & _ & H & _)|(_ & _ & H)]].
  - contradiction.
  - exfalso. now apply (Hc m).
  - now rewrite H.
Qed.
Print Assumptions C31_truncation_partial.

Theorem C31_truncation_refuted : exists (keys : list bytes) (p : bytes) (x : byte) (q : bytes) (k : ikey),
  key_bytes keys (p ++ x :: q) /\ new_mapped_key (Some p) = Ok (k, zlen p) /\ p <> [] /\
  ikey_keys k <> map Some keys.
Proof.
  exists [[x61]; [x62]], [x02; x01; x61], x01, [x62]. eexists. split; [|split; [vm_compute; reflexivity|split; discriminate]].
  destruct (key_bytes_exists [[x61]; [x62]]) as (l & B).
  { repeat constructor. }
  { vm_compute. reflexivity. }
  assert (encode_keys [Some [x61]; Some [x62]] = Ok [x02; x01; x61; x01; x62]) as E by (vm_compute; reflexivity).
  rewrite (encode_keys_spec [Some [x61]; Some [x62]] l B) in E.
  - destruct (max_key_length <? zlen l)%Z; [discriminate|]. injection E as ->. exact B.
  - repeat constructor.
  - vm_compute. reflexivity.
Qed.
Print Assumptions C31_truncation_refuted.

(** ** C32 *)
Theorem C32_equal_exact : forall k t : ikey,
  exists b, ikey_equal k (OKey t) = Ok b /\ (b = true <-> ikey_keys k = ikey_keys t).
Proof. exact ikey_equal_exact. Qed.
Print Assumptions C32_equal_exact.

Theorem C32_equal_equivalence :
  (forall k, ikey_equal k (OKey k) = Ok true) /\
  (forall k t, ikey_equal k (OKey t) = ikey_equal t (OKey k)) /\
  (forall k t u, ikey_equal k (OKey t) = Ok true -> ikey_equal t (OKey u) = Ok true -> ikey_equal k (OKey u) = Ok true).
Proof.
  assert (forall k t, ikey_equal k (OKey t) = Ok true <-> ikey_keys k = ikey_keys t) as X.
  { intros k t. destruct (ikey_equal_exact k t) as (b & -> & Hb). rewrite <- Hb. split; [now injection 1|now intros ->]. }
  split; [|split].
  - intros k. now apply X.
  - intros k t. destruct (ikey_equal_exact k t) as (b & -> & Hb). destruct (ikey_equal_exact t k) as (b' & -> & Hb').
    f_equal. destruct b, b'; try reflexivity; exfalso.
    + assert (ikey_keys t = ikey_keys k) as H by (symmetry; now apply Hb). apply Hb' in H. discriminate.
    + assert (ikey_keys k = ikey_keys t) as H by (symmetry; now apply Hb'). apply Hb in H. discriminate.
  - intros k t u H1 H2. apply X in H1, H2. apply X. congruence.
Qed.
Print Assumptions C32_equal_equivalence.

Theorem C32_equal_nil : forall k, ikey_equal k ONil = Ok false /\ ikey_equal k ONotKey = Ok false.
Proof. intros k. destruct k; split; reflexivity. Qed.
Print Assumptions C32_equal_nil.

Example C32_applies :
  ikey_equal (KKey false [Some [x61]] None 3) (OKey (KMapped [Some [x61]] [x01; x01; x61])) = Ok true /\
  ikey_equal KEmpty (OKey new_key) = Ok true /\ ikey_equal new_key (OKey KEmpty) = Ok true /\
  ikey_equal (KMapped [] []) (OKey KEmpty) = Ok true /\ ikey_equal KEmpty (OKey (new_simple_key None)) = Ok false.
Proof. repeat split. Qed.

(** ** C33. Full statement: Compare returns the sign of the lexicographic order. False: it panics exactly when, after
    equal sub keys, the argument ends first or has a sub key that is a proper prefix of the receiver's. *)
Theorem C33_compare_exact : forall k t : ikey,
  (ikey_compare k (OKey t) = Ok (-1)%Z <-> key_lt (ikey_keys k) (ikey_keys t)) /\
  (ikey_compare k (OKey t) = Ok 0%Z <-> ikey_keys k = ikey_keys t) /\
  (ikey_compare k (OKey t) = Ok 1%Z <-> key_lt (ikey_keys t) (ikey_keys k) /\ ~ cmp_panics (ikey_keys k) (ikey_keys t)) /\
  (ikey_compare k (OKey t) = Panic <-> cmp_panics (ikey_keys k) (ikey_keys t)).
Proof. intros k t. rewrite ikey_compare_cmp. apply cmp_keys_exact. Qed.
Print Assumptions C33_compare_exact.

(** Missing: the panicking pairs. *)
Theorem C33_compare_partial : forall k t : ikey, ~ cmp_panics (ikey_keys k) (ikey_keys t) ->
  exists c, ikey_compare k (OKey t) = Ok c /\
    (c < 0 <-> key_lt (ikey_keys k) (ikey_keys t))%Z /\ (c = 0%Z <-> ikey_keys k = ikey_keys t) /\
    (c > 0 <-> key_lt (ikey_keys t) (ikey_keys k))%Z.
Proof.
  intros k t N. destruct (C33_compare_exact k t) as (L & E & G & P).
  pose proof (cmp_keys_values (ikey_keys k) (ikey_keys t)) as V. rewrite <- ikey_compare_cmp in V.
  destruct V as [V|[V|[V|V]]]; [exists (-1)%Z|exists 0%Z|exists 1%Z|exfalso; apply N, P, V]; (split; [assumption|]);
    rewrite V in L, E, G.
  - split; [rewrite <- L; split; [reflexivity|lia]|]. split; [rewrite <- E; split; [lia|discriminate]|].
    split; [lia|]. intros H. assert (Ok (-1)%Z = Ok 1%Z) by (apply G; auto). discriminate.
  - split; [rewrite <- L; split; [lia|discriminate]|]. split; [rewrite <- E; split; reflexivity|].
    split; [lia|]. intros H. assert (Ok 0%Z = Ok 1%Z) by (apply G; auto). discriminate.
  - split; [rewrite <- L; split; [lia|discriminate]|]. split; [rewrite <- E; split; [lia|discriminate]|].
    split; [|lia]. intros _. now apply G.
Qed.
Print Assumptions C33_compare_partial.

Theorem C33_compare_refuted :
  ikey_compare (KKey false [Some [x61]; Some [x62]] None 1) (OKey (KKey false [Some [x61]] None 1)) = Panic /\
  ikey_compare (KKey false [Some [x61; x62]] None 1) (OKey (KKey false [Some [x61]] None 1)) = Panic /\
  ikey_compare (KKey false [Some [x61]] None 1) (OKey KEmpty) = Panic.
Proof. repeat split; reflexivity. Qed.
Print Assumptions C33_compare_refuted.

Example C33_applies :
  ikey_compare (KKey false [Some [x62]] None 1) (OKey (KMapped [Some [x61]; Some [x62]] [])) = Ok 1%Z /\
  ikey_compare (KKey false [Some [x61]] None 1) (OKey (KMapped [Some [x61]; Some [x62]] [])) = Ok (-1)%Z.
Proof. split; reflexivity. Qed.

(** ** C34. Full statement: an encoded key's bytes are the encoding of its current sub keys. False: Add keeps the old
    bytes. Exactly: the bytes are those of the last Encode that succeeded. *)
Theorem C34_history_exact : forall (k0 : ikey) (ops : list key_op) (k : ikey),
  k0 = new_key \/ (exists s, k0 = new_simple_key s) ->
  key_run k0 ops = Ok k -> ikey_is_encoded k = true ->
  exists ops1 ops2 k1 l,
    ops = ops1 ++ OpEncode :: ops2 /\ key_run k0 ops1 = Ok k1 /\
    encode_keys (ikey_keys k1) = Ok l /\ ikey_buf k = Ok (Some l) /\
    ikey_keys k = ikey_keys k1 ++ added ops2 /\
    (forall a b k2, ops2 = a ++ OpEncode :: b -> key_run k0 (ops1 ++ OpEncode :: a) = Ok k2 ->
       forall l2, encode_keys (ikey_keys k2) <> Ok l2).
Proof.
  intros k0 ops k Hk R E.
  assert (is_kkey k0 /\ ikey_is_encoded k0 = false) as [K F].
  { destruct Hk as [->|[s ->]]; split; try reflexivity; repeat eexists. }
  pose proof (key_history k0 ops K F k R) as H. rewrite E in H. exact H.
Qed.
Print Assumptions C34_history_exact.

(** Missing: histories with an Add after the last successful Encode. *)
Theorem C34_history_partial : forall (k0 : ikey) (ops ops2 : list key_op) (k1 k : ikey),
  k0 = new_key \/ (exists s, k0 = new_simple_key s) ->
  key_run k0 ops = Ok k1 -> key_encode k1 = Ok k -> added ops2 = [] ->
  Forall sized (map gcontent (ikey_keys k1)) -> (zlen (ikey_keys k1) < 2 ^ 63)%Z ->
  exists k' l, key_run k0 (ops ++ OpEncode :: ops2) = Ok k' /\ ikey_is_encoded k' = true /\ ikey_buf k' = Ok (Some l) /\
    key_bytes (map gcontent (ikey_keys k')) l.
Proof.
  intros k0 ops ops2 k1 k Hk R En A S Hl.
  assert (is_kkey k0) as K by (destruct Hk as [->|[s ->]]; repeat eexists).
  destruct (key_run_keys _ _ _ K R) as [(e & ks & buf & est & ->) _]. cbn [key_encode ikey_keys] in *.
  destruct (key_bytes_exists _ S) as (l & B); [unfold zlen in *; rewrite map_length; lia|].
  rewrite (encode_keys_spec _ _ B S Hl) in En.
  destruct (max_key_length <? zlen l)%Z eqn:Lm; cbn [rbind] in En; [discriminate|]. inv En.
  exists (KKey true ks (Some l) (zlen l)), l. cbn [ikey_is_encoded ikey_buf ikey_keys]. split; [|auto].
  rewrite key_run_app, R. cbn [rbind key_run key_step key_encode].
  rewrite (encode_keys_spec _ _ B S Hl), Lm. cbn [rbind].
  induction ops2 as [|[s|] ops2 IH]; simpl in A; [reflexivity|discriminate|].
  cbn [key_run key_step key_encode]. rewrite (encode_keys_spec _ _ B S Hl), Lm. cbn [rbind]. now apply IH.
Qed.
Print Assumptions C34_history_partial.

Theorem C34_history_refuted : exists k l,
  key_run new_key [OpAdd (Some [x61]); OpEncode; OpAdd (Some [x62])] = Ok k /\
  ikey_is_encoded k = true /\ ikey_buf k = Ok (Some l) /\
  ikey_keys k = [Some [x61]; Some [x62]] /\ encode_keys (ikey_keys k) <> Ok l.
Proof. do 2 eexists. repeat split; try (vm_compute; reflexivity). vm_compute. discriminate. Qed.
Print Assumptions C34_history_refuted.

(** What the flags say: a key made by the constructors is decoded at all times and encoded exactly if an Encode was successful; a parsed key is
    encoded, and does not say that it is decoded. *)
Theorem C34_flags_exact :
  (forall (k0 : ikey) (ops : list key_op) (k : ikey), k0 = new_key \/ (exists s, k0 = new_simple_key s) -> key_run k0 ops = Ok k ->
     ikey_is_decoded k = true /\
     (ikey_is_encoded k = true <-> exists a b k1 l, ops = a ++ OpEncode :: b /\ key_run k0 a = Ok k1 /\ encode_keys (ikey_keys k1) = Ok l)) /\
  (forall (buf : gslice) (k : ikey) (n : Z), new_mapped_key buf = Ok (k, n) -> ikey_is_encoded k = true /\ ikey_is_decoded k = false).
Proof.
  split.
  - intros k0 ops k Hk R. assert (is_kkey k0 /\ ikey_is_encoded k0 = false) as [K F].
    { destruct Hk as [->|[s ->]]; split; try reflexivity; repeat eexists. }
    split; [destruct (key_run_keys ops k0 k K R) as [(e & ks & b & est & ->) _]; reflexivity|].
    pose proof (key_history k0 ops K F k R) as H. destruct (ikey_is_encoded k).
    + split; [intros _|reflexivity]. destruct H as (a & b & k1 & l & E & R1 & L & _). exists a, b, k1, l. auto.
    + split; [discriminate|]. intros (a & b & k1 & l & E & R1 & L). now elim (H a b k1 E R1 l).
  - intros buf k n H. unfold new_mapped_key in H. destruct (decode_keys (gcontent buf)) as [[ks m]| |]; cbn [rbind] in H; try discriminate. inv H. split; reflexivity.
Qed.
Print Assumptions C34_flags_exact.
Example C34_flags_applies : exists k k',
  key_run new_key [OpAdd (Some [x61]); OpEncode] = Ok k /\ ikey_is_encoded k = true /\
  key_run new_key [OpAdd (Some [x61])] = Ok k' /\ ikey_is_encoded k' = false.
Proof. do 2 eexists. repeat split; vm_compute; reflexivity. Qed.

(** ** C35. Full statement: a parsed key's Buf is the consumed part of the buffer. *)
(** Exactly: a non-empty key reports the whole buffer it was parsed from, an empty one the byte 0. *)
Theorem C35_mapped_buf_exact : forall (buf : bytes) (k : ikey) (n : Z),
  new_mapped_key (Some buf) = Ok (k, n) ->
  (ikey_keys k = [] -> ikey_buf k = Ok (Some [x00])) /\ (ikey_keys k <> [] -> ikey_buf k = Ok (Some buf)).
Proof.
  intros buf k n H. unfold new_mapped_key in H. cbn [gcontent] in H.
  destruct (decode_keys buf) as [[ks m]| |] eqn:D; cbn [rbind] in H; try discriminate. inv H.
  cbn [ikey_keys]. unfold ikey_buf, ikey_is_empty. destruct buf as [|b buf].
  - vm_compute in D. inv D. split; [reflexivity|intros C; now elim C].
  - destruct ks; split; congruence.
Qed.
Print Assumptions C35_mapped_buf_exact.

(** Missing: non-empty keys followed by other bytes. *)
Theorem C35_mapped_buf_partial : forall (keys : list bytes) (l : bytes),
  key_bytes keys l -> Forall sized keys -> (zlen keys < 2 ^ 43)%Z ->
  exists k, new_mapped_key (Some l) = Ok (k, zlen l) /\ ikey_buf k = Ok (Some l).
Proof.
  intros keys l B S Hk. pose proof (decode_keys_ok keys l [] B S Hk) as D. rewrite app_nil_r in D.
  assert (new_mapped_key (Some l) = Ok (KMapped (map Some keys) l, zlen l)) as P.
  { unfold new_mapped_key. cbn [gcontent]. now rewrite D. }
  exists (KMapped (map Some keys) l). split; [assumption|].
  destruct (C35_mapped_buf_exact l _ _ P) as [H1 H2]. destruct keys as [|k keys].
  - rewrite H1 by reflexivity. do 2 f_equal. destruct B as (n & ls & M & F & ->). inv F. simpl. rewrite app_nil_r.
    destruct (encode_uvarint64_minimal 0) as (n' & E & M'); [lia|]. vm_compute in E. inv E.
    symmetry. eapply uvarint_minimal_fun; eauto.
  - apply H2. discriminate.
Qed.
Print Assumptions C35_mapped_buf_partial.

Theorem C35_mapped_buf_refuted : exists k,
  new_mapped_key (Some [x01; x01; x61; xff]) = Ok (k, 3%Z) /\ ikey_buf k = Ok (Some [x01; x01; x61; xff]).
Proof. eexists. split; vm_compute; reflexivity. Qed.
Print Assumptions C35_mapped_buf_refuted.

(** ** C73: copies of keys *)
(** Exactly when copying a key succeeds, and then the copy is Equal to the original. *)
Theorem C73_copy_construct_exact : forall k : ikey, k <> KEmpty ->
  (Forall (fun s => gcontent s <> []) (ikey_keys k) ->
     exists k', ikey_copy_construct k = Ok k' /\ ikey_equal k (OKey k') = Ok true) /\
  (Exists (fun s => gcontent s = []) (ikey_keys k) -> ikey_copy_construct k = Panic).
Proof.
  intros k Hk. split.
  - intros F. destruct (add_all_ok false [] None 1 (ikey_keys k) F) as (est & E).
    exists (KKey false (ikey_keys k) None est). split.
    + destruct k; [contradiction|exact E|exact E].
    + destruct (ikey_equal_exact k (KKey false (ikey_keys k) None est)) as (b & -> & Hb). f_equal. now apply Hb.
  - intros X. destruct k; [contradiction| |]; exact (add_all_panic _ X false [] None 1%Z).
Qed.
Print Assumptions C73_copy_construct_exact.

(** A parsed key can always be copied with Copy, giving the same key. *)
Theorem C73_mapped_copy : forall (buf : bytes) (k : ikey) (n : Z),
  new_mapped_key (Some buf) = Ok (k, n) -> ikey_copy k = Ok k.
Proof.
  intros buf k n H. assert (exists ks, k = KMapped ks buf) as [ks ->].
  { unfold new_mapped_key in H. destruct (decode_keys (gcontent (Some buf))) as [[ks m]| |]; cbn [rbind] in H; inv H. eauto. }
  cbn [ikey_copy]. now rewrite H.
Qed.
Print Assumptions C73_mapped_copy.

(** A key with an empty sub key parses, but CopyConstruct panics on it. *)
Theorem C73_copy_refuted : exists k n, new_mapped_key (Some [x01; x00]) = Ok (k, n) /\ ikey_copy_construct k = Panic.
Proof. do 2 eexists. split; vm_compute; reflexivity. Qed.
Print Assumptions C73_copy_refuted.

Example C73_applies : ikey_copy_construct (KMapped [Some [x61]; Some [x62]] [x02; x01; x61; x01; x62]) =
  Ok (KKey false [Some [x61]; Some [x62]] None 5).
Proof. reflexivity. Qed.
