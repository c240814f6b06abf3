(** * Final theorems on the variable-length codecs: C22, C23, C24, C25. *)
From Coq Require Import List NArith ZArith Bool Lia.
From Coq Require Import Strings.Byte.
From Verif Require Import Base BaseProofs EndianModel EndianProofs VarintModel VarintSpec VarintProofs.
Import ListNotations.

(** ** C22. Full statement: for every 64-bit [x] and every suffix, the encoding followed by the suffix decodes to
    [x]. It is false: the decoders demand that the *value* also fits in the rest of the buffer. *)

(** Encoding never fails and produces the standard numeral of the value. *)
Theorem C22_encode_numeral : forall x : N, (x < 2 ^ 64)%N ->
  exists l, encode_uvarint64 x = Ok l /\ uvarint_numeral l x.
Proof. intros x H. unfold encode_uvarint64. rewrite N.mod_small by assumption. now apply put_uvarint_10. Qed.
Print Assumptions C22_encode_numeral.

(** ... the shortest one. *)
Theorem C22_encode_minimal : forall x : N, (x < 2 ^ 64)%N ->
  exists l, encode_uvarint64 x = Ok l /\ uvarint_minimal l x.
Proof. exact encode_uvarint64_minimal. Qed.
Print Assumptions C22_encode_minimal.

(** Exact behaviour of decoding an unsigned encoding: right answer, unless the value is larger than the number of
    remaining bytes (and not so large that the position overflows), when an error is reported. *)
Theorem C22_uvarint_exact : forall (x : N) (suffix : bytes), (x < 2 ^ 64)%N ->
  exists l, encode_uvarint64 x = Ok l /\
    ((zlen suffix < Z.of_N x < 2 ^ 63 - zlen l)%Z -> decode_uvarint64 (l ++ suffix) = Err) /\
    (~ (zlen suffix < Z.of_N x < 2 ^ 63 - zlen l)%Z -> decode_uvarint64 (l ++ suffix) = Ok (x, zlen l)).
Proof.
  intros x suf H. destruct (C22_encode_numeral x H) as (l & E & U). exists l. split; [assumption|].
  rewrite (decode_uvarint64_header _ suf _ U).
  destruct ((zlen l + Z.of_N x <? 2 ^ 63) && (zlen suf <? Z.of_N x))%Z eqn:F; split; intros G; auto; lia.
Qed.
Print Assumptions C22_uvarint_exact.

Theorem C22_varint_exact : forall (x : Z) (suffix : bytes), (- 2 ^ 63 <= x < 2 ^ 63)%Z ->
  exists l, encode_varint64 x = Ok l /\
    ((zlen suffix < x < 2 ^ 63 - zlen l)%Z -> decode_varint64 (l ++ suffix) = Err) /\
    (~ (zlen suffix < x < 2 ^ 63 - zlen l)%Z -> decode_varint64 (l ++ suffix) = Ok (x, zlen l)).
Proof.
  intros x suf H. destruct (put_uvarint_10 (zigzag x) (zigzag_bound x H)) as (l & E & U).
  exists l. split; [assumption|].
  rewrite (decode_varint64_header _ suf _ U), unzigzag_zigzag by assumption.
  destruct ((zlen l + x <? 2 ^ 63) && (zlen suf <? x))%Z eqn:F; split; intros G; auto; lia.
Qed.
Print Assumptions C22_varint_exact.

(** What holds of the round trip: enough bytes must follow the number. Missing: values larger than the suffix. *)
Theorem C22_uvarint_roundtrip_partial : forall (x : N) (suffix : bytes),
  (x < 2 ^ 64)%N -> (Z.of_N x <= zlen suffix)%Z ->
  exists l, encode_uvarint64 x = Ok l /\ decode_uvarint64 (l ++ suffix) = Ok (x, zlen l).
Proof.
  intros x suf H Hs. destruct (C22_uvarint_exact x suf H) as (l & E & _ & F). exists l. split; [assumption|].
  apply F. lia.
Qed.
Print Assumptions C22_uvarint_roundtrip_partial.

(** Signed: in particular every negative number round-trips, whatever follows. *)
Theorem C22_varint_roundtrip_partial : forall (x : Z) (suffix : bytes),
  (- 2 ^ 63 <= x < 2 ^ 63)%Z -> (x <= zlen suffix)%Z ->
  exists l, encode_varint64 x = Ok l /\ decode_varint64 (l ++ suffix) = Ok (x, zlen l).
Proof.
  intros x suf H Hs. destruct (C22_varint_exact x suf H) as (l & E & _ & F). exists l. split; [assumption|].
  apply F. lia.
Qed.
Print Assumptions C22_varint_roundtrip_partial.

Theorem C22_roundtrip_refuted :
  (exists (x : N) (suffix l : bytes), (x < 2 ^ 64)%N /\ encode_uvarint64 x = Ok l /\ decode_uvarint64 (l ++ suffix) = Err) /\
  (exists (x : Z) (suffix l : bytes), (- 2 ^ 63 <= x < 2 ^ 63)%Z /\ encode_varint64 x = Ok l /\ decode_varint64 (l ++ suffix) = Err).
Proof.
  split.
  - exists 5%N, [], [x05]. repeat split; vm_compute; reflexivity.
  - exists 5%Z, [xff; xff], [x0a]. split; [lia|]. repeat split; vm_compute; reflexivity.
Qed.
Print Assumptions C22_roundtrip_refuted.

(** The integer decoders never panic. *)
Theorem C22_decode_never_panics : forall buf : bytes,
  decode_uvarint64 buf <> Panic /\ decode_varint64 buf <> Panic.
Proof.
  intros buf. unfold decode_uvarint64, decode_varint64. destruct buf; [split; discriminate|].
  destruct (uvarint (b :: buf)) as [v n].
  destruct (n <? 0)%Z; [split; discriminate|].
  destruct ((n =? 0)%Z && negb (b2n b =? 0)%N); [split; discriminate|].
  split; [destruct (_ <? wrap_int64 (n + int_of_uint64 v))%Z|destruct (_ <? wrap_int64 (n + unzigzag v))%Z]; discriminate.
Qed.
Print Assumptions C22_decode_never_panics.

Example C22_applies :
  encode_uvarint64 300 = Ok [xac; x02] /\ encode_varint64 (-3) = Ok [x05] /\
  decode_varint64 [x05; x00] = Ok ((-3)%Z, 1%Z) /\
  decode_uvarint64 [x02; x00; x00] = Ok (2%N, 1%Z) /\
  encode_uvarint64 (2 ^ 64 - 1) = Ok [xff; xff; xff; xff; xff; xff; xff; xff; xff; x01] /\
  decode_uvarint64 [xff; xff; xff; xff; xff; xff; xff; xff; xff; x01] = Ok ((2 ^ 64 - 1)%N, 10%Z).
Proof. repeat split; vm_compute; reflexivity. Qed.

(** ** C23 *)
(** The side condition says that the encoded string is a Go slice (length below 2^63). *)
Theorem C23_varchar_roundtrip : forall data suffix : bytes, (zlen data + 10 < 2 ^ 63)%Z ->
  exists buf, encode_varchar data = Ok buf /\ decode_varchar (buf ++ suffix) = Ok (data, zlen buf).
Proof. exact varchar_roundtrip. Qed.
Print Assumptions C23_varchar_roundtrip.

(** The layout: the shortest LEB128 numeral of the length followed by the data. *)
Theorem C23_varchar_layout : forall data : bytes, (zlen data + 10 < 2 ^ 63)%Z ->
  exists l, encode_varchar data = Ok l /\ varchar_of data l.
Proof. exact encode_varchar_of. Qed.
Print Assumptions C23_varchar_layout.

Example C23_applies :
  encode_varchar [x61; x62] = Ok [x02; x61; x62] /\ decode_varchar [x02; x61; x62; x63] = Ok ([x61; x62], 3%Z) /\
  encode_varchar [] = Ok [x00] /\ decode_varchar [x00; x05] = Ok ([], 1%Z) /\
  exists h, encode_varchar (repeat x07 200) = Ok (h ++ repeat x07 200) /\ h = [xc8; x01].
Proof. repeat split; try (vm_compute; reflexivity). exists [xc8; x01]. split; vm_compute; reflexivity. Qed.

(** ** C24. Full statement: [forall buf, decode_varchar buf <> Panic]. False; the exact set of panicking buffers is
    those that start with a length numeral of at least 2^63 minus the size of the numeral. *)
Theorem C24_varchar_panic_exact : forall buf : bytes,
  decode_varchar buf = Panic <->
  exists pre suf v, buf = pre ++ suf /\ uvarint_numeral pre v /\ (2 ^ 63 <= zlen pre + Z.of_N v)%Z.
Proof. exact varchar_panic_exact. Qed.
Print Assumptions C24_varchar_panic_exact.

Theorem C24_varchar_never_panics_refuted : exists buf : bytes, length buf = 10 /\ decode_varchar buf = Panic.
Proof. exists [xff; xff; xff; xff; xff; xff; xff; xff; xff; x01]. split; vm_compute; reflexivity. Qed.
Print Assumptions C24_varchar_never_panics_refuted.

(** Missing: buffers that begin with a numeral of nine bytes or more. *)
Theorem C24_varchar_never_panics_partial : forall buf : bytes,
  length buf < 9 \/ (exists i b, i < 8 /\ nth_error buf i = Some b /\ (b2n b < 128)%N) ->
  decode_varchar buf <> Panic.
Proof. exact varchar_no_panic_short. Qed.
Print Assumptions C24_varchar_never_panics_partial.

Example C24_applies :
  decode_varchar [x05; x61] = Err /\ decode_varchar [x80] = Err /\
  decode_varchar [xff; xff; xff; xff; xff; xff; xff; x7f; x00; x00] = Err.
Proof. repeat split; vm_compute; reflexivity. Qed.

(** ** C25 *)
(** Success means: a numeral, then the content, then the rest; nothing else is ever returned. *)
Theorem C25_varchar_inside : forall (buf content : bytes) (n : Z),
  decode_varchar buf = Ok (content, n) ->
  (buf = [] /\ content = [] /\ n = 0%Z) \/
  exists pre rest, buf = pre ++ content ++ rest /\ uvarint_numeral pre (N.of_nat (length content)) /\
                   n = zlen (pre ++ content).
Proof. exact varchar_inside. Qed.
Print Assumptions C25_varchar_inside.

Theorem C25_varchar_extension : forall (buf more content : bytes) (n : Z),
  buf <> [] -> decode_varchar buf = Ok (content, n) -> decode_varchar (buf ++ more) = Ok (content, n).
Proof. exact varchar_extension. Qed.
Print Assumptions C25_varchar_extension.

Theorem C25_varchar_prefix_free : forall (d1 d2 e1 e2 more : bytes),
  (zlen d1 + 10 < 2 ^ 63)%Z -> (zlen d2 + 10 < 2 ^ 63)%Z ->
  encode_varchar d1 = Ok e1 -> encode_varchar d2 = Ok e2 -> e2 = e1 ++ more -> d1 = d2 /\ more = [].
Proof. exact varchar_prefix_free. Qed.
Print Assumptions C25_varchar_prefix_free.

Example C25_applies :
  decode_varchar [x82; x00; x61; x62; x63] = Ok ([x61; x62], 4%Z) /\ encode_varchar [x61] = Ok [x01; x61].
Proof. repeat split; vm_compute; reflexivity. Qed.
