(** * Theorems about the kinds of values (C102). *)
From Coq Require Import List NArith ZArith Bool.
From Coq Require Import Strings.Byte.
From Verif Require Import Base VarintModel KeyModel ValueModel KindModel KindSpec KindProofs.
Import ListNotations.
Local Open Scope Z_scope.

(** C102. Every value has exactly one kind, and its bytes parse back to a value of the same kind that answers
    IsNil, Size and Value alike; ValueMagic is the first of these bytes. *)

(** Exactly one of IsPrimitive, IsValueArray and IsRecordList holds, unless the value is a constructed array or record
    list without elements. *)
Theorem C102_one_kind_exact : forall v, made v -> (one_kind (face_of v) <-> ~ hollow v).
Proof. exact kinds. Qed.
Print Assumptions C102_one_kind_exact.

(** Whatever the elements are. Missing: arrays and record lists without elements, the nil primitive, and values
    parsed with NewSimpleMappedValue. *)
Theorem C102_kind_survives_partial : forall v (b : gslice),
  made v -> ~ hollow v -> v <> VPrim None -> (forall x c, v <> VSimple x c) -> bytes_of v b ->
  exists b' : bytes, b = Some b' /\ parses_as b' (face_of v).
Proof. exact bytes_parse. Qed.
Print Assumptions C102_kind_survives_partial.

(** ValueMagic after Encode is the first byte of Buf. *)
Theorem C102_magic : forall v o (b : gslice) (x : byte) (r : bytes),
  encode (fresh v) = (o, Ok tt) -> obj_buf o = Ok b -> b = Some (x :: r) -> value_magic o = Ok x.
Proof. exact magic_first. Qed.
Print Assumptions C102_magic.

(** An array or record list without elements is written as a nil primitive. *)
Theorem C102_empty_exact : forall v (b : gslice), hollow v -> bytes_of v b ->
  b = Some [x00] /\ parses_as [x00] (Face true true false false 0 (Some [])).
Proof. intros v b H B. split; [exact (hollow_bytes v b H B)|exact zero_parses]. Qed.
Print Assumptions C102_empty_exact.

(** The nil primitive is written as nothing, which does not parse. *)
Theorem C102_nil_exact : forall b : gslice, bytes_of (VPrim None) b ->
  gcontent b = [] /\ new_std_value (gcontent b) = Err.
Proof. intros b B. rewrite (nil_bytes b B). split; reflexivity. Qed.
Print Assumptions C102_nil_exact.

(** The bytes of a value parsed as a length-prefixed string are a value of their own only for the empty string. *)
Theorem C102_simple_exact : forall (buf b c : bytes) (n : Z), new_simple_value buf = Ok (VSimple b c, n) ->
  (parses_as b (face_of (VSimple b c)) <-> b = [x00]).
Proof. exact simple_parse. Qed.
Print Assumptions C102_simple_exact.

(** A constructed value that was not encoded, or whose Encode failed: IsEncoded is false; Buf and ValueMagic panic
    (the interface says that ValueMagic answers 0xff). *)
Theorem C102_not_encoded : forall v, (forall m, v <> VStd m) -> (forall b c, v <> VSimple b c) ->
  (is_encoded (fresh v) = false /\ obj_buf (fresh v) = Panic /\ value_magic (fresh v) = Panic) /\
  (forall o r, encode (fresh v) = (o, r) -> r <> Ok tt -> o = fresh v).
Proof. intros v A B. split; [exact (not_encoded v A B)|intros o r; exact (failed_encode v o r)]. Qed.
Print Assumptions C102_not_encoded.

(** None of the four parts holds of every value. *)
Theorem C102_refuted :
  ~ (forall v, made v -> one_kind (face_of v)) /\
  ~ (forall v b, made v -> bytes_of v b -> exists b' : bytes, b = Some b' /\ parses_as b' (face_of v)) /\
  ~ (forall v o, encode (fresh v) = (o, Ok tt) -> exists x r, obj_buf o = Ok (Some (x :: r)) /\ value_magic o = Ok x) /\
  ~ (forall v, is_encoded (fresh v) = false -> value_magic (fresh v) = Ok xff).
Proof.
  split; [|split; [|split]].
  - intros H. apply (proj1 (C102_one_kind_exact (VArr 1 []) (made_arr 1 [])) (H _ (made_arr 1 []))). constructor.
  - intros H. destruct (H (VPrim None) None (made_prim None)) as (b & E & _); [|discriminate E].
    exact (bytes_encoded (VPrim None) _ None eq_refl eq_refl).
  - intros H. destruct (H (VPrim None) _ eq_refl) as (x & r & E & _). discriminate E.
  - intros H. specialize (H (VPrim None) eq_refl). discriminate H.
Qed.
Print Assumptions C102_refuted.

(** An array holding a primitive and an empty record list: the bytes, and what they parse to. *)
Example C102_applies :
  let v := VArr 1 [VPrim (Some [x61; x62]); VRecs 1 []] in
  bytes_of v (Some [x41; x02; x05; x01; x02; x61; x62; x00]) /\
  made v /\ ~ hollow v /\ face_of v = Face false false true false 2 None /\
  value_magic (fst (encode (fresh v))) = Ok x41.
Proof.
  cbv zeta. split; [eapply bytes_encoded; reflexivity|].
  split; [constructor|split; [intros H; inversion H|split; reflexivity]].
Qed.

(** Sixty-four bytes as a length-prefixed string parse as a value array without content. *)
Example C102_simple_applies :
  exists b c, new_simple_value (x40 :: repeat x07 64) = Ok (VSimple b c, 65) /\ length c = 64%nat /\
    exists m, new_std_value b = Ok (m, 2) /\ face_of (VStd m) = Face false false true false 7 None.
Proof.
  exists (x40 :: repeat x07 64), (repeat x07 64). split; [reflexivity|split; [reflexivity|]].
  eexists. split; reflexivity.
Qed.
