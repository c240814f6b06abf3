(** * Final theorems on slice comparison: C01, C02, C03, C04. *)
From Coq Require Import List NArith ZArith Bool Lia.
From Coq Require Import Strings.Byte.
From Verif Require Import Base BaseProofs CmpModel CmpSpec CmpProofs.
Import ListNotations.
Local Open Scope Z_scope.

(** ** C01: comparison is lexicographic. *)

(** Exact behaviour of CompareByteSlice on all pairs: the sign is that of the lexicographic order (nil first),
    except that the call panics exactly when the second slice is a proper prefix of the first. *)
Theorem C01_byte_compare_exact : forall s1 s2 : gslice,
  (compare_byte_slice s1 s2 = Ok (-1) <-> slice_lt byte_lt s1 s2) /\
  (compare_byte_slice s1 s2 = Ok 0 <-> s1 = s2) /\
  (compare_byte_slice s1 s2 = Ok 1 <-> slice_lt byte_lt s2 s1 /\ ~ slice_proper_prefix s2 s1) /\
  (compare_byte_slice s1 s2 = Panic <-> slice_proper_prefix s2 s1).
Proof. exact byte_compare_exact. Qed.
Print Assumptions C01_byte_compare_exact.

Theorem C01_int_compare_exact : forall s1 s2 : option (list Z),
  (compare_int_slice s1 s2 = Ok (-1) <-> slice_lt Z.lt s1 s2) /\
  (compare_int_slice s1 s2 = Ok 0 <-> s1 = s2) /\
  (compare_int_slice s1 s2 = Ok 1 <-> slice_lt Z.lt s2 s1 /\ ~ slice_proper_prefix s2 s1) /\
  (compare_int_slice s1 s2 = Panic <-> slice_proper_prefix s2 s1).
Proof. exact int_compare_exact. Qed.
Print Assumptions C01_int_compare_exact.

(** The property as stated is false: "ab" is larger than "a", and comparing them panics. *)
Theorem C01_byte_compare_total_refuted :
  exists s1 s2 : gslice, slice_lt byte_lt s2 s1 /\ compare_byte_slice s1 s2 = Panic.
Proof.
  exists (Some [x61; x62]), (Some [x61]). split.
  - constructor. constructor 3. constructor.
  - reflexivity.
Qed.
Print Assumptions C01_byte_compare_total_refuted.

(** What remains true: when the second slice is not a proper prefix of the first (in particular for slices
    of equal length) the call returns, and the sign is the lexicographic order. *)
Theorem C01_byte_compare_partial : forall s1 s2 : gslice,
  ~ slice_proper_prefix s2 s1 ->
  exists c, compare_byte_slice s1 s2 = Ok c /\
    (c < 0 <-> slice_lt byte_lt s1 s2) /\ (c = 0 <-> s1 = s2) /\ (c > 0 <-> slice_lt byte_lt s2 s1).
Proof. exact byte_compare_defined. Qed.
Print Assumptions C01_byte_compare_partial.

Theorem C01_int_compare_partial : forall s1 s2 : option (list Z),
  ~ slice_proper_prefix s2 s1 ->
  exists c, compare_int_slice s1 s2 = Ok c /\
    (c < 0 <-> slice_lt Z.lt s1 s2) /\ (c = 0 <-> s1 = s2) /\ (c > 0 <-> slice_lt Z.lt s2 s1).
Proof. exact int_compare_defined. Qed.
Print Assumptions C01_int_compare_partial.

Example C01_partial_applies :
  ~ slice_proper_prefix (Some [x61]) (Some [x62; x61]) /\
  compare_byte_slice (Some [x62; x61]) (Some [x61]) = Ok 1 /\
  compare_byte_slice (Some [x61]) (Some [x61; x62]) = Ok (-1) /\
  compare_byte_slice None (Some []) = Ok (-1).
Proof.
  split; [|repeat split].
  intros (p & l & Hp & Hl & (x & xs & E)). injection Hp as <-. injection Hl as <-. simpl in E. discriminate.
Qed.

(** The wrapper ComparableByteSlice.Compare on another wrapper: as above, except that a wrapped nil always
    sorts first, even before another wrapped nil. *)
Theorem C01_comparable_compare_exact : forall (s t : gslice),
  cbs_compare s (CWrap t) = match s with None => Ok (-1) | Some _ => compare_byte_slice s t end.
Proof. exact cbs_compare_wrap. Qed.
Print Assumptions C01_comparable_compare_exact.

(** ** C02: order laws wherever the comparison returns. *)
Theorem C02_byte_compare_antisym : forall (s1 s2 : gslice) c1 c2,
  compare_byte_slice s1 s2 = Ok c1 -> compare_byte_slice s2 s1 = Ok c2 -> c2 = - c1.
Proof. exact byte_compare_antisym. Qed.
Print Assumptions C02_byte_compare_antisym.

Theorem C02_byte_compare_trans : forall (s1 s2 s3 : gslice) c12 c23 c13,
  compare_byte_slice s1 s2 = Ok c12 -> compare_byte_slice s2 s3 = Ok c23 -> compare_byte_slice s1 s3 = Ok c13 ->
  c12 <= 0 -> c23 <= 0 -> c13 <= 0 /\ (c12 < 0 \/ c23 < 0 -> c13 < 0).
Proof. exact byte_compare_trans. Qed.
Print Assumptions C02_byte_compare_trans.

Theorem C02_byte_compare_zero : forall s1 s2 : gslice, compare_byte_slice s1 s2 = Ok 0 <-> s1 = s2.
Proof. intros s1 s2. exact (proj1 (proj2 (byte_compare_exact s1 s2))). Qed.
Print Assumptions C02_byte_compare_zero.

Theorem C02_int_compare_antisym : forall (s1 s2 : option (list Z)) c1 c2,
  compare_int_slice s1 s2 = Ok c1 -> compare_int_slice s2 s1 = Ok c2 -> c2 = - c1.
Proof. exact int_compare_antisym. Qed.
Print Assumptions C02_int_compare_antisym.

Theorem C02_int_compare_trans : forall (s1 s2 s3 : option (list Z)) c12 c23 c13,
  compare_int_slice s1 s2 = Ok c12 -> compare_int_slice s2 s3 = Ok c23 -> compare_int_slice s1 s3 = Ok c13 ->
  c12 <= 0 -> c23 <= 0 -> c13 <= 0 /\ (c12 < 0 \/ c23 < 0 -> c13 < 0).
Proof. exact int_compare_trans. Qed.
Print Assumptions C02_int_compare_trans.

Example C02_applies :
  compare_byte_slice (Some [x01; x05]) (Some [x02]) = Ok (-1) /\
  compare_byte_slice (Some [x02]) (Some [x01; x05]) = Ok 1 /\
  compare_byte_slice (Some [x02]) (Some [x03; xff]) = Ok (-1) /\
  compare_byte_slice (Some [x01; x05]) (Some [x03; xff]) = Ok (-1) /\
  compare_int_slice (Some [-7; 5]) (Some [2]) = Ok (-1) /\
  compare_int_slice (Some [2]) (Some [-7; 5]) = Ok 1.
Proof. repeat split. Qed.

(** ** C03: Equal and Compare of comparable slices agree, except on two wrapped nil slices. *)
Theorem C03_equal_compare_partial : forall s t : gslice,
  ~ (s = None /\ t = None) ->
  (cbs_equal s (CWrap t) = Ok true <-> cbs_compare s (CWrap t) = Ok 0).
Proof. exact cbs_equal_compare. Qed.
Print Assumptions C03_equal_compare_partial.

Example C03_applies :
  ~ (Some [x01] = @None bytes /\ @None bytes = None) /\
  cbs_equal (Some [x01]) (CWrap (Some [x01])) = Ok true /\
  cbs_compare (Some [x01]) (CWrap (Some [x01])) = Ok 0 /\
  cbs_equal (Some []) (CWrap None) = Ok false /\ cbs_compare (Some []) (CWrap None) = Ok 1.
Proof. split; [intros [H _]; discriminate|repeat split]. Qed.

Theorem C03_equal_compare_refuted :
  exists s t : gslice, cbs_equal s (CWrap t) = Ok true /\ cbs_compare s (CWrap t) = Ok (-1) /\
                       cbs_compare t (CWrap s) = Ok (-1).
Proof. exists None, None. repeat split. Qed.
Print Assumptions C03_equal_compare_refuted.
(** Two nil slices are the only exception. *)
Theorem C03_exact : forall s t : gslice,
  (cbs_equal s (CWrap t) = Ok true <-> cbs_compare s (CWrap t) = Ok 0) <-> ~ (s = None /\ t = None).
Proof.
  intros s t. split; [|apply cbs_equal_compare]. intros H [-> ->]. pose proof (proj1 H eq_refl) as C. vm_compute in C. discriminate.
Qed.
Print Assumptions C03_exact.

(** ** C04: equality is exact, hence an equivalence. *)
Theorem C04_equal_byte_slice_exact : forall a b : gslice, equal_byte_slice a b = true <-> a = b.
Proof. exact equal_byte_slice_exact. Qed.
Print Assumptions C04_equal_byte_slice_exact.

Theorem C04_equal_int_slice_exact : forall a b : option (list Z), equal_int_slice a b = true <-> a = b.
Proof. exact equal_int_slice_exact. Qed.
Print Assumptions C04_equal_int_slice_exact.

Theorem C04_comparable_equal_exact : forall s t : gslice, cbs_equal s (CWrap t) = Ok true <-> s = t.
Proof.
  intros s t. rewrite cbs_equal_wrap. rewrite <- equal_byte_slice_exact. split; congruence.
Qed.
Print Assumptions C04_comparable_equal_exact.
