(** * Final theorems: exactly what is ambiguous in the bytes of values and records (C36, C45). *)
From Coq Require Import List NArith ZArith Lia Bool.
From Coq Require Import Strings.Byte.
From Verif Require Import Base BaseProofs KeyModel ValueModel ValueSpec ValueProofs ShapeSpec ShapeProofs.
Import ListNotations.
Local Open Scope Z_scope.

(** Records of constructed parts, with nil elements and empty arrays anywhere: their encodings are equal exactly if their shapes
    are, and none is a proper prefix of another. *)
Theorem C45_exact : forall (r r' : record) (t t' : rshape) (b b' : bytes),
  rstands r t -> rstands r' t' -> record_encode r = Ok b -> record_encode r' = Ok b' ->
  (b = b' <-> t = t') /\ (forall more, b' = b ++ more -> more = []).
Proof.
  intros r r' t t' b b' S S' E E'. pose proof (proj1 (proj1 (proj2 (proj2 encode_swire)) _ _ S _) E) as W.
  pose proof (proj1 (proj1 (proj2 (proj2 encode_swire)) _ _ S' _) E') as W'. split; [split|].
  - intros <-. destruct (proj1 (proj2 (proj2 swire_prefix_free)) _ _ W _ _ [] [] W' eq_refl) as (-> & _). reflexivity.
  - intros <-. apply (proj1 (proj2 (proj2 encode_swire)) _ _ S') in W. congruence.
  - intros more ->. destruct (proj1 (proj2 (proj2 swire_prefix_free)) _ _ W _ _ more [] W') as (_ & _ & ->); [now rewrite app_nil_r|reflexivity].
Qed.
Print Assumptions C45_exact.

(** All records that fit have a shape. *)
Theorem C45_covered : forall r : record, rfit r -> exists t, rstands r t.
Proof. exact (proj2 fit_stands). Qed.
Print Assumptions C45_covered.

(** The arrays [nil, "a"] and [[], "a"] as values of records, and ["a", nil], which collides with the first. *)
Example C45_exact_applies :
  let a := VPrim (Some [x61]) in
  let r0 := set_value new_record (va_append (va_append new_value_array (VPrim None)) a) in
  let r1 := set_value new_record (va_append (va_append new_value_array a) (VPrim None)) in
  let r2 := set_value new_record (va_append (va_append new_value_array new_value_array) a) in
  rstands r0 (SRec None (Some (SArr 2 [SPrim [x61]])) None None) /\ rstands r1 (SRec None (Some (SArr 2 [SPrim [x61]])) None None) /\
  rstands r2 (SRec None (Some (SArr 2 [SPrim []; SPrim [x61]])) None None) /\
  record_encode r0 = Ok [x20; x41; x02; x03; x01; x01; x61] /\ record_encode r1 = record_encode r0 /\
  record_encode r2 = Ok [x20; x41; x02; x04; x00; x01; x01; x61].
Proof.
  intros a r0 r1 r2.
  assert (forall z e x y ts, stands_all [x; y] ts -> rstands (Rec z None (Some (VArr e [x; y])) None None None None) (SRec None (Some (SArr 2 ts)) None None)) as H.
  { intros z e x y ts S. repeat constructor; try exact S; try discriminate. intros C. inversion C. }
  do 3 (split; [apply H; repeat constructor|]). repeat split.
Qed.

(** ** Values *)
Theorem C36_shape_exact : forall (v v' : value) (t t' : shape) (b b' : bytes),
  stands v t -> stands v' t' -> value_encode v = Ok b -> value_encode v' = Ok b' ->
  (b = b' <-> t = t') /\ (forall more, b' = b ++ more -> more = []).
Proof.
  intros v v' t t' b b' S S' E E'. pose proof (proj1 (proj1 encode_swire _ _ S _) E) as W.
  pose proof (proj1 (proj1 encode_swire _ _ S' _) E') as W'. split; [split|].
  - intros <-. destruct (proj1 swire_prefix_free _ _ W _ _ [] [] W' eq_refl) as (-> & _). reflexivity.
  - intros <-. apply (proj1 encode_swire _ _ S') in W. congruence.
  - intros more ->. destruct (proj1 swire_prefix_free _ _ W _ _ more [] W') as (_ & _ & ->); [now rewrite app_nil_r|reflexivity].
Qed.
Print Assumptions C36_shape_exact.
Theorem C36_shape_covered : forall v : value, fit v -> v = VPrim None \/ exists t, stands v t.
Proof. exact (proj1 fit_stands). Qed.
Print Assumptions C36_shape_covered.
Example C36_shape_applies :
  let v := va_append (va_append new_value_array new_record_list) (VPrim None) in
  stands v (SArr 2 [SPrim []]) /\ value_encode v = Ok [x41; x02; x01; x00].
Proof. split; [constructor; [discriminate|repeat constructor]|reflexivity]. Qed.
