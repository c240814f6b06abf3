(** * Theorems about schemes: C48. *)
From Coq Require Import List NArith ZArith Bool Lia.
From Coq Require Import Strings.Byte.
From Verif Require Import Base BaseProofs VarintModel VarintSpec VarintProofs KeyModel KeyProofs SchemeModel SchemeSpec SchemeProofs.
Import ListNotations.
Local Open Scope Z_scope.

(** The encoder writes exactly the layout, or reports an error when that would exceed 1024 bytes. *)
Theorem C48_scheme_layout : forall s l, scheme_sized s ->
  scheme_bytes (s_domain s) (s_tablet s) (s_buckets s) l ->
  encode_scheme s = if 1024 <? zlen l then Err else Ok l.
Proof. exact scheme_layout. Qed.
Print Assumptions C48_scheme_layout.

Definition demo : scheme := mkScheme (Some [x64]) (Some [x74; x75]) (Some [Some [x61]; None; Some [x62; x63]]).
Example C48_scheme_layout_applies : scheme_sized demo /\
  encode_scheme demo = Ok [x00; x01; x64; x02; x74; x75; x03; x01; x61; x00; x02; x62; x63].
Proof. split; [|reflexivity]. unfold scheme_sized, osized. simpl. repeat split; repeat constructor. Qed.

(** Full statement of C48, and its refutation: a tablet without a domain is read back as a domain. *)
Theorem C48_scheme_roundtrip_refuted :
  ~ (forall s l, scheme_sized s -> encode_scheme s = Ok l ->
       exists s', decode_scheme l = Ok (s', zlen l) /\ same_scheme s s').
Proof.
  intros H. specialize (H (mkScheme None (Some [x61]) (Some [])) [x00; x01; x61; x00]).
  destruct H as (s' & E & Q); [unfold scheme_sized, osized; simpl; repeat split; constructor|reflexivity|].
  assert (decode_scheme [x00; x01; x61; x00] = Ok (mkScheme (Some [x61]) (Some []) (Some []), 4)) as E' by reflexivity.
  rewrite E' in E. inv E. destruct Q as (Q & _). discriminate.
Qed.
Print Assumptions C48_scheme_roundtrip_refuted.

(** It can also fail outright: a list of buckets alone is read as a domain that is longer than the buffer. *)
Theorem C48_scheme_unreadable : exists s l, scheme_sized s /\ encode_scheme s = Ok l /\ decode_scheme l = Err.
Proof.
  exists (mkScheme None None (Some [Some [x61]; Some [x62; x63]; Some []])), [x00; x03; x01; x61; x02; x62; x63; x00].
  split; [unfold scheme_sized, osized; simpl; repeat split; repeat constructor|]. split; reflexivity.
Qed.
Print Assumptions C48_scheme_unreadable.

(** Exactly which schemes survive: those in which a nil field is followed only by empty fields. *)
Theorem C48_scheme_roundtrip_exact : forall s l, scheme_sized s -> encode_scheme s = Ok l ->
  ((exists s' n, decode_scheme l = Ok (s', n) /\ same_scheme s s') <-> nil_last s).
Proof. exact scheme_roundtrip_iff. Qed.
Print Assumptions C48_scheme_roundtrip_exact.

(** What holds: with domain and tablet present, all three fields come back and the whole buffer is consumed.
    Missing from the full statement: schemes with a nil domain or a nil tablet. *)
Theorem C48_scheme_roundtrip_partial : forall s l, scheme_sized s -> encode_scheme s = Ok l ->
  s_domain s <> None -> s_tablet s <> None ->
  exists s', decode_scheme l = Ok (s', zlen l) /\ same_scheme s s' /\
             s_domain s' = s_domain s /\ s_tablet s' = s_tablet s.
Proof.
  intros s l S E Nd Nt. destruct (scheme_bytes_exists s S) as (l' & SB). rewrite (scheme_layout s l' S SB) in E.
  destruct (Z.ltb_spec max_scheme_length (zlen l')) as [C|C]; [discriminate|].
  assert (l' = l) by congruence. subst l'. destruct SB as (dl & tl & bl & Hd & Ht & Hb & ->).
  rewrite (decode_scheme_present s dl tl bl S Hd Ht Hb C Nd Nt). eexists. split; [reflexivity|].
  split; [|split].
  - split; [reflexivity|]. split; [reflexivity|]. simpl. apply contents_some.
  - simpl. destruct (s_domain s); [reflexivity|congruence].
  - simpl. destruct (s_tablet s); [reflexivity|congruence].
Qed.
Print Assumptions C48_scheme_roundtrip_partial.

Example C48_scheme_roundtrip_applies :
  decode_scheme [x00; x01; x64; x02; x74; x75; x03; x01; x61; x00; x02; x62; x63] =
  Ok (mkScheme (Some [x64]) (Some [x74; x75]) (Some [Some [x61]; Some []; Some [x62; x63]]), 13) /\
  nil_last demo /\ ~ nil_last (mkScheme None (Some [x61]) None) /\ nil_last (mkScheme (Some [x61]) None (Some [])).
Proof.
  split; [reflexivity|]. unfold nil_last. simpl.
  split; [split; left; discriminate|]. split.
  - intros ([H|[H _]] & _); [congruence|discriminate].
  - split; [left; discriminate|right; reflexivity].
Qed.

(** A scheme obtained through the API (the copy of a parsed one) always survives. *)
Theorem C48_copied_scheme_roundtrip : forall buf s n l, decode_scheme buf = Ok (s, n) ->
  scheme_sized s -> encode_scheme (copy_scheme s) = Ok l ->
  decode_scheme l = Ok (s, zlen l).
Proof.
  intros buf s n l D S E. destruct (decode_scheme_present_fields _ _ _ D) as (d & t & bs & ->).
  destruct (scheme_bytes_exists _ S) as (l' & SB). unfold copy_scheme in E. simpl s_domain in E. simpl s_tablet in E. simpl s_buckets in E.
  rewrite (scheme_layout _ l' S SB) in E.
  destruct (Z.ltb_spec max_scheme_length (zlen l')) as [C|C]; [discriminate|].
  assert (l' = l) by congruence. subst l'. destruct SB as (dl & tl & bl & Hd & Ht & Hb & ->).
  rewrite (decode_scheme_present _ dl tl bl S Hd Ht Hb C) by discriminate. simpl.
  now rewrite contents_some.
Qed.
Print Assumptions C48_copied_scheme_roundtrip.
(** The input need not be canonical: here the length of the domain is written in two bytes, and the magic byte is ignored. *)
Example C48_copied_scheme_roundtrip_applies :
  exists s, decode_scheme [xff; x81; x00; x64; x00; x01; x01; x61] = Ok (s, 8) /\ scheme_sized s /\
            encode_scheme (copy_scheme s) = Ok [x00; x01; x64; x00; x01; x01; x61].
Proof.
  eexists. split; [reflexivity|]. split; [|reflexivity].
  unfold scheme_sized, osized. simpl. repeat split; repeat constructor.
Qed.

(** Two schemes with domain, tablet and buckets present never share an encoding unless their fields have the same contents. *)
Theorem C48_scheme_injective : forall s1 s2 l, scheme_sized s1 -> scheme_sized s2 -> nil_last s1 -> nil_last s2 ->
  encode_scheme s1 = Ok l -> encode_scheme s2 = Ok l -> same_scheme s1 s2.
Proof.
  intros s1 s2 l S1 S2 N1 N2 E1 E2.
  destruct (proj2 (scheme_roundtrip_iff s1 l S1 E1) N1) as (s & n & D & (A1 & A2 & A3)).
  destruct (proj2 (scheme_roundtrip_iff s2 l S2 E2) N2) as (s' & n' & D' & (B1 & B2 & B3)).
  assert (s' = s) by congruence. subst s'. split; [congruence|]. split; congruence.
Qed.
Print Assumptions C48_scheme_injective.
Example C48_scheme_injective_applies : nil_last demo /\ encode_scheme demo = encode_scheme (copy_scheme demo).
Proof. split; [split; left; discriminate|reflexivity]. Qed.

(** ** C43 for schemes: EstBufSize counts one byte for every length *)
Definition over_127 (n : nat) : Z := if Nat.ltb 127 n then 1 else 0.
Definition over_field (o : gslice) : Z := match o with Some d => over_127 (length d) | None => 0 end.
Definition over_list (o : option (list gslice)) : Z :=
  match o with Some bs => over_127 (length bs) + fold_right (fun b n => over_127 (length (gcontent b)) + n) 0 bs | None => 0 end.

Lemma leb_length l v : leb128 l v -> (length l = 1%nat -> (v < 128)%N) /\ (length l = 2%nat -> (v < 16384)%N) /\ (1 <= length l)%nat.
Proof.
  intros H. destruct H as [b Hb|b l v Hb H]; cbn [length]; [repeat split; intros; try discriminate; try exact Hb; lia|].
  pose proof (Byte.to_N_bounded b) as B.
  destruct H as [b2 Hb2|b2 l v H2 H]; cbn [length]; repeat split; intros; try lia. destruct H; cbn [length] in *; lia.
Qed.
Lemma minimal_length l n : uvarint_minimal l (N.of_nat n) -> (N.of_nat n < 16384)%N -> zlen l = 1 + over_127 n.
Proof.
  intros (L & M) H. unfold over_127, zlen. destruct (leb_length _ _ L) as (A & B & C).
  destruct (Nat.ltb_spec 127 n) as [G|G].
  - destruct (Nat.eq_dec (length l) 1) as [E|E]; [specialize (A E); lia|].
    assert (X : (length l <= 2)%nat).
    { assert (exists b1 b2, leb128 [b1; b2] (N.of_nat n)) as (b1 & b2 & X).
      { destruct (Byte.of_N (128 + N.of_nat n mod 128)) as [b1|] eqn:E1.
        2: { apply Byte.of_N_None_iff in E1. pose proof (N.mod_lt (N.of_nat n) 128 ltac:(discriminate)) as Q. clear - E1 Q. generalize dependent (N.of_nat n mod 128)%N. intros; lia. }
        destruct (Byte.of_N (N.of_nat n / 128)) as [b2|] eqn:E2.
        2: { apply Byte.of_N_None_iff in E2. assert (N.of_nat n / 128 < 128)%N as D by (apply N.div_lt_upper_bound; lia). clear - E2 D. generalize dependent (N.of_nat n / 128)%N. intros; lia. }
        apply Byte.to_of_N in E1, E2. exists b1, b2.
        assert (N.of_nat n / 128 < 128)%N as D by (apply N.div_lt_upper_bound; lia).
        pose proof (N.div_mod (N.of_nat n) 128 ltac:(discriminate)) as Q.
        rewrite Q, <- E2. replace (N.of_nat n mod 128)%N with (Byte.to_N b1 - 128)%N by (rewrite E1; clear; generalize (N.of_nat n mod 128)%N; intros; lia). rewrite N.add_comm.
        apply leb_more; [rewrite E1; apply N.le_add_r|]. apply leb_last. now rewrite E2. }
      exact (M _ X). }
    lia.
  - destruct (Byte.of_N (N.of_nat n)) as [b|] eqn:E; [|apply Byte.of_N_None_iff in E; lia]. apply Byte.to_of_N in E.
    assert (X : leb128 [b] (N.of_nat n)) by (rewrite <- E; apply leb_last; rewrite E; lia). specialize (M _ X). cbn [length] in M. lia.
Qed.
Lemma varchar_length d l : varchar_of d l -> (N.of_nat (length d) < 16384)%N -> zlen l = 1 + over_127 (length d) + zlen d.
Proof. intros (n & M & ->) H. rewrite zlen_app, (minimal_length _ _ M H). reflexivity. Qed.
Lemma varchar_le d l : varchar_of d l -> zlen d <= zlen l.
Proof. intros (n & M & ->). rewrite zlen_app. pose proof (zlen_nonneg n). lia. Qed.
Lemma field_length (o : gslice) (l : bytes) : opt_varchar o l -> zlen l <= 1024 -> zlen l = match o with Some d => 1 + zlen d | None => 0 end + over_field o.
Proof.
  destruct o as [d|]; cbn [opt_varchar over_field]; [|intros ->; reflexivity]. intros V H. pose proof (varchar_le _ _ V).
  rewrite (varchar_length _ _ V) by (unfold zlen in *; lia). lia.
Qed.
Lemma buckets_length bs ls : Forall2 varchar_of (map content bs) ls -> zlen (concat ls) <= 1024 ->
  zlen (concat ls) = fold_right (fun b n => 1 + zlen (gcontent b) + n) 0 bs + fold_right (fun b n => over_127 (length (gcontent b)) + n) 0 bs /\
  (length bs <= length (concat ls))%nat.
Proof.
  revert ls. induction bs as [|b bs IH]; intros ls F H; cbn [map] in F; inv F; [now split|].
  cbn [concat] in *. rewrite zlen_app in *. pose proof (zlen_nonneg y). pose proof (zlen_nonneg (concat l')).
  destruct (IH l' H4) as (A & B); [lia|]. pose proof (varchar_le _ _ H2).
  change content with gcontent in *.
  assert (L : zlen y = 1 + over_127 (length (gcontent b)) + zlen (gcontent b)) by (apply varchar_length; [exact H2|unfold zlen in *; lia]).
  cbn [fold_right]. split; [lia|]. rewrite app_length. cbn [length]. unfold zlen in *. unfold over_127 in L. destruct (Nat.ltb 127 (length (gcontent b))); lia.
Qed.
(** The encoding is longer than the estimate by one byte for every field, bucket or list longer than 127. *)
Theorem C43_scheme_exact : forall s l, scheme_sized s -> encode_scheme s = Ok l ->
  zlen l = est_scheme s + over_field (s_domain s) + over_field (s_tablet s) + over_list (s_buckets s).
Proof.
  intros s l S E. destruct (scheme_bytes_exists s S) as (l' & SB). rewrite (scheme_layout s l' S SB) in E.
  change max_scheme_length with 1024 in E. destruct (Z.ltb_spec 1024 (zlen l')) as [C|C]; [discriminate|]. assert (l' = l) by congruence. subst l'.
  destruct SB as (dl & tl & bl & Hd & Ht & Hb & ->). rewrite zlen_cons, !zlen_app in *.
  pose proof (zlen_nonneg dl). pose proof (zlen_nonneg tl). pose proof (zlen_nonneg bl). assert (zlen bl <= 1024) as Cb by lia.
  rewrite (field_length _ _ Hd), (field_length _ _ Ht) by lia. clear C. unfold est_scheme.
  assert (B : zlen bl = match s_buckets s with Some bs => 1 + fold_right (fun b n => 1 + zlen (gcontent b) + n) 0 bs | None => 0 end + over_list (s_buckets s)).
  { destruct (s_buckets s) as [bs|]; cbn [opt_buckets over_list] in *; [|now subst bl]. destruct Hb as (c & ls & M & F & ->). rewrite zlen_app in Cb |- *.
    pose proof (zlen_nonneg c). destruct (buckets_length _ _ F) as (A & L); [lia|].
    assert (N.of_nat (length bs) < 16384)%N as Lb by (unfold zlen, gslice, bytes in *; clear - L Cb; lia).
    rewrite (minimal_length _ _ M Lb), A. change (option (list byte)) with gslice. lia. }
  rewrite B. set (x := over_list _). set (y := over_field (s_domain s)). set (z := over_field (s_tablet s)). ring.
Qed.
Print Assumptions C43_scheme_exact.
Example C43_scheme_applies : scheme_sized demo /\ est_scheme demo = 13 /\
  exists l, encode_scheme (mkScheme (Some (repeat x61 128)) (Some (repeat x62 127)) None) = Ok l /\ zlen l = 259 /\
    est_scheme (mkScheme (Some (repeat x61 128)) (Some (repeat x62 127)) None) = 258.
Proof.
  split; [apply C48_scheme_layout_applies|]. split; [reflexivity|]. eexists. split; [vm_compute; reflexivity|]. split; vm_compute; reflexivity.
Qed.
