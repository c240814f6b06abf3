(** * Theorems about records. *)
From Coq Require Import List NArith ZArith Bool Lia.
From Coq Require Import Strings.Byte.
From Verif Require Import Base BaseProofs EndianModel EndianProofs VarintModel KeyModel KeySpec KeyProps
  ValueModel ValueSpec ValueProofs ValueAccess ValueCopy RecordProofs.
Import ListNotations.
Local Open Scope Z_scope.

(** ** C44: records survive encode and decode *)

(** Encode produces exactly the wire format. *)
Theorem C44_wire_format : forall (r : record) (t : rtree) (b : bytes), rsays r t -> (record_encode r = Ok b <-> rwire t b).
Proof. intros r t b S. now apply (proj1 (proj2 (proj2 encode_wire))). Qed.
Print Assumptions C44_wire_format.

(** No encoded record is ever parsed back, whatever follows it: with a key the parsed key swallows the rest of the
    buffer, and without a key the parser panics. *)
Theorem C44_record_roundtrip_refuted : forall (r : record) (b suffix : bytes) (m : mrec) (n : Z),
  rmade r -> record_encode r = Ok b -> new_mapped_record (b ++ suffix) <> Ok (m, n).
Proof. intros r b suf m n M E. now apply (record_never_back r). Qed.
Print Assumptions C44_record_roundtrip_refuted.

(** Missing: everything Encode produces. What the parser does read back is a record laid out by hand with an explicit
    empty key: magic byte, byte 0, value, scheme, timestamp, signature. *)
Theorem C44_hand_laid_partial : forall (m : byte) (vm sm : mval) (t : option (Z * option (Z * Z))) (suffix : bytes),
  new_std_value (mv_buf vm) = Ok (vm, zlen (mv_buf vm)) -> new_std_value (mv_buf sm) = Ok (sm, zlen (mv_buf sm)) ->
  zlen (mv_buf vm) <= 57344 -> zlen (mv_buf sm) <= 1024 -> tail_fits t ->
  b2n m = (112 + bit t 4 + bit (has_sig t) 2)%N ->
  exists k, ikey_is_empty k = true /\
    let l := m :: x00 :: mv_buf vm ++ mv_buf sm ++ tail_bytes t in
    new_mapped_record (l ++ suffix) = Ok (MRec l k vm sm (option_map fst t) (has_sig t), zlen l).
Proof.
  intros m vm sm t suf Pv Ps Lv Ls F Em.
  destruct (std_decode_inv _ _ _ Pv) as (l & ct & body & s1 & E1 & L1 & E2 & E3).
  destruct (std_decode_inv _ _ _ Ps) as (l' & ct' & body' & s1' & E1' & L1' & E2' & E3'). subst vm sm. cbn [mv_buf] in *.
  destruct (hand_laid m l ct body l' ct' body' t suf L1 L1' Lv Ls F Em) as (rest & Q).
  exists (KMapped [] rest). split; [destruct rest; reflexivity|]. cbn zeta.
  rewrite <- Q. cbn [app]. rewrite <- !app_assoc. reflexivity.
Qed.
Print Assumptions C44_hand_laid_partial.

Definition sample : record :=
  set_signature (set_timestamp (set_scheme (set_value (set_key new_record (new_simple_key (Some [x6b])))
    (VPrim (Some [x76]))) (VPrim (Some [x73]))) (Some 5)) (Some 1) (Some 2).
Example C44_applies :
  rmade sample /\
  (exists b, record_encode sample = Ok (x76 :: [x01; x01; x6b] ++ [x01; x01; x76] ++ [x01; x01; x73] ++ b) /\ length b = 72%nat) /\
  (exists m n, new_mapped_record (x70 :: x00 :: [x01; x01; x76] ++ [x01; x01; x73]) = Ok (m, n)).
Proof.
  split; [|split].
  - constructor; intros ? Q; inversion Q; constructor.
  - eexists. split; [vm_compute; reflexivity|reflexivity].
  - eexists _, _. vm_compute. reflexivity.
Qed.

(** ** C45: record encoding is unambiguous *)

(** Values that contain nil elements can collide, and so can parsed keys with bytes behind them. *)
Theorem C45_unambiguous_refuted :
  (exists r r' b, rmade r /\ rmade r' /\ record_encode r = Ok b /\ record_encode r' = Ok b /\
     r = set_value new_record (va_append (va_append new_value_array (VPrim None)) (VPrim (Some [x61]))) /\
     r' = set_value new_record (va_append (va_append new_value_array (VPrim (Some [x61]))) (VPrim None))) /\
  (exists k k' n n' b, new_mapped_key (Some [x01; x01; x6b; x41; x01; x03]) = Ok (k, n) /\
     new_mapped_key (Some [x01; x01; x6b]) = Ok (k', n') /\ ikey_keys k = ikey_keys k' /\
     record_encode (set_value (set_key new_record k) (VPrim (Some [x62]))) = Ok b /\
     record_encode (set_value (set_key new_record k') (va_append new_value_array (VPrim (Some [x62])))) = Ok b).
Proof.
  split.
  - eexists _, _, [x20; x41; x02; x03; x01; x01; x61].
    split; [|split; [|split; [|split; [|split; reflexivity]]]]; [| |reflexivity..].
    + constructor; intros ? Q; inversion Q; try constructor. intros v [<-|[<-|[]]]; constructor.
    + constructor; intros ? Q; inversion Q; try constructor. intros v [<-|[<-|[]]]; constructor.
  - eexists _, _, _, _, _. split; [vm_compute; reflexivity|]. split; [vm_compute; reflexivity|].
    split; [reflexivity|]. split; vm_compute; reflexivity.
Qed.
Print Assumptions C45_unambiguous_refuted.

(** Missing: nil or empty arrays nested inside values, parsed keys. For all other records (see [rsays]: constructed keys,
    non-nil primitives, non-empty arrays and record lists) equal encodings mean equal contents, and no encoding is a
    proper prefix of another. *)
Theorem C45_unambiguous_partial : forall (r r' : record) (t t' : rtree) (b more : bytes),
  rsays r t -> rsays r' t' -> record_encode r = Ok b -> record_encode r' = Ok (b ++ more) -> t = t' /\ more = [].
Proof.
  intros r r' t t' b more S S' E E'. apply (C44_wire_format r t) in E; [|assumption]. apply (C44_wire_format r' t') in E'; [|assumption].
  destruct (proj1 (proj2 (proj2 wire_prefix_free)) t b E (proj1 (proj2 (proj2 says_ok)) _ _ S) t' _ more []
    (proj1 (proj2 (proj2 says_ok)) _ _ S') E') as (A & B & C).
  - now rewrite app_nil_r.
  - auto.
Qed.
Print Assumptions C45_unambiguous_partial.

Example C45_applies : rsays sample (TRec (Some [[x6b]]) (Some (TPrim [x76])) (Some (TPrim [x73])) (Some (5, Some (1, 2)))).
Proof.
  constructor.
  - apply (key_some false [Some [x6b]] None 3); [discriminate|repeat constructor|reflexivity].
  - constructor; [constructor|]. intros Q; inversion Q.
  - constructor; [constructor|]. intros Q; inversion Q.
  - constructor; lia.
Qed.

(** ** C46: parsing a record from untrusted bytes *)

(** Exact: when it panics. *)
Theorem C46_record_panic_exact : forall buf : bytes, new_mapped_record buf = Panic <->
  exists m rest, buf = m :: rest /\
   (N.testbit (b2n m) 6 = false \/
    N.testbit (b2n m) 6 = true /\
    (new_mapped_key (Some rest) = Panic \/
     (exists k n, new_mapped_key (Some rest) = Ok (k, n) /\ ikey_keys k <> [] /\ zlen rest <= 4096 /\ N.testbit (b2n m) 5 = false) \/
     (exists k n z r1, new_mapped_key (Some rest) = Ok (k, n) /\ ikey_keys k = [] /\ rest = z :: r1 /\
        (N.testbit (b2n m) 5 = false \/
         exists v l, N.testbit (b2n m) 5 = true /\ new_std_value r1 = Ok (v, l) /\ l <= 57344 /\ N.testbit (b2n m) 4 = false)))).
Proof.
  intros buf. rewrite record_panic. unfold new_mapped_key. cbn [gcontent]. split.
  - intros (m & rest & E & H). exists m, rest. split; [assumption|]. destruct H as [H|(B & [H|[H|H]])]; [now left|right; split; [assumption|]..].
    + left. now rewrite H.
    + right. left. destruct H as (ks & n & -> & Hk & R). exists (KMapped ks rest), n. auto.
    + right. right. destruct H as (n & z & r1 & -> & R). exists (KMapped [] rest), n, z, r1. auto.
  - intros (m & rest & E & H). exists m, rest. split; [assumption|]. destruct H as [H|(B & [H|[H|H]])]; [now left|right; split; [assumption|]..].
    + left. destruct (decode_keys rest) as [[ks n]| |]; cbn [rbind] in H; try discriminate. reflexivity.
    + right. left. destruct H as (k & n & Q & Hk & R).
      destruct (decode_keys rest) as [[ks n']| |]; cbn [rbind] in Q; try discriminate. injection Q as <- _. exists ks, n'. auto.
    + right. right. destruct H as (k & n & z & r1 & Q & Hk & R).
      destruct (decode_keys rest) as [[ks n']| |]; cbn [rbind] in Q; try discriminate. injection Q as <- _. cbn [ikey_keys] in Hk. subst ks.
      exists n', z, r1. auto.
Qed.
Print Assumptions C46_record_panic_exact.

Theorem C46_record_safe_refuted : new_mapped_record [x00] = Panic /\ new_mapped_record [x40; x00] = Panic /\
  new_mapped_record [x40; x01; x01; x6b] = Panic /\ new_mapped_record [x60; x00; x00] = Panic.
Proof. repeat split; vm_compute; reflexivity. Qed.
Print Assumptions C46_record_safe_refuted.

(** Missing: buffers whose magic byte lacks one of the key, value and scheme bits. Otherwise only the key can panic. *)
Theorem C46_record_safe_partial : forall (m : byte) (rest : bytes),
  N.testbit (b2n m) 6 = true -> N.testbit (b2n m) 5 = true -> N.testbit (b2n m) 4 = true ->
  new_mapped_key (Some rest) <> Panic -> new_mapped_record (m :: rest) <> Panic.
Proof.
  intros m rest B6 B5 B4 K H. apply C46_record_panic_exact in H. destruct H as (m' & rest' & E & H). injection E as <- <-.
  destruct H as [H|(_ & [H|[H|H]])]; [congruence|contradiction| |].
  - destruct H as (k & n & _ & _ & _ & Q). congruence.
  - destruct H as (k & n & z & r1 & _ & _ & _ & [Q|(v & l & _ & _ & _ & Q)]); congruence.
Qed.
Print Assumptions C46_record_safe_partial.

Example C46_applies :
  new_mapped_record [] = Err /\ new_mapped_record [x70] = Err /\ new_mapped_record [x70; x01; x01; x6b; x00; x00] = Err /\
  N.testbit (b2n x70) 6 = true /\ N.testbit (b2n x70) 5 = true /\ N.testbit (b2n x70) 4 = true.
Proof. repeat split; vm_compute; reflexivity. Qed.

(** ** C47: a record's signature is part of its encoding *)

(** Without a timestamp the signature is dropped; so is the sign of its numbers, and what is beyond 256 bits. *)
Theorem C47_signature_refuted :
  (forall e k v s a b e' a' b', record_encode (Rec e k v s None a b) = record_encode (Rec e' k v s None a' b')) /\
  (exists l, record_encode (set_signature sample (Some 1) (Some 2)) = Ok l /\ record_encode (set_signature sample (Some (-1)) (Some 2)) = Ok l /\
     record_encode (set_signature sample (Some (2 ^ 256 + 1)) (Some 2)) = Ok l).
Proof.
  split; [reflexivity|]. eexists. split; [vm_compute; reflexivity|]. split; vm_compute; reflexivity.
Qed.
Print Assumptions C47_signature_refuted.

(** With a timestamp the encoding ends with the two numbers, 32 bytes each, as they are modulo 2^256 without sign. *)
Theorem C47_signature_exact : forall e k v s t a b (l : bytes),
  record_encode (Rec e k v s (Some t) (Some a) (Some b)) = Ok l ->
  exists p x y, l = p ++ x ++ y /\ length x = 32%nat /\ length y = 32%nat /\
    Z.of_N (be_get x) = Z.abs a mod 2 ^ 256 /\ Z.of_N (be_get y) = Z.abs b mod 2 ^ 256.
Proof.
  intros e k v s t a b l E. destruct (record_encode_sig _ _ _ _ _ _ _ _ E) as (p & -> & _).
  exists p, (big_to_bytes a), (big_to_bytes b). split; [reflexivity|]. split; [apply big_to_bytes_length|]. split; [apply big_to_bytes_length|].
  split; apply big_roundtrip_gen.
Qed.
Print Assumptions C47_signature_exact.

(** Missing: records without a timestamp, numbers outside [0, 2^256). *)
Theorem C47_signature_partial : forall e e' k v s t a b a' b' (l l' : bytes),
  0 <= a < 2 ^ 256 -> 0 <= b < 2 ^ 256 -> 0 <= a' < 2 ^ 256 -> 0 <= b' < 2 ^ 256 ->
  record_encode (Rec e k v s (Some t) (Some a) (Some b)) = Ok l ->
  record_encode (Rec e' k v s (Some t) (Some a') (Some b')) = Ok l' ->
  (a, b) <> (a', b') -> l <> l'.
Proof.
  intros e e' k v s t a b a' b' l l' Ha Hb Ha' Hb' E E' D Q. apply D.
  destruct (record_encode_sig _ _ _ _ _ _ _ _ E) as (p & -> & G). rewrite (G e' a' b') in E'. injection E' as <-.
  apply app_inv_head in Q. apply app_same_length in Q; [|now rewrite !big_to_bytes_length]. destruct Q as (Q1 & Q2).
  apply (f_equal bytes_to_big) in Q1, Q2. rewrite !big_roundtrip in Q1, Q2 by assumption. congruence.
Qed.
Print Assumptions C47_signature_partial.

Example C47_applies : exists l l', record_encode sample = Ok l /\ record_encode (set_signature sample (Some 1) (Some 3)) = Ok l' /\ l <> l'.
Proof. eexists _, _. split; [vm_compute; reflexivity|]. split; [vm_compute; reflexivity|]. discriminate. Qed.

(** ** C41 for parsed records: CopyConstruct *)
Lemma std_copy v t b : says v t -> plain v -> value_encode v = Ok b ->
  exists m v', (forall suf, new_std_value (b ++ suf) = Ok (m, zlen b)) /\ mv_buf m = b /\ std_copy_construct m = Ok v' /\ says v' t.
Proof.
  intros S P E. apply (proj1 encode_wire v t S) in E.
  destruct (proj1 copy_wire t b E (proj1 says_plain v t S P)) as (m & v' & Pm & S' & _ & C). exists m, v'.
  destruct (new_std_split _ _ _ (Pm [])) as (B & L).
  assert (X : mv_buf m = b).
  { rewrite app_nil_r in B. destruct (std_decode_inv _ _ _ (Pm [])) as (l & ct & body & s1 & E1 & L1 & E2 & E3). subst m. cbn [mv_buf] in *.
    rewrite app_nil_r in E1. rewrite E1 in L. rewrite zlen_app in L. destruct s1; [now rewrite app_nil_r in E1|]. rewrite zlen_cons in L. pose proof (zlen_nonneg s1). lia. }
  repeat split; auto. unfold std_copy_construct. apply C. rewrite X. lia.
Qed.
(** The copy of a record that was parsed says what was laid out: value, scheme, timestamp, both halves of the signature. *)
Theorem C41_record_copy_construct : forall (m : byte) (v s : value) (tv ts : tree) (vb sb suffix : bytes) (t : option (Z * option (Z * Z))),
  says v tv -> plain v -> value_encode v = Ok vb -> tv <> TPrim [] ->
  says s ts -> plain s -> value_encode s = Ok sb -> ts <> TPrim [] ->
  zlen vb <= 57344 -> zlen sb <= 1024 -> tail_fits t -> b2n m = (112 + bit t 4 + bit (has_sig t) 2)%N ->
  exists p r, let l := m :: x00 :: vb ++ sb ++ tail_bytes t in
    new_mapped_record (l ++ suffix) = Ok (p, zlen l) /\ record_copy_construct (RMapped p) = Ok r /\ rsays r (TRec None (Some tv) (Some ts) t).
Proof.
  intros m v s tv ts vb sb suf t Sv Pv Ev Nv Ss Ps Es Ns Lv Ls F Em.
  destruct (std_copy _ _ _ Sv Pv Ev) as (vm & v' & Dv & Bv & Cv & Sv'). destruct (std_copy _ _ _ Ss Ps Es) as (sm & s' & Ds & Bs & Cs & Ss').
  destruct (std_decode_inv _ _ _ (Dv [])) as (l & ct & body & s1 & E1 & L1 & E2 & E3).
  destruct (std_decode_inv _ _ _ (Ds [])) as (l' & ct' & body' & s1' & E1' & L1' & E2' & E3'). subst vm sm. cbn [mv_buf] in Bv, Bs. subst l l'.
  destruct (hand_laid m vb ct body sb ct' body' t suf L1 L1' Lv Ls F Em) as (rest & Q).
  eexists. exists (Rec (0, 0, 0) (Some new_key) (Some v') (Some s') (option_map fst t) (option_map fst (has_sig t)) (option_map snd (has_sig t))).
  cbn zeta. split; [rewrite <- Q; cbn [app]; rewrite <- !app_assoc; reflexivity|].
  cbn [record_copy_construct mr_copy_with]. rewrite Cv, Cs. cbn [assert_part rbind ikey_copy_construct ikey_keys add_all]. split; [reflexivity|].
  constructor.
  - now constructor.
  - constructor; [exact Sv'|]. intros Q1. inv Q1; inv Sv'; congruence.
  - constructor; [exact Ss'|]. intros Q1. inv Q1; inv Ss'; congruence.
  - destruct t as [[ns [[a b]|]]|]; cbn in F |- *; constructor; try lia; tauto.
Qed.
Print Assumptions C41_record_copy_construct.
Example C41_record_copy_construct_applies : exists p n,
  new_mapped_record ([x76; x00] ++ [x01; x01; x76] ++ [x01; x01; x73] ++ tail_bytes (Some (5, Some (1, 2)))) = Ok (p, n) /\
  record_copy_construct (RMapped p) = Ok (Rec (0, 0, 0) (Some new_key) (Some (VPrim (Some [x76]))) (Some (VPrim (Some [x73]))) (Some 5) (Some 1) (Some 2)).
Proof. eexists _, _. split; [vm_compute; reflexivity|]. vm_compute. reflexivity. Qed.
