(** * Proofs about the kinds of values. *)
From Coq Require Import List NArith ZArith Bool Lia.
From Coq Require Import Strings.Byte.
From Verif Require Import Base BaseProofs EndianModel VarintModel VarintSpec VarintProofs KeyModel ValueModel ValueSpec
  ValueProofs KindModel KindSpec.
Import ListNotations.
Local Open Scope Z_scope.

Lemma layout_parses (l c : bytes) (body : mbody) :
  layout l c body -> parses_as l (face_of (VStd (MVal l c body))).
Proof. intros L more. exists (MVal l c body). split; [now apply std_decode_layout|reflexivity]. Qed.

Lemma uint16_small n : (n < 65536)%N -> uint16 n = n.
Proof. apply N.mod_small. Qed.

(** The three encoders. *)
Lemma prim_layout (d b : bytes) : prim_encode (Some d) = Ok b ->
  layout b d BPrim /\ exists r, b = prim_magic (Some d) :: r.
Proof.
  unfold prim_encode, prim_magic. cbn zeta.
  destruct (Z.eqb_spec (zlen d) 0) as [E|E].
  { intros H. inv H. destruct d; [|unfold zlen in E; cbn in E; lia]. split; [|now exists []].
    exact (layout_intro x00 [] [] [] 0 0 0 0 0 (or_introl eq_refl) raw_0 raw_0 raw_0 eq_refl). }
  assert (forall n, zlen d = n -> N.of_nat (length d) = Z.to_N n) as LN by (unfold zlen; intros; lia).
  pose proof (zlen_nonneg d) as P.
  destruct (Z.ltb_spec (zlen d) 256) as [C|C].
  { intros H. inv H. split; [|eexists; reflexivity].
    refine (layout_intro x01 [] [n2b (Z.to_N (zlen d))] d 0 0 1 0 0 (or_introl eq_refl) raw_0 raw_0 _ eq_refl).
    apply count_raw. rewrite (LN _ eq_refl). apply count_1'. lia. }
  destruct (Z.ltb_spec (zlen d) 65536) as [C'|C']; [|discriminate].
  intros H. inv H. split; [|eexists; reflexivity].
  refine (layout_intro x02 [] [n2b (N.shiftr (Z.to_N (zlen d)) 8); n2b (Z.to_N (zlen d))] d 0 0 2 0 0
            (or_introl eq_refl) raw_0 raw_0 _ eq_refl).
  apply count_raw. rewrite (LN _ eq_refl). apply count_2'. lia.
Qed.

Lemma arr_layout e (l : list value) (b : bytes) : l <> [] -> value_encode (VArr e l) = Ok b ->
  exists c, layout b c (BArr (repeat VEmpty (length l))) /\ (N.of_nat (length l) < 65536)%N.
Proof.
  intros NE. rewrite value_encode_arr.
  destruct (N.lt_ge_cases (N.of_nat (length l)) 65536) as [S|S]; [|rewrite size_header_big by exact S; discriminate].
  destruct (size_header_spec 6 (length l) S) as (sc & sf & CF & ->). cbn [rbind].
  destruct (encode_values l) as [c| |]; [|discriminate..]. cbn [rbind].
  destruct (N.lt_ge_cases (N.of_nat (length c)) 65536) as [L|L]; [|rewrite with_content_big by exact L; discriminate].
  destruct (with_content_spec (N.shiftl sc 6) sf c L) as (lc & lf & CL & ->). intros H. inv H.
  exists c. split; [|exact S].
  assert (sc <> 0)%N as SC.
  { intros ->. inversion CF as [Q| |]. destruct l; [congruence|discriminate]. }
  pose proof (layout_intro (n2b (N.lor (N.shiftl sc 6) lc)) sf lf c sc 0 lc (N.of_nat (length l)) 0
    (or_intror eq_refl)) as LI.
  unfold rec_body, arr_body in LI. destruct sc; [congruence|]. rewrite Nnat.Nat2N.id in LI.
  apply LI; [now apply count_raw|apply raw_0|now apply count_raw|].
  rewrite magic_lor6 by (eapply count_code; eassumption). lia.
Qed.

Lemma recs_layout e (l : list record) (b : bytes) : l <> [] -> value_encode (VRecs e l) = Ok b ->
  exists c, layout b c (BRec (repeat REmpty (length l))) /\ (N.of_nat (length l) < 65536)%N.
Proof.
  intros NE. rewrite value_encode_recs.
  destruct (N.lt_ge_cases (N.of_nat (length l)) 65536) as [S|S]; [|rewrite size_header_big by exact S; discriminate].
  destruct (size_header_spec 4 (length l) S) as (sc & sf & CF & ->). cbn [rbind].
  destruct (encode_records l) as [c| |]; [|discriminate..]. cbn [rbind].
  destruct (N.lt_ge_cases (N.of_nat (length c)) 65536) as [L|L]; [|rewrite with_content_big by exact L; discriminate].
  destruct (with_content_spec (N.shiftl sc 4) sf c L) as (lc & lf & CL & ->). intros H. inv H.
  exists c. split; [|exact S].
  assert (sc <> 0)%N as SC.
  { intros ->. inversion CF as [Q| |]. destruct l; [congruence|discriminate]. }
  pose proof (layout_intro (n2b (N.lor (N.shiftl sc 4) lc)) sf lf c 0 sc lc 0 (N.of_nat (length l))
    (or_introl eq_refl)) as LI.
  unfold rec_body, arr_body in LI. destruct sc; [congruence|]. rewrite Nnat.Nat2N.id in LI.
  apply LI; [apply raw_0|now apply count_raw|now apply count_raw|].
  rewrite magic_lor4 by (eapply count_code; eassumption). lia.
Qed.

(** The magic byte of an array or a record list is not zero. *)
Lemma layout_not_nil (l c : bytes) body : layout l c body -> body <> BPrim ->
  exists m r, l = m :: r /\ (b2n m <> 0)%N.
Proof.
  intros [m sf lf c0 sa sr lc na nr Z Ra Rr Rl M] NB. exists m, (sf ++ lf ++ c0). split; [reflexivity|].
  intros B. rewrite B in M. assert (sa = 0 /\ sr = 0)%N as [-> ->] by lia. apply NB. reflexivity.
Qed.

Lemma arr_face e l (b c : bytes) : l <> [] -> (N.of_nat (length l) < 65536)%N ->
  layout b c (BArr (repeat VEmpty (length l))) ->
  face_of (VStd (MVal b c (BArr (repeat VEmpty (length l))))) = face_of (VArr e l).
Proof.
  intros NE S L. destruct (layout_not_nil _ _ _ L ltac:(discriminate)) as (m & r & -> & NZ).
  unfold face_of, mv_is_nil, mv_is_primitive, mv_is_array, mv_is_records, mv_size, mv_value. cbn [mv_buf mv_body].
  apply N.eqb_neq in NZ. rewrite NZ, repeat_length, uint16_small by exact S.
  destruct l; [congruence|]. reflexivity.
Qed.
Lemma recs_face e l (b c : bytes) : l <> [] -> (N.of_nat (length l) < 65536)%N ->
  layout b c (BRec (repeat REmpty (length l))) ->
  face_of (VStd (MVal b c (BRec (repeat REmpty (length l))))) = face_of (VRecs e l).
Proof.
  intros NE S L. destruct (layout_not_nil _ _ _ L ltac:(discriminate)) as (m & r & -> & NZ).
  unfold face_of, mv_is_nil, mv_is_primitive, mv_is_array, mv_is_records, mv_size, mv_value. cbn [mv_buf mv_body].
  apply N.eqb_neq in NZ. rewrite NZ, repeat_length, uint16_small by exact S.
  destruct l; [congruence|]. reflexivity.
Qed.
Lemma prim_face (d b : bytes) : prim_encode (Some d) = Ok b ->
  face_of (VStd (MVal b d BPrim)) = face_of (VPrim (Some d)).
Proof.
  intros E. unfold face_of, mv_is_nil, mv_is_primitive, mv_is_array, mv_is_records, mv_size, mv_value.
  cbn [mv_buf mv_body mv_content value_is_nil gcontent]. revert E. unfold prim_encode. cbn zeta.
  destruct d as [|x d]; [intros E; inv E; reflexivity|].
  destruct (Z.eqb_spec (zlen (x :: d)) 0) as [C|C]; [unfold zlen in C; cbn [length] in C; lia|].
  destruct (zlen (x :: d) <? 256); [intros E; inv E; reflexivity|].
  destruct (zlen (x :: d) <? 65536); [intros E; inv E; reflexivity|discriminate].
Qed.

(** Kinds. *)
Lemma kinds v : made v -> (one_kind (face_of v) <-> ~ hollow v).
Proof.
  assert (forall m, one_kind (face_of (VStd m))) as S.
  { intros [b c []]; [left|right; left|right; right]; repeat split. }
  intros [d|e l|e l|buf m n H|buf v' n H].
  - split; [intros _ X; inversion X|intros _; left; repeat split].
  - destruct l as [|x l].
    + split; [intros [(A & B & C)|[(A & B & C)|(A & B & C)]]; discriminate|intros X; exfalso; apply X; constructor].
    + split; [intros _ X; inversion X|intros _; right; left; repeat split].
  - destruct l as [|x l].
    + split; [intros [(A & B & C)|[(A & B & C)|(A & B & C)]]; discriminate|intros X; exfalso; apply X; constructor].
    + split; [intros _ X; inversion X|intros _; right; right; repeat split].
  - split; [intros _ X; inversion X|intros _; apply S].
  - unfold new_simple_value in H. destruct (decode_varchar buf) as [[data k]| |]; [|discriminate..].
    cbn [rbind] in H. destruct (go_upto buf k) as [b| |]; [|discriminate..]. cbn [rbind] in H. inv H.
    split; [intros _ X; inversion X|intros _; left; repeat split].
Qed.

(** What Encode leaves behind. *)
Lemma encode_ok v o : encode (fresh v) = (o, Ok tt) ->
  exists b, value_encode v = Ok b /\
    o = VObj v true (match v with VPrim d => prim_magic d | _ => x00 end)
         (match v with VPrim None => None | _ => Some b end).
Proof.
  unfold encode. assert (o_value (fresh v) = v) as OV by (destruct v; reflexivity). rewrite OV.
  destruct (value_encode v) as [b| |] eqn:E; [|intros H; discriminate H..].
  intros H. exists b. split; [reflexivity|]. injection H as <-.
  destruct v as [[d|]|e l|e l|m|b' c]; try reflexivity; discriminate E.
Qed.

Lemma encoded_parse v o b : ~ hollow v -> v <> VPrim None -> encode (fresh v) = (o, Ok tt) -> obj_buf o = Ok b ->
  exists b' : bytes, b = Some b' /\ parses_as b' (face_of v).
Proof.
  intros NH NN E B. destruct (encode_ok _ _ E) as (b' & VE & ->).
  unfold obj_buf in B. cbn [o_value o_encoded o_buf] in B.
  destruct v as [[d|]|e l|e l|m|? ?]; try discriminate VE; [|congruence|..].
  - inv B. exists b'. split; [reflexivity|]. cbn [value_encode] in VE.
    rewrite <- (prim_face d b' VE). apply layout_parses. now apply prim_layout.
  - inv B. exists b'. split; [reflexivity|].
    assert (l <> []) as NE by (intros ->; apply NH; constructor).
    destruct (arr_layout e l b' NE VE) as (c & L & S). rewrite <- (arr_face e l b' c NE S L). now apply layout_parses.
  - inv B. exists b'. split; [reflexivity|].
    assert (l <> []) as NE by (intros ->; apply NH; constructor).
    destruct (recs_layout e l b' NE VE) as (c & L & S). rewrite <- (recs_face e l b' c NE S L). now apply layout_parses.
Qed.

Lemma parsed_parse buf m n : new_std_value buf = Ok (m, n) -> parses_as (mv_buf m) (face_of (VStd m)).
Proof.
  intros H. destruct (std_decode_inv _ _ _ H) as (l & c & body & suf & -> & L & -> & ->). now apply layout_parses.
Qed.

Lemma bytes_parse v b : made v -> ~ hollow v -> v <> VPrim None -> (forall x c, v <> VSimple x c) ->
  bytes_of v b -> exists b' : bytes, b = Some b' /\ parses_as b' (face_of v).
Proof.
  intros M NH NN NS H. destruct H as [v o b E B|v b E B]; [exact (encoded_parse v o b NH NN E B)|].
  destruct v as [d|e l|e l|m|x c]; try discriminate E; [|destruct (NS x c eq_refl)].
  unfold obj_buf in B. cbn in B. inv B. exists (mv_buf m). split; [reflexivity|].
  inversion M as [| | |buf m' n H|buf v'' n H]; subst.
  - now apply (parsed_parse buf m n).
  - unfold new_simple_value in H. destruct (decode_varchar buf) as [[data k]| |]; [|discriminate..].
    cbn [rbind] in H. destruct (go_upto buf k); discriminate.
Qed.

(** The magic byte is the first one. *)
Lemma magic_first v o b x r : encode (fresh v) = (o, Ok tt) -> obj_buf o = Ok b -> b = Some (x :: r) ->
  value_magic o = Ok x.
Proof.
  intros E B ->. destruct (encode_ok _ _ E) as (b' & VE & ->).
  unfold obj_buf in B. cbn [o_value o_encoded o_buf] in B.
  destruct v as [[d|]|e l|e l|m|? ?]; try discriminate VE; try discriminate B.
  - unfold value_magic. cbn [o_value o_encoded o_magic]. inv B.
    destruct (prim_layout d (x :: r) VE) as (_ & r' & Q). inv Q. reflexivity.
  - inv B. reflexivity.
  - inv B. reflexivity.
Qed.

(** SimpleMappedValue: a varchar is not a standard value. *)
Lemma leb128_first (l : list byte) (v : N) : leb128 l v ->
  exists x r, l = x :: r /\ ((r = [] /\ v = b2n x /\ (b2n x < 128)%N) \/ (r <> [] /\ (128 <= b2n x)%N)).
Proof.
  intros [b L|b l' v' B L]; [exists b, []|exists b, l']; (split; [reflexivity|]).
  - left. auto.
  - right. split; [|exact B]. intros ->. inversion L.
Qed.

Lemma simple_parse buf (b c : bytes) n : new_simple_value buf = Ok (VSimple b c, n) ->
  (parses_as b (face_of (VSimple b c)) <-> b = [x00]).
Proof.
  intros H. unfold new_simple_value in H. destruct (decode_varchar buf) as [[data k]| |] eqn:D; [|discriminate..].
  cbn [rbind] in H. destruct (go_upto buf k) as [b'| |] eqn:G; [|discriminate..]. cbn [rbind] in H. inv H.
  destruct (varchar_inside _ _ _ D) as [(-> & -> & ->)|(pre & rest & -> & (L & _ & _) & ->)].
  { cbv in G. inv G. split; [|discriminate]. intros P. destruct (P []) as (m & E & _). discriminate E. }
  rewrite app_assoc, go_upto_app in G. inv G.
  destruct (leb128_first _ _ L) as (x & r & -> & C). split.
  - intros P. destruct (P []) as (m & E & F). destruct (std_decode_inv _ _ _ E) as (l & c' & body & suf & Q & LA & -> & Z).
    assert (suf = []) as ->.
    { destruct suf; [reflexivity|]. apply (f_equal (@length _)) in Q. rewrite !app_length in Q. unfold zlen in Z.
      cbn [length] in *. rewrite ?app_length in *. cbn [length] in *. lia. }
    rewrite !app_nil_r in Q.
    unfold face_of in F. injection F as Fn Fp Fa Fr Fs Fv. unfold mv_value in Fv. cbn [mv_body mv_content] in Fv.
    destruct LA as [m0 sf lf c0 sa sr lc na nr Zs Ra Rr Rl M].
    unfold mv_is_primitive in Fp. cbn [mv_body] in Fp.
    assert (sa = 0 /\ sr = 0)%N as [-> ->].
    { destruct sa, sr; cbn in Fp; try discriminate Fp. auto. }
    cbn in Fv. inv Fv. inversion Rr as [Q1 Q2 Q3| |]. subst sf. cbn [app] in Q. injection Q as -> Q.
    destruct C as [(-> & Lc & Sm)|(Nr & Big)].
    + cbn [app] in Q. assert (lf = []) as ->.
      { destruct lf; [reflexivity|]. apply (f_equal (@length _)) in Q. rewrite app_length in Q. cbn in Q. lia. }
      inversion Rl as [Q4 Q5| |]. destruct c; [|discriminate].
      cbn [app]. f_equal. apply b2n_inj. rewrite <- Lc. reflexivity.
    + pose proof (raw_code _ _ _ Rl). lia.
  - intros Q. rewrite Q. cbn [app] in Q. injection Q as -> Q. destruct r; [|discriminate Q]. cbn [app] in Q. subst c.
    exact (layout_parses [x00] [] BPrim
      (layout_intro x00 [] [] [] 0 0 0 0 0 (or_introl eq_refl) raw_0 raw_0 raw_0 eq_refl)).
Qed.

(** Arrays and record lists without elements, and the nil primitive. *)
Lemma hollow_bytes v b : hollow v -> bytes_of v b -> b = Some [x00].
Proof.
  intros H B. destruct B as [v o b E B|v b E B]; [|destruct H; discriminate E].
  destruct H; cbn in E; injection E as <-; cbn in B; injection B as <-; reflexivity.
Qed.
Lemma zero_parses : parses_as [x00] (Face true true false false 0 (Some [])).
Proof.
  exact (layout_parses [x00] [] BPrim
    (layout_intro x00 [] [] [] 0 0 0 0 0 (or_introl eq_refl) raw_0 raw_0 raw_0 eq_refl)).
Qed.
Lemma nil_bytes b : bytes_of (VPrim None) b -> b = None.
Proof.
  intros B. inversion B as [v o b' E Bo|v b' E Bo]; subst; [|discriminate E].
  cbn in E. injection E as <-. cbn in Bo. injection Bo as <-. reflexivity.
Qed.
Lemma not_encoded v : (forall m, v <> VStd m) -> (forall b c, v <> VSimple b c) ->
  is_encoded (fresh v) = false /\ obj_buf (fresh v) = Panic /\ value_magic (fresh v) = Panic.
Proof. intros A B. destruct v as [d|e l|e l|m|b c]; [repeat split..|destruct (A m eq_refl)|destruct (B b c eq_refl)]. Qed.
Lemma failed_encode v o r : encode (fresh v) = (o, r) -> r <> Ok tt -> o = fresh v.
Proof. unfold encode. destruct (value_encode _); intros H N; congruence. Qed.
