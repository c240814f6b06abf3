(** * Proofs about the value codec. *)
From Coq Require Import List NArith ZArith Bool Lia.
From Coq Require Import Strings.Byte.
From Verif Require Import Base BaseProofs EndianModel EndianProofs VarintModel VarintSpec VarintProofs
  KeyModel KeySpec KeyProofs ValueModel ValueSpec.
Import ListNotations.
Local Open Scope Z_scope.

(** ** Slices of concatenations *)
Lemma go_index_app {A} (pre : list A) b suf : go_index (pre ++ b :: suf) (zlen pre) = Ok b.
Proof.
  unfold go_index, zlen. destruct (Z.ltb_spec (Z.of_nat (length pre)) 0); [lia|].
  rewrite Nat2Z.id, nth_error_app2, Nat.sub_diag by lia. reflexivity.
Qed.
Lemma go_upto_app {A} (l m : list A) : go_upto (l ++ m) (zlen l) = Ok l.
Proof.
  unfold go_upto, zlen. rewrite app_length.
  destruct (Z.leb_spec 0 (Z.of_nat (length l))); [|lia].
  destruct (Z.leb_spec (Z.of_nat (length l)) (Z.of_nat (length l + length m))); [|lia]. cbn [andb].
  now rewrite Nat2Z.id, firstn_app_exact.
Qed.

(** ** Fields *)
(** A count field as Decode reads it; zero may be spelled out. *)
Inductive raw_field : N -> N -> bytes -> Prop :=
| raw_0 : raw_field 0 0 []
| raw_1 b : raw_field (b2n b) 1 [b]
| raw_2 h l : raw_field (256 * b2n h + b2n l)%N 2 [h; l].

Definition read_field (buf : bytes) (pos : Z) (code : N) : res (N * Z) :=
  match code with
  | 0%N => Ok (0%N, pos)
  | 1%N => if zlen buf <? 1 + pos then Err else let? s := go_index buf pos in Ok (b2n s, pos + 1)
  | 2%N => if zlen buf <? 2 + pos then Err
           else let? rest := go_from buf pos in let? s := be_read 2 rest in Ok (s, pos + 2)
  | _ => Err
  end.

Lemma be_get_2 h l : be_get [h; l] = (256 * b2n h + b2n l)%N.
Proof. unfold be_get. cbn [fold_left]. lia. Qed.

Lemma raw_field_read n code f pre rest : raw_field n code f ->
  read_field (pre ++ f ++ rest) (zlen pre) code = Ok (n, zlen pre + zlen f).
Proof.
  intros F. destruct F as [|b|h l]; cbn [read_field].
  - rewrite zlen_nil, Z.add_0_r. reflexivity.
  - cbn [app]. rewrite zlen_app, zlen_cons. pose proof (zlen_nonneg rest).
    destruct (Z.ltb_spec (zlen pre + (1 + zlen rest)) (1 + zlen pre)); [lia|].
    rewrite go_index_app. reflexivity.
  - cbn [app]. rewrite zlen_app, !zlen_cons. pose proof (zlen_nonneg rest).
    destruct (Z.ltb_spec (zlen pre + (1 + (1 + zlen rest))) (2 + zlen pre)); [lia|].
    rewrite go_from_app. cbn [rbind]. unfold be_read. cbn [length Nat.ltb Nat.leb firstn rbind].
    rewrite be_get_2. reflexivity.
Qed.

Lemma read_field_inv pre rest code n p : read_field (pre ++ rest) (zlen pre) code = Ok (n, p) ->
  exists f rest', rest = f ++ rest' /\ raw_field n code f /\ p = zlen pre + zlen f.
Proof.
  unfold read_field. intros H. destruct code as [|[q|[q|q|]|]]; try discriminate.
  - inv H. exists [], rest. split; [reflexivity|]. split; [constructor|]. rewrite zlen_nil. lia.
  - rewrite zlen_app in H. destruct (Z.ltb_spec (zlen pre + zlen rest) (2 + zlen pre)) as [C|C]; [discriminate|].
    destruct rest as [|h [|l rest]]; [rewrite zlen_nil in C; lia|rewrite zlen_cons, zlen_nil in C; lia|].
    rewrite go_from_app in H. cbn [rbind] in H. unfold be_read in H.
    cbn [length Nat.ltb Nat.leb firstn rbind] in H. rewrite be_get_2 in H.
    apply (f_equal (fun r => match r with Ok x => x | _ => (0%N, 0) end)) in H. apply pair_equal_spec in H. destruct H as [H1 H2].
    exists [h; l], rest. split; [reflexivity|]. split; [rewrite <- H1; constructor|]. rewrite <- H2. reflexivity.
  - rewrite zlen_app in H. destruct (Z.ltb_spec (zlen pre + zlen rest) (1 + zlen pre)) as [C|C]; [discriminate|].
    destruct rest as [|b rest]; [rewrite zlen_nil in C; lia|].
    rewrite go_index_app in H. cbn [rbind] in H.
    apply (f_equal (fun r => match r with Ok x => x | _ => (0%N, 0) end)) in H. apply pair_equal_spec in H. destruct H as [H1 H2].
    exists [b], rest. split; [reflexivity|]. split; [rewrite <- H1; constructor|]. rewrite <- H2. reflexivity.
Qed.

Lemma read_field_panic pre rest code : read_field (pre ++ rest) (zlen pre) code <> Panic.
Proof.
  unfold read_field. intros H. destruct code as [|[q|[q|q|]|]]; try discriminate.
  - rewrite zlen_app in H. destruct (Z.ltb_spec (zlen pre + zlen rest) (2 + zlen pre)) as [C|C]; [discriminate|].
    destruct rest as [|h [|l rest]]; [rewrite zlen_nil in C; lia|rewrite zlen_cons, zlen_nil in C; lia|].
    rewrite go_from_app in H. cbn [rbind] in H. unfold be_read in H.
    cbn [length Nat.ltb Nat.leb firstn rbind] in H. discriminate.
  - rewrite zlen_app in H. destruct (Z.ltb_spec (zlen pre + zlen rest) (1 + zlen pre)) as [C|C]; [discriminate|].
    destruct rest as [|b rest]; [rewrite zlen_nil in C; lia|].
    rewrite go_index_app in H. discriminate.
Qed.

(** ** Decode, field by field *)
Definition arr_body (code n : N) : mbody := match code with 0%N => BPrim | _ => BArr (repeat VEmpty (N.to_nat n)) end.
Definition rec_body (body : mbody) (code n : N) : mbody :=
  match code with 0%N => body | _ => BRec (repeat REmpty (N.to_nat n)) end.
Definition is_set (code : N) : bool := match code with 0%N => false | _ => true end.

Lemma code_cases x : (x mod 4 = 0 \/ x mod 4 = 1 \/ x mod 4 = 2 \/ x mod 4 = 3)%N.
Proof. pose proof (N.mod_lt x 4). lia. Qed.

Lemma decode_array_bits_read buf magic : decode_array_bits buf magic =
  let code := ((magic / 64) mod 4)%N in
  let? (n, p) := read_field buf 1 code in Ok (arr_body code n, p, is_set code).
Proof.
  unfold decode_array_bits, read_field. cbn zeta.
  destruct (code_cases (magic / 64)) as [-> | [-> | [-> | ->]]]; try reflexivity.
  - change (1 + 1) with 2. change (1 + 1) with 2. destruct (zlen buf <? 2); [reflexivity|].
    destruct (go_index buf 1); reflexivity.
  - change (2 + 1) with 3. destruct (zlen buf <? 3); [reflexivity|].
    destruct (go_from buf 1); [|reflexivity..]. cbn [rbind]. destruct (be_read 2 a); reflexivity.
Qed.

Lemma decode_record_bits_read buf magic body pos set : decode_record_bits buf magic body pos set =
  let code := ((magic / 16) mod 4)%N in
  if (set && is_set code)%bool then Err
  else let? (n, p) := read_field buf pos code in Ok (rec_body body code n, p).
Proof.
  unfold decode_record_bits, read_field. cbn zeta.
  destruct (code_cases (magic / 16)) as [-> | [-> | [-> | ->]]]; cbn [is_set]; destruct set; cbn [andb]; try reflexivity.
  - destruct (zlen buf <? 1 + pos); [reflexivity|]. destruct (go_index buf pos); reflexivity.
  - destruct (zlen buf <? 2 + pos); [reflexivity|].
    destruct (go_from buf pos); [|reflexivity..]. cbn [rbind]. destruct (be_read 2 a); reflexivity.
Qed.

Lemma decode_length_bits_read buf magic pos : decode_length_bits buf magic pos =
  let code := (magic mod 4)%N in
  let? (n, p) := read_field buf pos code in
  if is_set code && (zlen buf <? p + Z.of_N n) then Err else Ok (Z.of_N n, p + Z.of_N n).
Proof.
  unfold decode_length_bits, read_field. cbn zeta.
  destruct (code_cases magic) as [-> | [-> | [-> | ->]]]; cbn [is_set andb rbind]; try reflexivity.
  - do 2 f_equal. lia.
  - destruct (zlen buf <? 1 + pos); [reflexivity|]. destruct (go_index buf pos) as [b| |]; [|reflexivity..].
    cbn [rbind]. rewrite (Z.add_comm 1 pos). reflexivity.
  - destruct (zlen buf <? 2 + pos); [reflexivity|].
    destruct (go_from buf pos); [|reflexivity..]. cbn [rbind]. destruct (be_read 2 a); [|reflexivity..].
    cbn [rbind]. rewrite (Z.add_comm 2 pos). reflexivity.
Qed.

(** The layouts Decode accepts: the value's bytes [l], its content [c], its body. *)
Inductive layout : bytes -> bytes -> mbody -> Prop :=
| layout_intro m sf lf c sa sr lc na nr :
    (sa = 0 \/ sr = 0)%N -> raw_field na sa (match sa with 0%N => [] | _ => sf end) ->
    raw_field nr sr (match sa with 0%N => sf | _ => [] end) ->
    raw_field (N.of_nat (length c)) lc lf ->
    b2n m = (64 * sa + 16 * sr + lc)%N ->
    layout (m :: sf ++ lf ++ c) c (rec_body (arr_body sa na) sr nr).

Lemma raw_code n code f : raw_field n code f -> (code < 3)%N.
Proof. intros []; reflexivity. Qed.

Lemma magic_codes m sa sr lc : (sa < 3 -> sr < 3 -> lc < 3 -> b2n m = 64 * sa + 16 * sr + lc ->
  (b2n m / 64) mod 4 = sa /\ (b2n m / 16) mod 4 = sr /\ b2n m mod 4 = lc)%N.
Proof.
  intros A R L ->.
  assert (sa = 0 \/ sa = 1 \/ sa = 2)%N as [-> | [-> | ->]] by lia;
  assert (sr = 0 \/ sr = 1 \/ sr = 2)%N as [-> | [-> | ->]] by lia;
  assert (lc = 0 \/ lc = 1 \/ lc = 2)%N as [-> | [-> | ->]] by lia; repeat split; reflexivity.
Qed.
Lemma magic_bits m sa sr lc : (sa < 3 -> sr < 3 -> lc < 3 -> b2n m = 64 * sa + 16 * sr + lc ->
  N.testbit (b2n m) 3 = false /\ N.testbit (b2n m) 2 = false)%N.
Proof.
  intros A R L ->.
  assert (sa = 0 \/ sa = 1 \/ sa = 2)%N as [-> | [-> | ->]] by lia;
  assert (sr = 0 \/ sr = 1 \/ sr = 2)%N as [-> | [-> | ->]] by lia;
  assert (lc = 0 \/ lc = 1 \/ lc = 2)%N as [-> | [-> | ->]] by lia; split; reflexivity.
Qed.
Lemma magic_sum m : N.testbit (b2n m) 3 = false -> N.testbit (b2n m) 2 = false ->
  b2n m = (64 * ((b2n m / 64) mod 4) + 16 * ((b2n m / 16) mod 4) + b2n m mod 4)%N.
Proof. destruct m; vm_compute; intros; congruence. Qed.

Lemma std_decode_layout l c body suf : layout l c body -> new_std_value (l ++ suf) = Ok (MVal l c body, zlen l).
Proof.
  intros [m sf lf c' sa sr lc na nr Z0 Fa Fr Fl Em].
  pose proof (raw_code _ _ _ Fa) as Ca. pose proof (raw_code _ _ _ Fr) as Cr. pose proof (raw_code _ _ _ Fl) as Cl.
  destruct (magic_codes m sa sr lc Ca Cr Cl Em) as (Ea & Er & El).
  destruct (magic_bits m sa sr lc Ca Cr Cl Em) as (B3 & B2).
  unfold new_std_value. destruct (Z.ltb_spec (zlen ((m :: sf ++ lf ++ c') ++ suf)) 1) as [C|_].
  { rewrite zlen_app, zlen_cons in C. pose proof (zlen_nonneg suf). pose proof (zlen_nonneg (sf ++ lf ++ c')). lia. }
  unfold std_decode. cbn [app go_index]. transitivity
   (let magic := b2n m in let buf := m :: (sf ++ lf ++ c') ++ suf in
    let? (body, pos, set) := decode_array_bits buf magic in
    let? (body, pos) := decode_record_bits buf magic body pos set in
    if N.testbit magic 3 then Err else if N.testbit magic 2 then Err
    else let? (n, pos) := decode_length_bits buf magic pos in
         let? content := go_slice buf (pos - n) pos in
         let? buf' := go_upto buf pos in Ok (MVal buf' content body, pos)); [reflexivity|].
  cbn zeta. rewrite decode_array_bits_read. cbn zeta. rewrite Ea.
  assert (m :: (sf ++ lf ++ c') ++ suf = ((m :: sf) ++ lf) ++ c' ++ suf) as E3
    by (cbn [app]; now rewrite <- !app_assoc).
  assert (m :: (sf ++ lf ++ c') ++ suf = (m :: sf) ++ lf ++ (c' ++ suf)) as E2
    by (cbn [app]; now rewrite <- !app_assoc).
  assert (exists fa fr, sf = fa ++ fr /\ raw_field na sa fa /\ raw_field nr sr fr) as (fa & fr & Es & Ga & Gr).
  { destruct sa as [|p]; [exists [], sf|exists sf, []]; rewrite ?app_nil_r; auto. }
  assert (m :: (sf ++ lf ++ c') ++ suf = [m] ++ fa ++ (fr ++ lf ++ c' ++ suf)) as E0
    by (rewrite Es; cbn [app]; now rewrite <- !app_assoc).
  assert (m :: (sf ++ lf ++ c') ++ suf = ([m] ++ fa) ++ fr ++ (lf ++ c' ++ suf)) as E1
    by (rewrite Es; cbn [app]; now rewrite <- !app_assoc).
  pose proof (raw_field_read na sa fa [m] (fr ++ lf ++ c' ++ suf) Ga) as R0. rewrite <- E0 in R0.
  change (zlen [m]) with 1 in R0. rewrite R0. cbn [rbind].
  rewrite decode_record_bits_read. cbn zeta. rewrite Er.
  assert ((is_set sa && is_set sr)%bool = false) as -> by (destruct Z0 as [-> | ->]; [reflexivity|apply andb_false_r]).
  pose proof (raw_field_read nr sr fr ([m] ++ fa) (lf ++ c' ++ suf) Gr) as R1. rewrite <- E1 in R1.
  rewrite zlen_app in R1. change (zlen [m]) with 1 in R1. rewrite R1. cbn [rbind].
  rewrite B3, B2. rewrite decode_length_bits_read. cbn zeta. rewrite El.
  assert (1 + zlen fa + zlen fr = zlen (m :: sf)) as -> by (rewrite Es, zlen_cons, zlen_app; lia).
  pose proof (raw_field_read _ _ _ (m :: sf) (c' ++ suf) Fl) as R2. rewrite <- E2 in R2. rewrite R2. cbn [rbind].
  rewrite of_nat_zlen, <- zlen_app.
  rewrite E3. rewrite (zlen_app ((m :: sf) ++ lf)), (zlen_app c'). pose proof (zlen_nonneg suf).
  destruct (Z.ltb_spec (zlen ((m :: sf) ++ lf) + (zlen c' + zlen suf)) (zlen ((m :: sf) ++ lf) + zlen c')) as [C|_]; [lia|].
  rewrite andb_false_r. cbn [rbind].
  replace (zlen ((m :: sf) ++ lf) + zlen c' - zlen c') with (zlen ((m :: sf) ++ lf)) by lia.
  rewrite go_slice_app. cbn [rbind].
  rewrite <- zlen_app, (app_assoc _ c'), go_upto_app. cbn [rbind app].
  rewrite <- !app_assoc. reflexivity.
Qed.

Lemma std_decode_inv buf m n : new_std_value buf = Ok (m, n) ->
  exists l c body suf, buf = l ++ suf /\ layout l c body /\ m = MVal l c body /\ n = zlen l.
Proof.
  unfold new_std_value. destruct (Z.ltb_spec (zlen buf) 1) as [C|C]; [discriminate|].
  destruct buf as [|b buf]; [rewrite zlen_nil in C; lia|]. unfold std_decode.
  intros H. cut (exists l c body suf, b :: buf = l ++ suf /\ layout l c body).
  { intros (l & c & body & suf & E & L). pose proof (std_decode_layout l c body suf L) as D. rewrite <- E in D.
    unfold new_std_value in D. destruct (Z.ltb_spec (zlen (b :: buf)) 1) as [C'|_]; [lia|]. unfold std_decode in D.
    exists l, c, body, suf. rewrite D in H. inv H. auto. }
  change (go_index (b :: buf) 0) with (Ok b) in H. cbn [rbind] in H. cbn zeta in H.
  rewrite decode_array_bits_read in H. cbn zeta in H.
  set (sa := ((b2n b / 64) mod 4)%N) in *.
  destruct (read_field (b :: buf) 1 sa) as [[na p]| |] eqn:R0; cbn [rbind] in H; try discriminate.
  apply (read_field_inv [b] buf) in R0. destruct R0 as (fa & r0 & -> & Fa & ->).
  rewrite decode_record_bits_read in H. cbn zeta in H.
  set (sr := ((b2n b / 16) mod 4)%N) in *.
  destruct (is_set sa && is_set sr)%bool eqn:Set0; [discriminate|].
  assert (b :: fa ++ r0 = ([b] ++ fa) ++ r0) as E1 by reflexivity.
  rewrite E1, <- zlen_app in H.
  destruct (read_field (([b] ++ fa) ++ r0) (zlen ([b] ++ fa)) sr) as [[nr p]| |] eqn:R1; cbn [rbind] in H; try discriminate.
  apply read_field_inv in R1. destruct R1 as (fr & r1 & -> & Fr & ->).
  destruct (N.testbit (b2n b) 3) eqn:B3; [discriminate|]. destruct (N.testbit (b2n b) 2) eqn:B2; [discriminate|].
  rewrite decode_length_bits_read in H. cbn zeta in H. set (lc := (b2n b mod 4)%N) in *.
  rewrite app_assoc, <- zlen_app in H.
  destruct (read_field _ _ lc) as [[nl p]| |] eqn:R2; cbn [rbind] in H; try discriminate.
  apply read_field_inv in R2. destruct R2 as (lf & r2 & -> & Fl & ->).
  assert (Z.of_N nl <= zlen r2) as Hn.
  { rewrite !zlen_app in H.
    destruct (is_set lc) eqn:S; cbn [andb] in H.
    - destruct (Z.ltb_spec (zlen [b] + zlen fa + zlen fr + (zlen lf + zlen r2)) (zlen [b] + zlen fa + zlen fr + zlen lf + Z.of_N nl)) as [Q|Q]; [discriminate|]. lia.
    - assert (nl = 0%N) as -> by (destruct Fl; [reflexivity|discriminate..]). pose proof (zlen_nonneg r2). lia. }
  exists (b :: (fa ++ fr) ++ lf ++ firstn (N.to_nat nl) r2), (firstn (N.to_nat nl) r2),
    (rec_body (arr_body sa na) sr nr), (skipn (N.to_nat nl) r2). split.
  { cbn [app]. rewrite <- !app_assoc. rewrite (firstn_skipn (N.to_nat nl) r2). reflexivity. }
  apply layout_intro with (lc := lc).
  - destruct sa; [left; reflexivity|]. destruct sr; [right; reflexivity|discriminate].
  - destruct sa as [|q]; [inv Fa; constructor|].
    assert (fr = []) as ->. { destruct sr; [inv Fr; reflexivity|discriminate]. } rewrite app_nil_r. assumption.
  - destruct sa as [|q]; [inv Fa; assumption|].
    assert (sr = 0%N) as Q. { destruct sr; [reflexivity|discriminate]. } rewrite Q in Fr |- *. inv Fr. constructor.
  - rewrite firstn_length_le by (unfold zlen in Hn; lia). rewrite N2Nat.id. assumption.
  - now apply magic_sum.
Qed.

Lemma new_std_no_panic buf : new_std_value buf <> Panic.
Proof.
  unfold new_std_value. destruct (Z.ltb_spec (zlen buf) 1) as [C|C]; [discriminate|].
  destruct buf as [|b buf]; [rewrite zlen_nil in C; lia|]. unfold std_decode.
  intros H. change (go_index (b :: buf) 0) with (Ok b) in H. cbn [rbind] in H. cbn zeta in H.
  rewrite decode_array_bits_read in H. cbn zeta in H.
  set (sa := ((b2n b / 64) mod 4)%N) in *.
  destruct (read_field (b :: buf) 1 sa) as [[na p]| |] eqn:R0; cbn [rbind] in H; try discriminate.
  2:{ exact (read_field_panic [b] buf sa R0). }
  apply (read_field_inv [b] buf) in R0. destruct R0 as (fa & r0 & -> & Fa & ->).
  rewrite decode_record_bits_read in H. cbn zeta in H.
  set (sr := ((b2n b / 16) mod 4)%N) in *.
  destruct (is_set sa && is_set sr)%bool eqn:Set0; [discriminate|].
  assert (b :: fa ++ r0 = ([b] ++ fa) ++ r0) as E1 by reflexivity.
  rewrite E1, <- zlen_app in H.
  destruct (read_field (([b] ++ fa) ++ r0) (zlen ([b] ++ fa)) sr) as [[nr p]| |] eqn:R1; cbn [rbind] in H; try discriminate.
  2:{ exact (read_field_panic _ _ _ R1). }
  apply read_field_inv in R1. destruct R1 as (fr & r1 & -> & Fr & ->).
  destruct (N.testbit (b2n b) 3) eqn:B3; [discriminate|]. destruct (N.testbit (b2n b) 2) eqn:B2; [discriminate|].
  rewrite decode_length_bits_read in H. cbn zeta in H. set (lc := (b2n b mod 4)%N) in *.
  rewrite app_assoc, <- zlen_app in H.
  destruct (read_field _ _ lc) as [[nl p]| |] eqn:R2; cbn [rbind] in H; try discriminate.
  2:{ exact (read_field_panic _ _ _ R2). }
  apply read_field_inv in R2. destruct R2 as (lf & r2 & -> & Fl & ->).
  destruct (is_set lc && _)%bool eqn:T; [discriminate|]. cbn [rbind] in H.
  assert (Z.of_N nl <= zlen r2) as Hn.
  { destruct (is_set lc) eqn:S; cbn [andb] in T.
    - rewrite !zlen_app in T. lia.
    - assert (nl = 0%N) as -> by (destruct Fl; [reflexivity|discriminate..]). pose proof (zlen_nonneg r2). lia. }
  rewrite <- (firstn_skipn (N.to_nat nl) r2) in H. set (c := firstn (N.to_nat nl) r2) in *.
  assert (Z.of_N nl = zlen c) as Ec by (unfold c, zlen in *; rewrite firstn_length_le; lia).
  rewrite Ec in H. rewrite <- zlen_app in H.
  replace (zlen ((([b] ++ fa) ++ fr) ++ lf) + zlen c - zlen c) with (zlen ((([b] ++ fa) ++ fr) ++ lf)) in H by lia.
  rewrite (app_assoc _ lf) in H.
  rewrite go_slice_app in H. cbn [rbind] in H.
  rewrite <- zlen_app, (app_assoc _ c), go_upto_app in H. cbn [rbind] in H. discriminate.
Qed.

(** ** Locality and bounds *)
Lemma layout_nonempty l c body : layout l c body -> (1 <= length l)%nat.
Proof. intros []. simpl. lia. Qed.
Lemma layout_content l c body : layout l c body -> (length c < length l)%nat.
Proof. intros []. simpl. rewrite !app_length. lia. Qed.

(** ** The encoders produce the wire format *)
Lemma count_code n c l : count_field n c l -> (c < 3)%N.
Proof. intros []; reflexivity. Qed.
Lemma count_bound n c l : count_field n c l -> (n < 65536)%N.
Proof.
  intros [|b|h b]; [reflexivity|pose proof (b2n_bound b); unfold b2n in *; lia|].
  pose proof (b2n_bound b). pose proof (b2n_bound h). unfold b2n in *. lia.
Qed.
Lemma count_raw n c l : count_field n c l -> raw_field n c l.
Proof. intros [|b|h b]; [constructor|apply raw_1|apply raw_2]. Qed.
Lemma count_1' n : (0 < n < 256)%N -> count_field n 1 [n2b n].
Proof.
  intros H. assert (n = Byte.to_N (n2b n)) as E by (symmetry; now apply b2n_n2b_small).
  rewrite E at 1. apply count_1. rewrite <- E. lia.
Qed.
Lemma count_2' n : (256 <= n < 65536)%N -> count_field n 2 [n2b (N.shiftr n 8); n2b n].
Proof.
  intros H. rewrite N.shiftr_div_pow2. change (2 ^ 8)%N with 256%N.
  pose proof (N.div_mod n 256 ltac:(lia)) as D. pose proof (N.mod_lt n 256 ltac:(lia)) as M.
  assert (b2n (n2b (n / 256)) = n / 256)%N as E1 by (apply b2n_n2b_small; lia).
  assert (b2n (n2b n) = n mod 256)%N as E2 by (apply b2n_n2b).
  assert (n = 256 * b2n (n2b (n / 256)) + b2n (n2b n))%N as E by lia.
  rewrite E at 1. apply count_2. unfold b2n in E1. rewrite E1. lia.
Qed.
Lemma count_fun n c l c' l' : count_field n c l -> count_field n c' l' -> c = c' /\ l = l'.
Proof.
  assert (forall b, (Byte.to_N b < 256)%N) as B by (intros b; exact (b2n_bound b)).
  assert (forall a b, Byte.to_N a = Byte.to_N b -> a = b) as I by (intros a b; exact (b2n_inj a b)).
  assert (forall n c l, count_field n c l -> (n = 0 /\ c = 0 /\ l = []) \/
    (exists b, 0 < Byte.to_N b /\ n = Byte.to_N b /\ c = 1 /\ l = [b]) \/
    (exists h b, 0 < Byte.to_N h /\ n = 256 * Byte.to_N h + Byte.to_N b /\ c = 2 /\ l = [h; b]))%N as K.
  { intros n0 c0 l0 [|x Hx|h x Hh]; [left; auto|right; left; eauto|right; right; eauto 6]. }
  intros H H'. apply K in H. apply K in H'.
  destruct H as [(-> & -> & ->)|[(x & Hx & -> & -> & ->)|(h & x & Hh & -> & -> & ->)]];
  destruct H' as [(E & -> & ->)|[(y & Hy & E & -> & ->)|(g & y & Hg & E & -> & ->)]];
  pose proof B as B0; try (pose proof (B x)); try (pose proof (B y)); try lia; clear B0.
  - auto.
  - apply I in E. subst. auto.
  - assert (Byte.to_N h = Byte.to_N g) as Eh by lia.
    assert (Byte.to_N x = Byte.to_N y) as Eb by lia. apply I in Eh, Eb. subst. auto.
Qed.

Lemma size_header_spec sh n : (N.of_nat n < 65536)%N ->
  exists c f, count_field (N.of_nat n) c f /\ size_header sh n = Ok (N.shiftl c sh, f).
Proof.
  intros H. unfold size_header.
  replace (Z.to_N (Z.of_nat n)) with (N.of_nat n) by lia.
  destruct (Z.eqb_spec (Z.of_nat n) 0) as [E|E].
  { exists 0%N, []. replace (N.of_nat n) with 0%N by lia. rewrite N.shiftl_0_l. split; [constructor|reflexivity]. }
  destruct (Z.ltb_spec (Z.of_nat n) 256).
  { exists 1%N, [n2b (N.of_nat n)]. split; [apply count_1'; lia|reflexivity]. }
  destruct (Z.ltb_spec (Z.of_nat n) 65536); [|lia].
  eexists 2%N, _. split; [apply count_2'; lia|reflexivity].
Qed.
Lemma size_header_big sh n : (65536 <= N.of_nat n)%N -> size_header sh n = Err.
Proof.
  intros H. unfold size_header.
  destruct (Z.eqb_spec (Z.of_nat n) 0); [lia|]. destruct (Z.ltb_spec (Z.of_nat n) 256); [lia|].
  destruct (Z.ltb_spec (Z.of_nat n) 65536); [lia|]. reflexivity.
Qed.
Lemma with_content_spec magic sizes c : (N.of_nat (length c) < 65536)%N ->
  exists lc lf, count_field (N.of_nat (length c)) lc lf /\
    with_content magic sizes c = Ok (n2b (N.lor magic lc) :: sizes ++ lf ++ c).
Proof.
  intros H. unfold with_content, zlen.
  replace (Z.to_N (Z.of_nat (length c))) with (N.of_nat (length c)) by lia.
  destruct (Z.eqb_spec (Z.of_nat (length c)) 0) as [E|E].
  { destruct c; [|simpl in E; lia]. exists 0%N, []. rewrite N.lor_0_r. cbn [app]. rewrite app_nil_r. split; [constructor|reflexivity]. }
  destruct (Z.ltb_spec (Z.of_nat (length c)) 256).
  { exists 1%N, [n2b (N.of_nat (length c))]. split; [apply count_1'; lia|reflexivity]. }
  destruct (Z.ltb_spec (Z.of_nat (length c)) 65536); [|lia].
  eexists 2%N, _. split; [apply count_2'; lia|reflexivity].
Qed.
Lemma with_content_big magic sizes c : (65536 <= N.of_nat (length c))%N -> with_content magic sizes c = Err.
Proof.
  intros H. unfold with_content, zlen.
  destruct (Z.eqb_spec (Z.of_nat (length c)) 0); [lia|]. destruct (Z.ltb_spec (Z.of_nat (length c)) 256); [lia|].
  destruct (Z.ltb_spec (Z.of_nat (length c)) 65536); [lia|]. reflexivity.
Qed.
Lemma magic_lor6 sc lc : (sc < 3 -> lc < 3 -> b2n (n2b (N.lor (N.shiftl sc 6) lc)) = 64 * sc + lc)%N.
Proof.
  intros A L. assert (sc = 0 \/ sc = 1 \/ sc = 2)%N as [-> | [-> | ->]] by lia;
  assert (lc = 0 \/ lc = 1 \/ lc = 2)%N as [-> | [-> | ->]] by lia; reflexivity.
Qed.
Lemma magic_lor4 sc lc : (sc < 3 -> lc < 3 -> b2n (n2b (N.lor (N.shiftl sc 4) lc)) = 16 * sc + lc)%N.
Proof.
  intros A L. assert (sc = 0 \/ sc = 1 \/ sc = 2)%N as [-> | [-> | ->]] by lia;
  assert (lc = 0 \/ lc = 1 \/ lc = 2)%N as [-> | [-> | ->]] by lia; reflexivity.
Qed.

Fixpoint encode_values (l : list value) : res bytes :=
  match l with [] => Ok [] | x :: l' => let? b := value_encode x in let? r := encode_values l' in Ok (b ++ r) end.
Fixpoint encode_records (l : list record) : res bytes :=
  match l with [] => Ok [] | x :: l' => let? b := record_encode x in let? r := encode_records l' in Ok (b ++ r) end.
Lemma value_encode_arr e l : value_encode (VArr e l) =
  let? (magic, sizes) := size_header 6 (length l) in let? c := encode_values l in with_content magic sizes c.
Proof. reflexivity. Qed.
Lemma value_encode_recs e l : value_encode (VRecs e l) =
  let? (magic, sizes) := size_header 4 (length l) in let? c := encode_records l in with_content magic sizes c.
Proof. reflexivity. Qed.
Definition opt_part (o : option value) (w : N) : res (N * bytes) :=
  match o with
  | None => Ok (0%N, [])
  | Some v => if value_is_nil v then Ok (0%N, []) else let? b := value_encode v in Ok (w, b)
  end.
Lemma record_encode_parts e k v s t a b : record_encode (Rec e k v s t a b) =
  let? (kb, kbytes) := key_part k in
  let? (vb, vbytes) := opt_part v (N.shiftl 1 5) in
  let? (sb, sbytes) := opt_part s (N.shiftl 1 4) in
  let (tb, tbytes) := tail_part t a b in
  Ok (n2b (N.lor (N.lor (N.lor kb vb) sb) tb) :: kbytes ++ vbytes ++ sbytes ++ tbytes).
Proof. reflexivity. Qed.

Scheme says_mind := Induction for says Sort Prop
with says_all_mind := Induction for says_all Sort Prop
with rsays_mind := Induction for rsays Sort Prop
with rsays_all_mind := Induction for rsays_all Sort Prop
with osays_mind := Induction for osays Sort Prop.
Combined Scheme says_combined from says_mind, says_all_mind, rsays_mind, rsays_all_mind, osays_mind.

Lemma prim_encode_wire d b : prim_encode (Some d) = Ok b <-> wire (TPrim d) b.
Proof.
  assert (forall n, N.of_nat (length d) = n -> Z.to_N (zlen d) = n) as En by (unfold zlen; intros; lia).
  split.
  - unfold prim_encode. intros H.
    destruct (Z.eqb_spec (zlen d) 0) as [E|E].
    { destruct d; [|rewrite zlen_cons in E; pose proof (zlen_nonneg d); lia]. inv H.
      apply (wire_prim x00 [] 0 []); [constructor|reflexivity]. }
    pose proof (zlen_nonneg d).
    destruct (Z.ltb_spec (zlen d) 256).
    { inv H. apply (wire_prim x01 d 1 [n2b (Z.to_N (zlen d))]); [|reflexivity].
      replace (N.of_nat (length d)) with (Z.to_N (zlen d)) by (unfold zlen; lia). apply count_1'. lia. }
    destruct (Z.ltb_spec (zlen d) 65536); [|discriminate].
    inv H. apply (wire_prim x02 d 2 [n2b (N.shiftr (Z.to_N (zlen d)) 8); n2b (Z.to_N (zlen d))]); [|reflexivity].
    replace (N.of_nat (length d)) with (Z.to_N (zlen d)) by (unfold zlen; lia). apply count_2'. lia.
  - intros H. inversion H as [m d' lc lf F E1 E2 E3| |]; subst.
    unfold prim_encode. rewrite (En _ eq_refl). pose proof (count_bound _ _ _ F) as Bd.
    destruct (Z.eqb_spec (zlen d) 0) as [E|E].
    { destruct d; [|rewrite zlen_cons in E; pose proof (zlen_nonneg d); lia].
      destruct (count_fun _ _ _ _ _ F count_0) as [Ec ->]. cbn [app]. do 2 f_equal. apply b2n_inj. unfold b2n. rewrite Ec. reflexivity. }
    destruct (Z.ltb_spec (zlen d) 256).
    { destruct (count_fun _ _ _ _ _ F (count_1' (N.of_nat (length d)) ltac:(unfold zlen in *; lia))) as [Ec ->].
      cbn [app]. do 2 f_equal. apply b2n_inj. unfold b2n. rewrite Ec. reflexivity. }
    destruct (Z.ltb_spec (zlen d) 65536); [|unfold zlen in *; lia].
    destruct (count_fun _ _ _ _ _ F (count_2' (N.of_nat (length d)) ltac:(unfold zlen in *; lia))) as [Ec ->].
    cbn [app]. do 2 f_equal. apply b2n_inj. unfold b2n. rewrite Ec. reflexivity.
Qed.

Lemma key_part_wire k tk : key_says k tk ->
  (forall w b, key_part k = Ok (w, b) -> w = bit tk 64%N /\ key_wire tk b) /\
  (forall b, key_wire tk b -> key_part k = Ok (bit tk 64%N, b)).
Proof.
  intros [|k' E|e ks buf est Hn Hs Hl].
  - split; [intros w b H; inv H; split; reflexivity|intros b ->; reflexivity].
  - unfold key_part. rewrite E. split; [intros w b H; inv H; split; reflexivity|intros b ->; reflexivity].
  - assert (Forall sized (map gcontent ks)) as S.
    { apply Forall_map. eapply Forall_impl; [|exact Hs]. intros s Q. exact Q. }
    destruct (key_bytes_exists (map gcontent ks) S) as (l & B); [unfold zlen in *; rewrite map_length; lia|].
    unfold key_part. destruct ks as [|k0 ks0] eqn:Ek; [contradiction|]. cbn [ikey_is_empty]. rewrite <- Ek in *.
    cbn [key_encode]. rewrite (encode_keys_spec ks l B S ltac:(lia)). unfold max_key_length.
    assert (map gcontent ks <> []) as Hm by (rewrite Ek; discriminate).
    cbn [bit key_wire]. destruct (Z.ltb_spec 4096 (zlen l)) as [C|C]; cbn [rbind ikey_buf gcontent].
    + split; [discriminate|]. intros b (_ & B' & L). rewrite (key_bytes_fun _ _ _ B' B) in L. unfold zlen in C. lia.
    + split.
      * intros w b H. inv H. split; [reflexivity|]. split; [assumption|]. split; [assumption|]. unfold zlen in C. lia.
      * intros b (_ & B' & L). rewrite (key_bytes_fun _ _ _ B' B). reflexivity.
Qed.

Lemma time_to_bytes_spec t : (- 2 ^ 63 <= t < 2 ^ 63) ->
  length (time_to_bytes t) = 8%nat /\ Z.of_N (be_get (time_to_bytes t)) = t mod 2 ^ 64.
Proof.
  intros H. unfold time_to_bytes, unix_nano. rewrite be_put_length. split; [reflexivity|].
  rewrite be_get_put, pow256_8, wrap_int64_id by assumption.
  rewrite N.mod_small by apply uint64_of_int64_bound. unfold uint64_of_int64.
  rewrite Z2N.id; [reflexivity|]. apply Z.mod_pos_bound. reflexivity.
Qed.
Lemma be_bytes_fun a b k : length a = k -> length b = k -> Z.of_N (be_get a) = Z.of_N (be_get b) -> a = b.
Proof. intros La Lb E. apply be_get_inj; [congruence|lia]. Qed.
Lemma big_to_bytes_spec r : 0 <= r < 2 ^ 256 -> length (big_to_bytes r) = 32%nat /\ Z.of_N (be_get (big_to_bytes r)) = r.
Proof. intros H. split; [apply big_to_bytes_length|]. exact (big_roundtrip r H). Qed.

Lemma tail_part_wire t a b tt : tail_says t a b tt ->
  fst (tail_part t a b) = (bit tt 4 + bit (has_sig tt) 2)%N /\
  (forall l, snd (tail_part t a b) = l <-> tail_wire tt l).
Proof.
  intros [a' b'|t' a' b' Ht Hn|t' r s Ht Hr Hs].
  - split; [reflexivity|]. intros l. cbn [tail_part snd tail_wire]. split; auto.
  - assert (tail_part (Some t') a' b' = (4%N, time_to_bytes t')) as ->.
    { destruct a', b'; try reflexivity. destruct Hn; discriminate. }
    split; [reflexivity|]. cbn [snd tail_wire]. destruct (time_to_bytes_spec t' Ht) as (L & V).
    intros l. split.
    + intros <-. auto.
    + intros (L' & V'). apply be_bytes_fun with (k := 8%nat); auto. congruence.
  - cbn [tail_part fst snd tail_wire]. split; [reflexivity|].
    destruct (time_to_bytes_spec t' Ht) as (L & V). destruct (big_to_bytes_spec r Hr) as (Lr & Vr).
    destruct (big_to_bytes_spec s Hs) as (Ls & Vs). intros l. split.
    + intros <-. exists (time_to_bytes t'), (big_to_bytes r), (big_to_bytes s). repeat split; assumption.
    + intros (x & y & z & -> & Lx & Vx & Ly & Vy & Lz & Vz).
      rewrite (be_bytes_fun x (time_to_bytes t') 8), (be_bytes_fun y (big_to_bytes r) 32), (be_bytes_fun z (big_to_bytes s) 32);
        try assumption; congruence.
Qed.

Lemma empty_value_nil v : empty_value v -> value_is_nil v = true.
Proof. intros []; reflexivity. Qed.
Lemma says_not_empty v t : says v t -> ~ empty_value v -> value_is_nil v = false.
Proof.
  intros [d|e l ts Hl _|e l ts Hl _] N; simpl.
  - destruct d; [|reflexivity]. destruct N. constructor.
  - destruct l; [contradiction|reflexivity].
  - destruct l; [contradiction|reflexivity].
Qed.

Lemma record_magic {A B C} (x : option A) (y : option B) (z : option C) (w : N) : (w = 0 \/ w = 4 \/ w = 6)%N ->
  b2n (n2b (N.lor (N.lor (N.lor (bit x 64) (bit y 32)) (bit z 16)) w)) = (bit x 64 + bit y 32 + bit z 16 + w)%N.
Proof. intros [-> | [-> | ->]]; destruct x, y, z; reflexivity. Qed.

Lemma encode_wire :
  (forall v t, says v t -> forall b, value_encode v = Ok b <-> wire t b) /\
  (forall l ts, says_all l ts -> length l = length ts /\ forall b, encode_values l = Ok b <-> wires ts b) /\
  (forall r t, rsays r t -> forall b, record_encode r = Ok b <-> rwire t b) /\
  (forall l ts, rsays_all l ts -> length l = length ts /\ forall b, encode_records l = Ok b <-> rwires ts b) /\
  (forall o t, osays o t ->
     (forall w w' b, opt_part o w = Ok (w', b) -> w' = bit t w /\ owire t b) /\
     (forall w b, owire t b -> opt_part o w = Ok (bit t w, b))).
Proof.
  apply says_combined.
  - intros d b. apply prim_encode_wire.
  - intros e l ts Hl S (Len & IH) b. rewrite value_encode_arr.
    destruct (N.lt_ge_cases (N.of_nat (length l)) 65536) as [C|C].
    2:{ rewrite (size_header_big 6 _ C). cbn [rbind]. split; [intros Q; discriminate Q|]. intros W.
        inversion W as [|m ts' c sc sf lc lf Hts Ws F1 F2 Em E1 E2|]; subst. pose proof (count_bound _ _ _ F1). rewrite <- Len in *. lia. }
    destruct (size_header_spec 6 _ C) as (sc & sf & F & ->). cbn [rbind]. split.
    + intros H. destruct (encode_values l) as [c| |] eqn:E; try discriminate. cbn [rbind] in H.
      destruct (N.lt_ge_cases (N.of_nat (length c)) 65536) as [Cc|Cc]; [|rewrite with_content_big in H by assumption; discriminate].
      destruct (with_content_spec (N.shiftl sc 6) sf c Cc) as (lc & lf & Fl & W). rewrite W in H. inv H.
      apply wire_arr with (sc := sc) (lc := lc); auto.
      * intros ->. destruct l; [contradiction|discriminate Len].
      * now apply IH.
      * rewrite <- Len. assumption.
      * apply magic_lor6; eapply count_code; eassumption.
    + intros W. inversion W as [|m ts' c sc' sf' lc lf Hts Ws F1 F2 Em E1 E2|]; subst.
      apply IH in Ws. rewrite Ws. cbn [rbind]. rewrite <- Len in F1. destruct (count_fun _ _ _ _ _ F F1) as [<- <-].
      destruct (with_content_spec (N.shiftl sc 6) sf c (count_bound _ _ _ F2)) as (lc' & lf' & Fl & ->).
      destruct (count_fun _ _ _ _ _ F2 Fl) as [<- <-]. do 2 f_equal. apply b2n_inj. unfold b2n at 2. rewrite Em.
      apply magic_lor6; eapply count_code; eassumption.
  - intros e l ts Hl S (Len & IH) b. rewrite value_encode_recs.
    destruct (N.lt_ge_cases (N.of_nat (length l)) 65536) as [C|C].
    2:{ rewrite (size_header_big 4 _ C). cbn [rbind]. split; [intros Q; discriminate Q|]. intros W.
        inversion W as [| |m ts' c sc sf lc lf Hts Ws F1 F2 Em E1 E2]; subst. pose proof (count_bound _ _ _ F1). rewrite <- Len in *. lia. }
    destruct (size_header_spec 4 _ C) as (sc & sf & F & ->). cbn [rbind]. split.
    + intros H. destruct (encode_records l) as [c| |] eqn:E; try discriminate. cbn [rbind] in H.
      destruct (N.lt_ge_cases (N.of_nat (length c)) 65536) as [Cc|Cc]; [|rewrite with_content_big in H by assumption; discriminate].
      destruct (with_content_spec (N.shiftl sc 4) sf c Cc) as (lc & lf & Fl & W). rewrite W in H. inv H.
      apply wire_recs with (sc := sc) (lc := lc); auto.
      * intros ->. destruct l; [contradiction|discriminate Len].
      * now apply IH.
      * rewrite <- Len. assumption.
      * apply magic_lor4; eapply count_code; eassumption.
    + intros W. inversion W as [| |m ts' c sc' sf' lc lf Hts Ws F1 F2 Em E1 E2]; subst.
      apply IH in Ws. rewrite Ws. cbn [rbind]. rewrite <- Len in F1. destruct (count_fun _ _ _ _ _ F F1) as [<- <-].
      destruct (with_content_spec (N.shiftl sc 4) sf c (count_bound _ _ _ F2)) as (lc' & lf' & Fl & ->).
      destruct (count_fun _ _ _ _ _ F2 Fl) as [<- <-]. do 2 f_equal. apply b2n_inj. unfold b2n at 2. rewrite Em.
      apply magic_lor4; eapply count_code; eassumption.
  - split; [reflexivity|]. intros b. cbn [encode_values]. split; intros H; inv H; constructor.
  - intros v t l ts S IHv Sl (Len & IHl). split; [simpl; now rewrite Len|]. intros b. cbn [encode_values]. split.
    + intros H. destruct (value_encode v) as [x| |] eqn:E; try discriminate. cbn [rbind] in H.
      destruct (encode_values l) as [y| |] eqn:E'; try discriminate. cbn [rbind] in H. inv H.
      constructor; [now apply IHv|now apply IHl].
    + intros W. inversion W as [|t' ts' x y Wx Wy E1 E2]; subst. apply IHv in Wx. apply IHl in Wy.
      rewrite Wx. cbn [rbind]. rewrite Wy. reflexivity.
  - intros e k v s ts a b tk tv tsch tt K Sv (IHv1 & IHv2) Ss (IHs1 & IHs2) T l. rewrite record_encode_parts.
    destruct (key_part_wire k tk K) as (K1 & K2). destruct (tail_part_wire _ _ _ _ T) as (T1 & T2).
    destruct (tail_part ts a b) as [tb tbytes] eqn:ET. cbn [fst snd] in T1, T2.
    assert (tb = 0 \/ tb = 4 \/ tb = 6)%N as Htb.
    { rewrite T1. destruct tt as [[ns [p|]]|]; cbn [bit has_sig]; lia. }
    change (N.shiftl 1 5) with 32%N. change (N.shiftl 1 4) with 16%N. split.
    + intros H. destruct (key_part k) as [[kb kbytes]| |] eqn:EK; try discriminate. cbn [rbind] in H.
      destruct (opt_part v _) as [[vb vbytes]| |] eqn:EV; try discriminate. cbn [rbind] in H.
      destruct (opt_part s _) as [[sb sbytes]| |] eqn:ES; try discriminate. cbn [rbind] in H. inv H.
      destruct (K1 _ _ eq_refl) as (-> & KW). destruct (IHv1 _ _ _ EV) as (-> & VW). destruct (IHs1 _ _ _ ES) as (-> & SW).
      constructor; auto; [now apply T2|].
      change Byte.to_N with b2n. rewrite (record_magic _ _ _ _ Htb). lia.
    + intros W. inversion W as [m k' v' s' t' kb vb sb tbs KW VW SW TW Em E1 E2]; subst.
      rewrite (K2 _ KW). cbn [rbind]. rewrite (IHv2 _ _ VW). cbn [rbind]. rewrite (IHs2 _ _ SW). cbn [rbind].
      apply T2 in TW. subst tbytes. do 2 f_equal. apply b2n_inj. unfold b2n at 2. rewrite Em.
      rewrite (record_magic _ _ _ _ Htb). lia.
  - split; [reflexivity|]. intros b. cbn [encode_records]. split; intros H; inv H; constructor.
  - intros v t l ts S IHv Sl (Len & IHl). split; [simpl; now rewrite Len|]. intros b. cbn [encode_records]. split.
    + intros H. destruct (record_encode v) as [x| |] eqn:E; try discriminate. cbn [rbind] in H.
      destruct (encode_records l) as [y| |] eqn:E'; try discriminate. cbn [rbind] in H. inv H.
      constructor; [now apply IHv|now apply IHl].
    + intros W. inversion W as [|t' ts' x y Wx Wy E1 E2]; subst. apply IHv in Wx. apply IHl in Wy.
      rewrite Wx. cbn [rbind]. rewrite Wy. reflexivity.
  - split; [intros w w' b H; inv H; split; [reflexivity|constructor]|]. intros w b H. inv H. reflexivity.
  - intros v E. unfold opt_part. rewrite (empty_value_nil _ E).
    split; [intros w w' b H; inv H; split; [reflexivity|constructor]|]. intros w b H. inv H. reflexivity.
  - intros v t S IH Ne. unfold opt_part. rewrite (says_not_empty _ _ S Ne). split.
    + intros w w' b H. destruct (value_encode v) as [x| |] eqn:E; try discriminate. cbn [rbind] in H. inv H.
      split; [reflexivity|]. constructor. now apply IH.
    + intros w b H. inversion H as [|t' l W]; subst. apply IH in W. rewrite W. reflexivity.
Qed.

(** ** The wire format is unambiguous and prefix-free *)
Lemma app_same_length {A} (a b c d : list A) : a ++ b = c ++ d -> length a = length c -> a = c /\ b = d.
Proof.
  revert c. induction a as [|x a IH]; destruct c as [|y c]; simpl; intros E L; try discriminate; [auto|].
  injection E as -> E. destruct (IH c E) as [-> ->]; auto.
Qed.
Lemma count_prefix n n' c l l' s s' : count_field n c l -> count_field n' c l' -> l ++ s = l' ++ s' ->
  n = n' /\ l = l' /\ s = s'.
Proof.
  intros H H' E. destruct H as [|b Hb|h b Hh]; inversion H' as [E1 E2 E3|b' Hb' E1 E2 E3|h' b' Hh' E1 E2 E3]; subst; simpl in E.
  - auto.
  - injection E as <- <-. auto.
  - injection E as <- <- <-. auto.
Qed.
Lemma count_nonzero n c l : count_field n c l -> (n <> 0 -> 1 <= c)%N.
Proof. intros []; lia. Qed.

Lemma varchar_prefix d l d' l' s s' : varchar_of d l -> varchar_of d' l' -> l ++ s = l' ++ s' -> d = d' /\ l = l' /\ s = s'.
Proof.
  intros (n & (M & _) & ->) (n' & (M' & _) & ->) E. rewrite <- !app_assoc in E.
  destruct (leb128_prefix _ _ M _ _ _ _ M' E) as (-> & L). apply app_inv_head in E.
  apply Nat2N.inj in L. destruct (app_same_length _ _ _ _ E L) as [-> ->]. auto.
Qed.
Lemma varchars_prefix ks ls : Forall2 varchar_of ks ls -> forall ks' ls' s s', Forall2 varchar_of ks' ls' ->
  length ks = length ks' -> concat ls ++ s = concat ls' ++ s' -> ks = ks' /\ concat ls = concat ls' /\ s = s'.
Proof.
  induction 1 as [|k l ks ls V F IH]; intros ks' ls' s s' F' L E.
  - destruct ks'; [|discriminate]. inv F'. auto.
  - destruct F' as [|k' l' ks' ls' V' F']; [discriminate|]. simpl in E, L. rewrite <- !app_assoc in E.
    destruct (varchar_prefix _ _ _ _ _ _ V V' E) as (-> & -> & E').
    destruct (IH _ _ _ _ F' ltac:(lia) E') as (-> & Ec & ->). simpl. rewrite Ec. auto.
Qed.
Lemma key_bytes_prefix ks l ks' l' s s' : key_bytes ks l -> key_bytes ks' l' -> l ++ s = l' ++ s' ->
  ks = ks' /\ l = l' /\ s = s'.
Proof.
  intros (n & ls & (M & _) & F & ->) (n' & ls' & (M' & _) & F' & ->) E. rewrite <- !app_assoc in E.
  destruct (leb128_prefix _ _ M _ _ _ _ M' E) as (-> & L). apply app_inv_head in E. apply Nat2N.inj in L.
  destruct (varchars_prefix _ _ F _ _ _ _ F' L E) as (-> & -> & ->). auto.
Qed.

Scheme wire_mind := Induction for wire Sort Prop
with wires_mind := Induction for wires Sort Prop
with rwire_mind := Induction for rwire Sort Prop
with rwires_mind := Induction for rwires Sort Prop
with owire_mind := Induction for owire Sort Prop.
Combined Scheme wire_combined from wire_mind, wires_mind, rwire_mind, rwires_mind, owire_mind.


Lemma key_wire_prefix k l k' l' s s' : key_wire k l -> key_wire k' l' -> bit k 1 = bit k' 1 -> l ++ s = l' ++ s' ->
  k = k' /\ l = l' /\ s = s'.
Proof.
  destruct k as [ks|], k' as [ks'|]; cbn [bit key_wire]; try discriminate.
  - intros (_ & B & _) (_ & B' & _) _ E. destruct (key_bytes_prefix _ _ _ _ _ _ B B' E) as (-> & -> & ->). auto.
  - intros -> -> _ E. auto.
Qed.
Lemma mod64_inj a b : - 2 ^ 63 <= a < 2 ^ 63 -> - 2 ^ 63 <= b < 2 ^ 63 -> a mod 2 ^ 64 = b mod 2 ^ 64 -> a = b.
Proof.
  intros A B E. rewrite <- (wrap_int64_id a A), <- (wrap_int64_id b B).
  unfold wrap_int64. rewrite <- (Zplus_mod_idemp_l a), <- (Zplus_mod_idemp_l b), E. reflexivity.
Qed.
(** Times in the trees we compare are int64 nanoseconds. *)
Definition tail_ok (t : option (Z * option (Z * Z))) : Prop :=
  match t with Some (ns, _) => - 2 ^ 63 <= ns < 2 ^ 63 | None => True end.
Inductive tree_ok : tree -> Prop :=
| tok_prim d : tree_ok (TPrim d)
| tok_arr l : trees_ok l -> tree_ok (TArr l)
| tok_recs l : rtrees_ok l -> tree_ok (TRecs l)
with trees_ok : list tree -> Prop :=
| toks_nil : trees_ok []
| toks_cons t l : tree_ok t -> trees_ok l -> trees_ok (t :: l)
with rtree_ok : rtree -> Prop :=
| rtok k v s t : otree_ok v -> otree_ok s -> tail_ok t -> rtree_ok (TRec k v s t)
with rtrees_ok : list rtree -> Prop :=
| rtoks_nil : rtrees_ok []
| rtoks_cons t l : rtree_ok t -> rtrees_ok l -> rtrees_ok (t :: l)
with otree_ok : option tree -> Prop :=
| otok_none : otree_ok None
| otok_some t : tree_ok t -> otree_ok (Some t).

Lemma says_ok :
  (forall v t, says v t -> tree_ok t) /\ (forall l ts, says_all l ts -> trees_ok ts) /\
  (forall r t, rsays r t -> rtree_ok t) /\ (forall l ts, rsays_all l ts -> rtrees_ok ts) /\
  (forall o t, osays o t -> otree_ok t).
Proof.
  apply says_combined; intros; constructor; auto.
  match goal with T : tail_says _ _ _ _ |- _ => destruct T; simpl; auto end.
Qed.

Lemma tail_wire_prefix t l t' l' s s' : tail_ok t -> tail_ok t' -> tail_wire t l -> tail_wire t' l' ->
  bit t 1 = bit t' 1 -> bit (has_sig t) 1 = bit (has_sig t') 1 -> l ++ s = l' ++ s' -> t = t' /\ l = l' /\ s = s'.
Proof.
  intros K K' W W' B1 B2 E. destruct t as [[ns [[r q]|]]|], t' as [[ns' [[r' q']|]]|]; try discriminate;
    cbn [tail_wire tail_ok] in *.
  - destruct W as (a & b & c & -> & La & Va & Lb & Vb & Lc & Vc).
    destruct W' as (a' & b' & c' & -> & La' & Va' & Lb' & Vb' & Lc' & Vc').
    rewrite <- !app_assoc in E.
    destruct (app_same_length _ _ _ _ E ltac:(congruence)) as (-> & E1).
    destruct (app_same_length _ _ _ _ E1 ltac:(congruence)) as (-> & E2).
    destruct (app_same_length _ _ _ _ E2 ltac:(congruence)) as (-> & E3).
    assert (ns = ns') as -> by (apply mod64_inj; auto; congruence).
    split; [|auto]. do 3 f_equal; congruence.
  - destruct W as (L & V), W' as (L' & V').
    destruct (app_same_length _ _ _ _ E ltac:(congruence)) as (-> & ->).
    assert (ns = ns') as -> by (apply mod64_inj; auto; congruence). auto.
  - subst. auto.
Qed.

Lemma record_bits {A B C D F} (x : option A) (y : option B) (z : option C) (t : option D) (u : option F)
  {A' B' C' D' F'} (x' : option A') (y' : option B') (z' : option C') (t' : option D') (u' : option F') :
  (bit x 64 + bit y 32 + bit z 16 + bit t 4 + bit u 2 = bit x' 64 + bit y' 32 + bit z' 16 + bit t' 4 + bit u' 2 ->
  bit x 1 = bit x' 1 /\ bit y 1 = bit y' 1 /\ bit z 1 = bit z' 1 /\ bit t 1 = bit t' 1 /\ bit u 1 = bit u' 1)%N.
Proof.
  assert (forall X (o : option X) w, bit o w = w * bit o 1 /\ bit o 1 <= 1)%N as K by (intros X [o|] w; cbn [bit]; lia).
  rewrite (proj1 (K _ x 64%N)), (proj1 (K _ y 32%N)), (proj1 (K _ z 16%N)), (proj1 (K _ t 4%N)), (proj1 (K _ u 2%N)),
    (proj1 (K _ x' 64%N)), (proj1 (K _ y' 32%N)), (proj1 (K _ z' 16%N)), (proj1 (K _ t' 4%N)), (proj1 (K _ u' 2%N)).
  pose proof (proj2 (K _ x 1%N)). pose proof (proj2 (K _ y 1%N)). pose proof (proj2 (K _ z 1%N)).
  pose proof (proj2 (K _ t 1%N)). pose proof (proj2 (K _ u 1%N)). pose proof (proj2 (K _ x' 1%N)).
  pose proof (proj2 (K _ y' 1%N)). pose proof (proj2 (K _ z' 1%N)). pose proof (proj2 (K _ t' 1%N)).
  pose proof (proj2 (K _ u' 1%N)). clear K. lia.
Qed.

Lemma wire_prefix_free :
  (forall t l, wire t l -> tree_ok t -> forall t' l' s s', tree_ok t' -> wire t' l' -> l ++ s = l' ++ s' -> t = t' /\ l = l' /\ s = s') /\
  (forall ts l, wires ts l -> trees_ok ts -> forall ts' l' s s', trees_ok ts' -> wires ts' l' -> length ts = length ts' ->
     l ++ s = l' ++ s' -> ts = ts' /\ l = l' /\ s = s') /\
  (forall t l, rwire t l -> rtree_ok t -> forall t' l' s s', rtree_ok t' -> rwire t' l' -> l ++ s = l' ++ s' -> t = t' /\ l = l' /\ s = s') /\
  (forall ts l, rwires ts l -> rtrees_ok ts -> forall ts' l' s s', rtrees_ok ts' -> rwires ts' l' -> length ts = length ts' ->
     l ++ s = l' ++ s' -> ts = ts' /\ l = l' /\ s = s') /\
  (forall o l, owire o l -> otree_ok o -> forall o' l' s s', otree_ok o' -> owire o' l' -> bit o 1 = bit o' 1 ->
     l ++ s = l' ++ s' -> o = o' /\ l = l' /\ s = s').
Proof.
  assert (forall A (l : list A), l <> [] -> N.of_nat (length l) <> 0%N) as Ne
    by (intros A [|a l] H; [contradiction|simpl; lia]).
  apply wire_combined.
  - intros m d lc lf F Em _ t' l' s s' _ W' E. pose proof (count_code _ _ _ F).
    inversion W' as [m' d' lc' lf' F' Em' E1 E2|m' ts' c' sc' sf' lc' lf' Hn' Ws' F1' F2' Em' E1 E2|m' ts' c' sc' sf' lc' lf' Hn' Ws' F1' F2' Em' E1 E2]; subst t' l'.
    + simpl in E. injection E as <- E. rewrite Em in Em'. subst lc'. rewrite <- !app_assoc in E.
      destruct (count_prefix _ _ _ _ _ _ _ F F' E) as (L & -> & E'). apply Nat2N.inj in L.
      destruct (app_same_length _ _ _ _ E' L) as [-> ->]. auto.
    + simpl in E. injection E as <- E. exfalso. pose proof (count_nonzero _ _ _ F1' (Ne _ _ Hn')). lia.
    + simpl in E. injection E as <- E. exfalso. pose proof (count_nonzero _ _ _ F1' (Ne _ _ Hn')). lia.
  - intros m ts c sc sf lc lf Hn Ws IH F1 F2 Em Ok0 t' l' s s' Ok' W' E.
    pose proof (count_code _ _ _ F1). pose proof (count_code _ _ _ F2). pose proof (count_nonzero _ _ _ F1 (Ne _ _ Hn)).
    inversion W' as [m' d' lc' lf' F' Em' E1 E2|m' ts' c' sc' sf' lc' lf' Hn' Ws' F1' F2' Em' E1 E2|m' ts' c' sc' sf' lc' lf' Hn' Ws' F1' F2' Em' E1 E2]; subst t' l';
      simpl in E; injection E as <- E.
    + exfalso. pose proof (count_code _ _ _ F'). lia.
    + pose proof (count_code _ _ _ F1'). pose proof (count_code _ _ _ F2').
      assert (sc' = sc) as -> by lia. assert (lc' = lc) as -> by lia. rewrite <- !app_assoc in E.
      destruct (count_prefix _ _ _ _ _ _ _ F1 F1' E) as (L1 & -> & E').
      destruct (count_prefix _ _ _ _ _ _ _ F2 F2' E') as (L2 & -> & E''). apply Nat2N.inj in L1.
      inv Ok0. inv Ok'. destruct (IH ltac:(assumption) ts' c' s s' ltac:(assumption) Ws' L1 E'') as (-> & -> & ->). auto.
    + exfalso. pose proof (count_code _ _ _ F1'). pose proof (count_code _ _ _ F2'). lia.
  - intros m ts c sc sf lc lf Hn Ws IH F1 F2 Em Ok0 t' l' s s' Ok' W' E.
    pose proof (count_code _ _ _ F1). pose proof (count_code _ _ _ F2). pose proof (count_nonzero _ _ _ F1 (Ne _ _ Hn)).
    inversion W' as [m' d' lc' lf' F' Em' E1 E2|m' ts' c' sc' sf' lc' lf' Hn' Ws' F1' F2' Em' E1 E2|m' ts' c' sc' sf' lc' lf' Hn' Ws' F1' F2' Em' E1 E2]; subst t' l';
      simpl in E; injection E as <- E.
    + exfalso. pose proof (count_code _ _ _ F'). lia.
    + exfalso. pose proof (count_nonzero _ _ _ F1' (Ne _ _ Hn')). pose proof (count_code _ _ _ F1'). pose proof (count_code _ _ _ F2'). lia.
    + pose proof (count_code _ _ _ F1'). pose proof (count_code _ _ _ F2').
      assert (sc' = sc) as -> by lia. assert (lc' = lc) as -> by lia. rewrite <- !app_assoc in E.
      destruct (count_prefix _ _ _ _ _ _ _ F1 F1' E) as (L1 & -> & E').
      destruct (count_prefix _ _ _ _ _ _ _ F2 F2' E') as (L2 & -> & E''). apply Nat2N.inj in L1.
      inv Ok0. inv Ok'. destruct (IH ltac:(assumption) ts' c' s s' ltac:(assumption) Ws' L1 E'') as (-> & -> & ->). auto.
  - intros _ ts' l' s s' _ W' L E. destruct ts'; [|discriminate]. inv W'. auto.
  - intros t ts a b W IH Ws IHs Ok0 ts' l' s s' Ok' W' L E.
    inversion W' as [|t' ts0 a' b' Wa Wb E1 E2]; subst; [discriminate|]. inversion Ok0 as [|x1 x2 O1 O2]; subst.
    inversion Ok' as [|y1 y2 O1' O2']; subst. rewrite <- !app_assoc in E.
    destruct (IH O1 _ _ _ _ O1' Wa E) as (-> & -> & E').
    destruct (IHs O2 _ _ _ _ O2' Wb ltac:(simpl in L; lia) E') as (-> & -> & ->). auto.
  - intros m k v s t kb vb sb tb KW VW IHv SW IHs TW Em Ok0 t' l' s0 s0' Ok' W' E.
    inversion W' as [m' k' v' s' t0 kb' vb' sb' tb' KW' VW' SW' TW' Em' E1 E2]; subst.
    simpl in E. injection E as <- E. rewrite Em in Em'. apply record_bits in Em'. destruct Em' as (B1 & B2 & B3 & B4 & B5).
    rewrite <- !app_assoc in E. inversion Ok0 as [k1 v1 s1 t1 O1 O2 O3]; subst. inversion Ok' as [k2 v2 s2 t2 O1' O2' O3']; subst.
    destruct (key_wire_prefix _ _ _ _ _ _ KW KW' B1 E) as (-> & -> & E').
    destruct (IHv O1 _ _ _ _ O1' VW' B2 E') as (-> & -> & E'').
    destruct (IHs O2 _ _ _ _ O2' SW' B3 E'') as (-> & -> & E3).
    destruct (tail_wire_prefix _ _ _ _ _ _ O3 O3' TW TW' B4 B5 E3) as (-> & -> & ->). auto.
  - intros _ ts' l' s s' _ W' L E. destruct ts'; [|discriminate]. inv W'. auto.
  - intros t ts a b W IH Ws IHs Ok0 ts' l' s s' Ok' W' L E.
    inversion W' as [|t' ts0 a' b' Wa Wb E1 E2]; subst; [discriminate|]. inversion Ok0 as [|x1 x2 O1 O2]; subst.
    inversion Ok' as [|y1 y2 O1' O2']; subst. rewrite <- !app_assoc in E.
    destruct (IH O1 _ _ _ _ O1' Wa E) as (-> & -> & E').
    destruct (IHs O2 _ _ _ _ O2' Wb ltac:(simpl in L; lia) E') as (-> & -> & ->). auto.
  - intros _ o' l' s s' _ W' B E. inv W'; [auto|discriminate].
  - intros t l W IH Ok0 o' l' s s' Ok' W' B E. inversion W' as [|t' l0 W0]; subst; [discriminate|].
    inversion Ok0 as [|x1 O1]; subst. inversion Ok' as [|y1 O1']; subst.
    destruct (IH O1 _ _ _ _ O1' W0 E) as (-> & -> & ->). auto.
Qed.
