(** * Lemmas about schemes. *)
From Coq Require Import List NArith ZArith Bool Lia.
From Coq Require Import Strings.Byte.
From Verif Require Import Base BaseProofs VarintModel VarintSpec VarintProofs KeyModel KeyProofs SchemeModel SchemeSpec.
Import ListNotations.
Local Open Scope Z_scope.

Definition osized (o : gslice) : Prop := zlen (gcontent o) + 10 < 2 ^ 63.

(** A scheme whose lengths are machine integers. *)
Definition scheme_sized (s : scheme) : Prop :=
  osized (s_domain s) /\ osized (s_tablet s) /\
  match s_buckets s with Some bs => Forall osized bs /\ zlen bs < 2 ^ 63 | None => True end.

Lemma opt_varchar_exists o : osized o -> exists l, opt_varchar o l.
Proof.
  intros H. destruct o as [d|]; simpl; [|eauto].
  destruct (encode_varchar_of d H) as (l & _ & V). eauto.
Qed.

Lemma varchars_exist bs : Forall osized bs -> exists ls, Forall2 varchar_of (map content bs) ls.
Proof.
  induction 1 as [|b bs H F (ls & IH)]; [exists []; constructor|].
  destruct (encode_varchar_of (gcontent b) H) as (l & _ & V). exists (l :: ls). now constructor.
Qed.

Lemma opt_buckets_exists s : scheme_sized s -> exists l, opt_buckets (s_buckets s) l.
Proof.
  intros (_ & _ & H). destruct (s_buckets s) as [bs|]; simpl; [|eauto]. destruct H as [F L].
  destruct (varchars_exist bs F) as (ls & V).
  destruct (encode_uvarint64_minimal (N.of_nat (length bs)) ltac:(unfold zlen in L; lia)) as (c & _ & M).
  exists (c ++ concat ls), c, ls. auto.
Qed.

Lemma scheme_bytes_exists s : scheme_sized s -> exists l, scheme_bytes (s_domain s) (s_tablet s) (s_buckets s) l.
Proof.
  intros H. destruct (opt_buckets_exists s H) as (bl & B). destruct H as (D & T & _).
  destruct (opt_varchar_exists _ D) as (dl & Dl). destruct (opt_varchar_exists _ T) as (tl & Tl).
  exists (x00 :: dl ++ tl ++ bl), dl, tl, bl. auto.
Qed.

Lemma encode_varchar_is d l : zlen d + 10 < 2 ^ 63 -> varchar_of d l -> encode_varchar d = Ok l.
Proof. intros H V. destruct (encode_varchar_of d H) as (l' & E & V'). rewrite E. f_equal. eapply varchar_of_fun; eauto. Qed.

Lemma encode_uvarint64_is v l : (v < 2 ^ 64)%N -> uvarint_minimal l v -> encode_uvarint64 v = Ok l.
Proof. intros H V. destruct (encode_uvarint64_minimal v H) as (l' & E & V'). rewrite E. f_equal. eapply uvarint_minimal_fun; eauto. Qed.

Lemma limit_next a b : zlen a <= max_scheme_length \/ True ->
  (let? x := scheme_limit a in scheme_limit (x ++ b)) = scheme_limit (a ++ b).
Proof.
  intros _. unfold scheme_limit at 1. destruct (Z.ltb_spec max_scheme_length (zlen a)) as [H|H]; cbn [rbind]; [|reflexivity].
  unfold scheme_limit. rewrite zlen_app. pose proof (zlen_nonneg b).
  destruct (Z.ltb_spec max_scheme_length (zlen a + zlen b)); [reflexivity|lia].
Qed.

Lemma encode_buckets_spec bs ls : Forall2 varchar_of (map content bs) ls -> Forall osized bs ->
  forall buf, (let? b := scheme_limit buf in encode_buckets bs b) = scheme_limit (buf ++ concat ls).
Proof.
  revert ls. induction bs as [|b bs IH]; intros ls F S buf; simpl in F; inversion F as [|b' l bs' ls' Vb F' E1 E2]; subst.
  - simpl. rewrite app_nil_r. unfold scheme_limit. destruct (_ <? _); reflexivity.
  - inversion S as [|b' bs' Sb Sbs]; subst. cbn [encode_buckets concat].
    change (content b) with (gcontent b) in Vb. rewrite (encode_varchar_is _ _ Sb Vb).
    rewrite app_assoc, <- (IH ls' F' Sbs (buf ++ l)). rewrite <- (limit_next buf l) by auto.
    destruct (scheme_limit buf); reflexivity.
Qed.

Lemma scheme_layout s l : scheme_sized s -> scheme_bytes (s_domain s) (s_tablet s) (s_buckets s) l ->
  encode_scheme s = if max_scheme_length <? zlen l then Err else Ok l.
Proof.
  intros (D & T & B) (dl & tl & bl & Hd & Ht & Hb & ->).
  transitivity (scheme_limit ([x00] ++ dl ++ tl ++ bl)); [|reflexivity].
  unfold encode_scheme.
  assert (match s_domain s with
          | Some d => let? e := encode_varchar d in scheme_limit ([x00] ++ e)
          | None => Ok [x00]
          end = scheme_limit ([x00] ++ dl)) as ->.
  { destruct (s_domain s) as [d|]; simpl in Hd; [|subst dl; reflexivity].
    rewrite (encode_varchar_is d dl D Hd). reflexivity. }
  assert (forall r, r = scheme_limit ([x00] ++ dl) ->
          (let? buf := r in
           match s_tablet s with
           | Some t => let? e := encode_varchar t in scheme_limit (buf ++ e)
           | None => Ok buf
           end) = scheme_limit (([x00] ++ dl) ++ tl)) as Q.
  { intros r ->. destruct (s_tablet s) as [t|]; simpl in Ht.
    - rewrite (encode_varchar_is t tl T Ht). cbn [rbind]. apply limit_next. auto.
    - subst tl. rewrite (app_nil_r ([x00] ++ dl)). destruct (scheme_limit ([x00] ++ dl)); reflexivity. }
  specialize (Q _ eq_refl).
  assert (forall A (r : res bytes) f (k : bytes -> res A), (let? x := r in let? y := f x in k y) = (let? y := (let? x := r in f x) in k y)) as As.
  { intros. destruct r; reflexivity. }
  rewrite As, Q. rewrite !app_assoc. clear Q As.
  destruct (s_buckets s) as [bs|]; simpl in Hb.
  - destruct B as [F L]. destruct Hb as (c & ls & M & V & ->).
    rewrite (encode_uvarint64_is (N.of_nat (length bs)) c ltac:(unfold zlen in L; lia) M). cbn [rbind].
    rewrite (app_assoc _ c). rewrite <- (encode_buckets_spec bs ls V F).
    rewrite <- (limit_next (([x00] ++ dl) ++ tl) c) by auto.
    destruct (scheme_limit (([x00] ++ dl) ++ tl)); reflexivity.
  - subst bl. rewrite app_nil_r. destruct (scheme_limit (([x00] ++ dl) ++ tl)); reflexivity.
Qed.

(** ** Decoding *)
Lemma has_bit b bit : bit <> 0%N -> negb (N.eqb (N.lor (b2n b) bit) 0) = true.
Proof.
  intros H. destruct (N.eqb_spec (N.lor (b2n b) bit) 0) as [E|E]; [|reflexivity].
  apply N.lor_eq_0_iff in E. tauto.
Qed.

Lemma decode_scheme_eq b0 rest : decode_scheme (b0 :: rest) =
  let? (d, l1) := decode_varchar rest in
  let? r2 := go_from (b0 :: rest) (1 + l1) in
  let? (t, l2) := decode_varchar r2 in
  let? r3 := go_from (b0 :: rest) (1 + l1 + l2) in
  let? (n, l3) := decode_uvarint64 r3 in
  if make_slices_ok n
  then let? (bs, pos) := decode_subkeys (N.to_nat n) (b0 :: rest) (1 + l1 + l2 + l3) in
       Ok (mkScheme (Some d) (Some t) (Some bs), pos)
  else Panic.
Proof.
  unfold decode_scheme. change (go_index (b0 :: rest) 0) with (Ok b0). cbn [rbind].
  rewrite !has_bit by discriminate.
  replace (go_from (b0 :: rest) 1) with (Ok rest).
  2:{ symmetry. apply (go_from_app [b0] rest). }
  cbn [rbind]. destruct (decode_varchar rest) as [[d l1]| |]; cbn [rbind]; [|reflexivity..].
  destruct (go_from (b0 :: rest) (1 + l1)) as [r2| |]; cbn [rbind]; [|reflexivity..].
  destruct (decode_varchar r2) as [[t l2]| |]; cbn [rbind]; [|reflexivity..].
  destruct (go_from (b0 :: rest) (1 + l1 + l2)) as [r3| |]; cbn [rbind]; [|reflexivity..].
  destruct (decode_uvarint64 r3) as [[n l3]| |]; cbn [rbind]; [|reflexivity..].
  destruct (make_slices_ok n); [|reflexivity].
  destruct (decode_subkeys _ _ _) as [[bs p]| |]; reflexivity.
Qed.

Lemma varchar_content_length pre suf v c n : uvarint_numeral pre v -> decode_varchar (pre ++ suf) = Ok (c, n) ->
  N.of_nat (length c) = v.
Proof.
  intros U H. rewrite (decode_varchar_header _ _ _ U) in H.
  destruct (_ <=? _); [discriminate|]. destruct (Z.ltb_spec (zlen suf) (Z.of_N v)) as [C|C]; [discriminate|].
  apply (f_equal (fun r => match r with Ok (c, _) => length c | _ => 0%nat end)) in H. cbv beta iota in H.
  rewrite firstn_length in H. unfold zlen in C. lia.
Qed.

(** Decoding domain and tablet, then whatever follows. *)
Lemma decode_fields d t dl tl b0 bl : zlen d + 10 < 2 ^ 63 -> zlen t + 10 < 2 ^ 63 ->
  decode_varchar (dl ++ tl ++ bl) = Ok (d, zlen dl) -> decode_varchar (tl ++ bl) = Ok (t, zlen tl) ->
  decode_scheme (b0 :: dl ++ tl ++ bl) =
  let? (n, l3) := decode_uvarint64 bl in
  if make_slices_ok n
  then let? (bs, pos) := decode_subkeys (N.to_nat n) (b0 :: dl ++ tl ++ bl) (1 + zlen dl + zlen tl + l3) in
       Ok (mkScheme (Some d) (Some t) (Some bs), pos)
  else Panic.
Proof.
  intros D T Hd Ht. rewrite decode_scheme_eq, Hd. cbn [rbind].
  change (b0 :: dl ++ tl ++ bl) with ((b0 :: dl) ++ tl ++ bl).
  replace (1 + zlen dl) with (zlen (b0 :: dl)) by apply zlen_cons.
  rewrite go_from_app. cbn [rbind]. rewrite Ht. cbn [rbind].
  rewrite app_assoc. rewrite <- zlen_app, go_from_app. cbn [rbind]. reflexivity.
Qed.

Lemma decode_buckets_ok bs c ls pre : uvarint_minimal c (N.of_nat (length bs)) ->
  Forall2 varchar_of (map content bs) ls -> Forall osized bs -> zlen (c ++ concat ls) <= max_scheme_length ->
  decode_uvarint64 (c ++ concat ls) = Ok (N.of_nat (length bs), zlen c) /\
  make_slices_ok (N.of_nat (length bs)) = true /\
  decode_subkeys (length bs) (pre ++ c ++ concat ls) (zlen (pre ++ c)) =
    Ok (map Some (map content bs), zlen (pre ++ c ++ concat ls)).
Proof.
  intros M V S L. unfold max_scheme_length in L.
  assert (length bs <= length (concat ls))%nat as Len.
  { rewrite <- (map_length content bs). now apply concat_length_ge. }
  rewrite zlen_app in L. unfold zlen in L.
  split; [|split].
  - rewrite (decode_uvarint64_header c (concat ls) _ (minimal_numeral _ _ M ltac:(lia))).
    destruct (_ && _) eqn:E; [|reflexivity]. unfold zlen in E. lia.
  - unfold make_slices_ok. apply N.leb_le. lia.
  - rewrite <- (map_length content bs). rewrite app_assoc.
    pose proof (decode_subkeys_ok (map content bs) ls V) as Q.
    assert (Forall sized (map content bs)) as Fs.
    { clear -S. induction S; simpl; constructor; auto. }
    specialize (Q Fs (pre ++ c) []). rewrite app_nil_r in Q. rewrite Q. do 2 f_equal. now rewrite <- zlen_app.
Qed.

Lemma contents_some l : map content (map Some l) = l.
Proof. rewrite map_map. apply map_id. Qed.

(** The fields agree, nil counting as empty. *)
Definition same_scheme (s s' : scheme) : Prop :=
  content (s_domain s') = content (s_domain s) /\ content (s_tablet s') = content (s_tablet s) /\
  bucket_contents (s_buckets s') = bucket_contents (s_buckets s).

(** Every nil field is followed only by empty ones. *)
Definition nil_last (s : scheme) : Prop :=
  (s_domain s <> None \/ (content (s_tablet s) = [] /\ bucket_contents (s_buckets s) = [])) /\
  (s_tablet s <> None \/ bucket_contents (s_buckets s) = []).

Lemma decode_varchar_nil_byte suf : decode_varchar (x00 :: suf) = Ok ([], 1).
Proof.
  assert (uvarint_numeral [x00] 0%N) as U.
  { split; [exact (leb_last x00 ltac:(reflexivity))|]. split; [simpl; lia|reflexivity]. }
  change (x00 :: suf) with ([x00] ++ suf). rewrite (decode_varchar_header [x00] suf 0%N U).
  destruct (Z.ltb_spec (zlen suf) (Z.of_N 0)) as [H|H]; [pose proof (zlen_nonneg suf); lia|]. reflexivity.
Qed.

Lemma varchar_of_empty l : varchar_of [] l -> l = [x00].
Proof.
  intros V. destruct (encode_varchar_of [] ltac:(reflexivity)) as (l' & E & V').
  transitivity l'; [eapply varchar_of_fun; eauto|]. assert (encode_varchar [] = Ok [x00]) by reflexivity. congruence.
Qed.

Lemma numeral_zero l : uvarint_minimal l 0%N -> l = [x00].
Proof.
  intros V. destruct (encode_uvarint64_minimal 0%N ltac:(reflexivity)) as (l' & E & V').
  transitivity l'; [eapply uvarint_minimal_fun; eauto|]. assert (encode_uvarint64 0 = Ok [x00]) by reflexivity. congruence.
Qed.

Lemma contents_nil bs : map content bs = [] -> bs = [].
Proof. destruct bs; [reflexivity|discriminate]. Qed.

(** An optional field followed by [rest] decodes to its content when it is present, or when nothing but zero bytes can follow. *)
Lemma opt_varchar_decode o l suf : osized o -> opt_varchar o l -> o <> None ->
  decode_varchar (l ++ suf) = Ok (content o, zlen l).
Proof.
  intros S V N. destruct o as [d|]; [|congruence]. simpl in V. simpl. now apply varchar_of_decode.
Qed.

Lemma decode_scheme_present s dl tl bl : scheme_sized s ->
  opt_varchar (s_domain s) dl -> opt_varchar (s_tablet s) tl -> opt_buckets (s_buckets s) bl ->
  zlen (x00 :: dl ++ tl ++ bl) <= max_scheme_length ->
  s_domain s <> None -> s_tablet s <> None ->
  decode_scheme (x00 :: dl ++ tl ++ bl) =
    Ok (mkScheme (Some (content (s_domain s))) (Some (content (s_tablet s))) (Some (map Some (bucket_contents (s_buckets s)))),
        zlen (x00 :: dl ++ tl ++ bl)).
Proof.
  intros (D & T & B) Hd Ht Hb L Nd Nt.
  rewrite (decode_fields (content (s_domain s)) (content (s_tablet s)) dl tl x00 bl D T
             (opt_varchar_decode _ _ _ D Hd Nd) (opt_varchar_decode _ _ _ T Ht Nt)).
  destruct (s_buckets s) as [bs|]; simpl in Hb.
  - destruct B as [F Lb]. destruct Hb as (c & ls & M & V & ->).
    destruct (decode_buckets_ok bs c ls (x00 :: dl ++ tl) M V F) as (E1 & E2 & E3).
    { rewrite zlen_cons, !zlen_app in L. rewrite zlen_app. pose proof (zlen_nonneg dl). pose proof (zlen_nonneg tl). lia. }
    rewrite E1. cbn [rbind]. rewrite E2, Nat2N.id.
    replace (1 + zlen dl + zlen tl + zlen c) with (zlen ((x00 :: dl ++ tl) ++ c)) by (rewrite zlen_app, zlen_cons, zlen_app; lia).
    replace (x00 :: dl ++ tl ++ c ++ concat ls) with ((x00 :: dl ++ tl) ++ c ++ concat ls)
      by (cbn [app]; now rewrite <- app_assoc).
    rewrite E3. reflexivity.
  - subst bl. rewrite app_nil_r. change (decode_uvarint64 []) with (Ok (0%N, 0)). cbn [rbind make_slices_ok decode_subkeys N.to_nat].
    change (make_slices_ok 0) with true. cbn [rbind]. cbv iota. rewrite zlen_cons, zlen_app. do 2 f_equal. lia.
Qed.

Lemma scheme_roundtrip_iff s l : scheme_sized s -> encode_scheme s = Ok l ->
  ((exists s' n, decode_scheme l = Ok (s', n) /\ same_scheme s s') <-> nil_last s).
Proof.
  intros S E. destruct (scheme_bytes_exists s S) as (l' & SB). rewrite (scheme_layout s l' S SB) in E.
  destruct (Z.ltb_spec max_scheme_length (zlen l')) as [C|C]; [discriminate|].
  assert (l' = l) by congruence. subst l'. clear E. destruct SB as (dl & tl & bl & Hd & Ht & Hb & ->).
  destruct (s_domain s) as [d|] eqn:Ed; [destruct (s_tablet s) as [t|] eqn:Et|].
  - (* both present *)
    split; [intros _; split; left; congruence|]. intros _. rewrite <- Ed in Hd. rewrite <- Et in Ht.
    rewrite (decode_scheme_present s dl tl bl S Hd Ht Hb C) by congruence. do 2 eexists. split; [reflexivity|].
    split; [reflexivity|]. split; [reflexivity|]. simpl. apply contents_some.
  - (* no tablet *)
    simpl in Ht. subst tl. destruct S as (D & T & B). rewrite Ed in D. cbn [app].
    pose proof (opt_varchar_decode (Some d) dl bl D Hd ltac:(discriminate)) as Hdec. cbn [content] in Hdec.
    destruct (s_buckets s) as [bs|] eqn:Eb; simpl in Hb.
    + destruct Hb as (c & ls & M & V & ->). destruct B as [F Lb].
      assert (uvarint_numeral c (N.of_nat (length bs))) as U by (apply minimal_numeral; [assumption|unfold zlen in Lb; lia]).
      split.
      * intros (s' & n & E & (Q1 & Q2 & Q3)). rewrite Et in Q2. split; [left; congruence|right]. rewrite Eb.
        rewrite decode_scheme_eq, Hdec in E. cbn [rbind] in E.
        change (x00 :: dl ++ c ++ concat ls) with ((x00 :: dl) ++ c ++ concat ls) in E.
        replace (1 + zlen dl) with (zlen (x00 :: dl)) in E by apply zlen_cons.
        rewrite go_from_app in E. cbn [rbind] in E.
        destruct (decode_varchar (c ++ concat ls)) as [[t l2]| |] eqn:E2; cbn [rbind] in E; [|discriminate..].
        apply varchar_content_length with (1 := U) in E2.
        apply rbind_ok in E. destruct E as (r3 & _ & E). apply rbind_ok in E. destruct E as ([n3 l3] & _ & E).
        destruct (make_slices_ok n3); [|discriminate]. apply rbind_ok in E. destruct E as ([bs' p] & _ & E).
        assert (s' = mkScheme (Some d) (Some t) (Some bs')) by congruence. subst s'. simpl in Q2. subst t.
        simpl in E2. destruct bs; [reflexivity|simpl in E2; lia].
      * intros (_ & [N|N]); [congruence|]. rewrite Eb in N. simpl in N. apply contents_nil in N. subst bs.
        simpl in V. inv V. simpl in M. apply numeral_zero in M. subst c. cbn [concat app].
        pose proof (decode_fields d [] dl [x00] x00 [] D ltac:(reflexivity) Hdec (decode_varchar_nil_byte [])) as Q.
        cbn [app] in Q. rewrite Q. do 2 eexists. split; [reflexivity|]. unfold same_scheme. rewrite Ed, Et, Eb. cbn. auto.
    + subst bl. rewrite app_nil_r in *.
      split; [intros _; split; [left; congruence|right; now rewrite Eb]|]. intros _.
      assert (decode_varchar [] = Ok ([], zlen (@nil byte))) as Hn by reflexivity.
      pose proof (decode_fields d [] dl [] x00 [] D ltac:(reflexivity)) as Q. cbn [app] in Q. rewrite app_nil_r in Q.
      specialize (Q Hdec Hn). rewrite Q. do 2 eexists. split; [reflexivity|]. unfold same_scheme. rewrite Ed, Et, Eb. cbn. auto.
  - (* no domain *)
    simpl in Hd. subst dl. cbn [app]. destruct S as (D & T & B).
    split.
    + intros (s' & n & E & (Q1 & Q2 & Q3)). rewrite Ed in Q1. simpl in Q1.
      rewrite decode_scheme_eq in E. apply rbind_ok in E. destruct E as ([d l1] & E1 & E).
      apply rbind_ok in E. destruct E as (r2 & G2 & E). apply rbind_ok in E. destruct E as ([t l2] & E2 & E).
      apply rbind_ok in E. destruct E as (r3 & _ & E). apply rbind_ok in E. destruct E as ([n3 l3] & _ & E).
      destruct (make_slices_ok n3); [|discriminate]. apply rbind_ok in E. destruct E as ([bs' p] & _ & E).
      assert (s' = mkScheme (Some d) (Some t) (Some bs')) by congruence. subst s'. clear E. simpl in Q1, Q2, Q3. subst d.
      destruct (s_tablet s) as [t0|] eqn:Et.
      * simpl in Ht. pose proof (varchar_of_decode t0 tl bl T Ht) as Hdec. rewrite Hdec in E1.
        assert (t0 = [] /\ l1 = zlen tl) as [-> ->] by (split; congruence). simpl in Ht.
        pose proof (varchar_of_empty _ Ht). subst tl. cbn [app] in G2.
        change (x00 :: x00 :: bl) with ([x00; x00] ++ bl) in G2.
        change (1 + zlen [x00]) with (zlen [x00; x00]) in G2. rewrite go_from_app in G2. inv G2.
        assert (bucket_contents (s_buckets s) = []) as Z.
        { destruct (s_buckets s) as [bs|]; [|reflexivity]. destruct Hb as (c & ls & M & V & ->). destruct B as [F Lb].
          assert (uvarint_numeral c (N.of_nat (length bs))) as U by (apply minimal_numeral; [assumption|unfold zlen in Lb; lia]).
          apply varchar_content_length with (1 := U) in E2.
          destruct bs; [reflexivity|simpl in E2; lia]. }
        split; right; [rewrite Et; auto|assumption].
      * simpl in Ht. subst tl. cbn [app] in E1.
        assert (bucket_contents (s_buckets s) = []) as Z.
        { destruct (s_buckets s) as [bs|]; [|reflexivity]. destruct Hb as (c & ls & M & V & ->). destruct B as [F Lb].
          assert (uvarint_numeral c (N.of_nat (length bs))) as U by (apply minimal_numeral; [assumption|unfold zlen in Lb; lia]).
          apply varchar_content_length with (1 := U) in E1.
          destruct bs; [reflexivity|simpl in E1; lia]. }
        split; right; [rewrite Et; auto|assumption].
    + intros ([N|[Nt Nb]] & _); [congruence|].
      assert (tl = [] \/ tl = [x00]) as Htl.
      { destruct (s_tablet s) as [t0|]; simpl in *; [|auto]. subst t0. right. now apply varchar_of_empty. }
      assert (bl = [] \/ bl = [x00]) as Hbl.
      { destruct (s_buckets s) as [bs|]; simpl in *; [|auto]. apply contents_nil in Nb. subst bs.
        destruct Hb as (c & ls & M & V & ->). simpl in V. inv V. simpl in M. apply numeral_zero in M. subst c. now right. }
      exists (mkScheme (Some []) (Some []) (Some [])), (zlen (x00 :: tl ++ bl)).
      split; [destruct Htl as [-> | ->], Hbl as [-> | ->]; reflexivity|].
      unfold same_scheme. rewrite Ed, Nt, Nb. cbn. auto.
Qed.

(** Re-encoding the copy of a parsed scheme. *)
Lemma decode_subkeys_some n buf : forall pos ks p, decode_subkeys n buf pos = Ok (ks, p) ->
  exists l, ks = map Some l.
Proof.
  induction n as [|n IH]; intros pos ks p H; cbn [decode_subkeys] in H; [inv H; exists []; reflexivity|].
  apply rbind_ok in H. destruct H as (r & _ & H). apply rbind_ok in H. destruct H as ([k l] & _ & H).
  apply rbind_ok in H. destruct H as ([ks' p'] & Q & H). destruct (IH _ _ _ Q) as (l' & ->). inv H.
  exists (k :: l'). reflexivity.
Qed.

Lemma decode_scheme_present_fields buf s n : decode_scheme buf = Ok (s, n) ->
  exists d t bs, s = mkScheme (Some d) (Some t) (Some (map Some bs)).
Proof.
  intros E. destruct buf as [|b rest]; [discriminate|].
  rewrite decode_scheme_eq in E. apply rbind_ok in E. destruct E as ([d l1] & E1 & E).
  apply rbind_ok in E. destruct E as (r2 & G2 & E). apply rbind_ok in E. destruct E as ([t l2] & E2 & E).
  apply rbind_ok in E. destruct E as (r3 & _ & E). apply rbind_ok in E. destruct E as ([n3 l3] & _ & E).
  destruct (make_slices_ok n3); [|discriminate]. apply rbind_ok in E. destruct E as ([bs' p] & Q & E).
  destruct (decode_subkeys_some _ _ _ _ _ Q) as (l & ->). exists d, t, l. inv E. reflexivity.
Qed.
