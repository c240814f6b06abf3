(** * Theorems about objects that share memory, over all histories of calls. *)
From Coq Require Import List NArith ZArith Bool Lia.
From Coq Require Import Strings.Byte.
From Verif Require Import Base BaseProofs VarintModel KeyModel ValueModel ValueProofs ValueCopy ObjModel ObjSpec ObjProofs
  ObjHistory ObjFrame ObjCopy.
Import ListNotations.

(** ** C77: Encode writes the encoding of the present contents *)

(** In every reachable heap, for every value whose references end: Encode returns what the encoder of plain values says
    about the contents at this moment, Buf is that encoding, no contents change, and no buffer of another object gets
    out of date. *)
Theorem C77_encode_value : forall (ops : list op) (h : heap) (a : ref) (n : nat) (v : value),
  run empty_heap ops = Some h -> vview n h a = Some v ->
  exists h' r, venc n h a = Some (h', r) /\ outcome r = outcome (value_encode v) /\
    (forall b, value_encode v = Ok b -> exists g, buf_of h' a = Ok g /\ gcontent g = b) /\
    same h h' /\ (forall x, get h' x = get h x \/ current h' x).
Proof.
  intros ops h a n v R V. pose proof (run_sound _ _ _ empty_sound R) as S. destruct (enc_correct n) as ((A & B & C) & _).
  destruct (B h a v S V) as (h' & r & E & Er). destruct (A _ _ _ _ S E) as ((Sm & _ & Cu) & K). exists h', r.
  split; [assumption|]. split; [subst r; destruct (value_encode v); reflexivity|]. split; [|now split].
  intros b Eb. rewrite Eb in Er. cbn [rmap rbind] in Er. destruct (K Er) as (w & b' & g & Vw & Cw & Bg & Eg).
  rewrite (C _ _ _ V) in Vw. inv Vw. exists g. split; [assumption|congruence].
Qed.
Print Assumptions C77_encode_value.
Theorem C77_encode_record : forall (ops : list op) (h : heap) (a : ref) (n : nat) (v : record),
  run empty_heap ops = Some h -> rview n h a = Some v ->
  exists h' r, renc n h a = Some (h', r) /\ outcome r = outcome (record_encode v) /\
    (forall b, record_encode v = Ok b -> exists g, buf_of h' a = Ok g /\ gcontent g = b) /\
    same h h' /\ (forall x, get h' x = get h x \/ current h' x).
Proof.
  intros ops h a n v R V. pose proof (run_sound _ _ _ empty_sound R) as S. destruct (enc_correct n) as (_ & (A & B & C)).
  destruct (B h a v S V) as (h' & r & E & Er). destruct (A _ _ _ _ S E) as ((Sm & _ & Cu) & K). exists h', r.
  split; [assumption|]. split; [subst r; destruct (record_encode v); reflexivity|]. split; [|now split].
  intros b Eb. rewrite Eb in Er. cbn [rmap rbind] in Er. destruct (K Er) as (w & b' & g & Vw & Cw & Bg & Eg).
  rewrite (C _ _ _ V) in Vw. inv Vw. exists g. split; [assumption|congruence].
Qed.
Print Assumptions C77_encode_record.
Theorem C77_encode_key : forall (ops : list op) (h : heap) (a : ref) e ks b est,
  run empty_heap ops = Some h -> get h a = Some (OKeyObj e ks b est) ->
  outcome (snd (key_enc h a)) = outcome (encode_keys (map (rd h) ks)) /\
  (forall c, encode_keys (map (rd h) ks) = Ok c -> buf_of (fst (key_enc h a)) a = Ok (Some c)) /\
  same h (fst (key_enc h a)) /\ (forall x, get (fst (key_enc h a)) x = get h x \/ current (fst (key_enc h a)) x).
Proof.
  intros ops h a e ks b est R G. pose proof (run_sound _ _ _ empty_sound R) as S. destruct key_enc_spec as (A & _ & _).
  destruct (A h a (fst (key_enc h a)) (snd (key_enc h a)) S) as ((Sm & _ & Cu) & K); [now destruct (key_enc h a)|].
  split; [|split; [|now split]].
  - unfold key_enc. rewrite G. destruct (encode_keys (map (rd h) ks)); reflexivity.
  - intros c Ec. unfold key_enc, buf_of. rewrite G, Ec. simpl fst. erewrite get_put by exact G. simpl.
    rewrite app_nth2, Nat.sub_diag by lia. simpl. now rewrite firstn_all.
Qed.
Print Assumptions C77_encode_key.

(** An array holding a primitive and a record with a key; the bytes are changed after everything was put together. *)
Definition demo : list op :=
  [ NewBytes [x61; x62]; NewBytes [x6b]; NewPrim (Some (Sl 0 0 2)); NewKeyObj; AddSub 1 (Some (Sl 1 0 1)); NewRec; SetKeyOf 2 1;
    SetValOf 2 0; NewRecs; AppendRec 3 2; NewArr; AppendVal 4 0; AppendVal 4 3; Write 0 1 x7a ].
Definition or_empty (o : option heap) : heap := match o with Some h => h | None => empty_heap end.
Definition demo_heap : heap := Eval vm_compute in or_empty (run empty_heap demo).
Definition demo_value : option value := Eval vm_compute in vview 4 demo_heap 4.
Definition demo_encoded : heap := Eval vm_compute in or_empty (option_map fst (venc 4 demo_heap 4)).
Example C77_applies : exists v b,
  run empty_heap demo = Some demo_heap /\ vview 4 demo_heap 4 = Some v /\ venc 4 demo_heap 4 = Some (demo_encoded, Ok tt) /\
  value_encode v = Ok b /\ buf_of demo_encoded 4 = Ok (Some b) /\ nth 5 b x00 = x61 /\ nth 6 b x00 = x7a.
Proof.
  exists (match demo_value with Some v => v | None => VPrim None end), (match buf_of demo_encoded 4 with Ok g => gcontent g | _ => [] end).
  split; [vm_compute; reflexivity|]. split; [vm_compute; reflexivity|]. split; [vm_compute; reflexivity|]. split; [vm_compute; reflexivity|].
  split; [vm_compute; reflexivity|]. split; vm_compute; reflexivity.
Qed.

(** ** C78: an encoded object has an up-to-date buffer *)

(** False: a part changed after the Encode of the whole, bytes written after Encode, a sub-key added after Encode. *)
Theorem C78_refuted :
  (exists h, run empty_heap [NewArr; NewArr; AppendVal 0 1; EncodeVal 9 0; NewPrim None; AppendVal 1 2] = Some h /\
     (exists o, get h 0 = Some o /\ obj_encoded o = true) /\ ~ current h 0) /\
  (exists h, run empty_heap [NewBytes [x61]; NewPrim (Some (Sl 0 0 1)); EncodeVal 9 0; Write 0 0 x62] = Some h /\
     (exists o, get h 0 = Some o /\ obj_encoded o = true) /\ ~ current h 0) /\
  (exists h, run empty_heap [NewBytes [x61]; NewKeyObj; EncodeKey 0; AddSub 0 (Some (Sl 0 0 1))] = Some h /\
     (exists o, get h 0 = Some o /\ obj_encoded o = true) /\ ~ current h 0).
Proof.
  assert (forall h a n v b g, vview n h a = Some v -> value_encode v = Ok b -> buf_of h a = Ok g -> gcontent g <> b -> ~ current h a) as N.
  { intros h a n v b g V E B D [(m & w & b' & g' & Vw & Ew & Bw & Gw)|[(m & w & b' & g' & Vw & _)|K]].
    - pose proof (vview_det _ _ _ _ _ _ V Vw). subst w. congruence.
    - eapply val_not_rec; eauto.
    - eapply val_not_key; eauto. }
  split; [|split].
  - eexists. split; [reflexivity|]. split; [eexists; split; reflexivity|].
    apply (N _ _ 3 (VArr 0 [VArr 0 [VPrim None]]) [x41; x01; x02; x40; x01] (Some [x41; x01; x01; x00])); try reflexivity. discriminate.
  - eexists. split; [reflexivity|]. split; [eexists; split; reflexivity|].
    apply (N _ _ 1 (VPrim (Some [x62])) [x01; x01; x62] (Some [x01; x01; x61])); try reflexivity. discriminate.
  - eexists. split; [reflexivity|]. split; [eexists; split; reflexivity|].
    intros [(m & w & b' & g' & Vw & _)|[(m & w & b' & g' & Vw & _)|(ks & b & (e & bf & est & G) & E & B)]].
    + destruct m; discriminate.
    + destruct m; discriminate.
    + inv G. inv E. inv B.
Qed.
Print Assumptions C78_refuted.

(** What an encoded object holds, in every history: its buffer was up to date after some earlier Encode call. Since then
    no setter was called on it (a key may have got more sub-keys), and the bytes of the buffer are still the same unless
    the client wrote into it. *)
Theorem C78_exact : forall (ops : list op) (h : heap) (a : ref) (o : obj),
  run empty_heap ops = Some h -> get h a = Some o -> is_parsed o = false -> obj_encoded o = true ->
  exists ops1 e ops2 h1 o1, ops = ops1 ++ e :: ops2 /\ is_encode e = true /\ run empty_heap (ops1 ++ [e]) = Some h1 /\
    get h1 a = Some o1 /\ current h1 a /\ obj_slice o1 = obj_slice o /\ since o1 o /\
    ((forall k, In k (blk_of (obj_slice o)) -> ~ In (Some k) (map writes ops2)) -> rd h (obj_slice o) = rd h1 (obj_slice o)).
Proof. exact snapshot. Qed.
Print Assumptions C78_exact.

(** Missing: histories that change parts of an encoded value. Without such calls an encoded value stays up to date,
    whatever else happens to the heap. *)
Theorem C78_value_partial : forall (ops : list op) (h h' h2 : heap) (a : ref) (n : nat) (v : value) (more : list op),
  run empty_heap ops = Some h -> vview n h a = Some v -> venc n h a = Some (h', Ok tt) ->
  calm (vobjs n h' a) (vblks n h' a) a h' more -> run h' more = Some h2 ->
  vview n h2 a = Some v /\ exists b g, value_encode v = Ok b /\ buf_of h2 a = Ok g /\ gcontent g = b.
Proof.
  intros ops h h' h2 a n v more R V E C R2. pose proof (run_sound _ _ _ empty_sound R) as S. destruct (enc_correct n) as ((A & B & D) & _).
  destruct (A _ _ _ _ S E) as ((Sm & S' & Cu) & K). destruct (K eq_refl) as (w & b & g & Vw & Cw & Bg & Eg).
  rewrite (D _ _ _ V) in Vw. inv Vw.
  assert (vview n h' a = Some w) as V' by (rewrite (same_vview n h h' a S Sm); exact V).
  destruct (calm_val n more h' h2 a w S' V') as (V2 & u & b2 & g2 & Vu & Cw2 & Bg2 & Eg2); [|exact C|exact R2|].
  - exists w, (gcontent g), g. auto.
  - rewrite V2 in Vu. inv Vu. split; [assumption|]. exists (gcontent g2), g2. auto.
Qed.
Print Assumptions C78_value_partial.
Theorem C78_record_partial : forall (ops : list op) (h h' h2 : heap) (a : ref) (n : nat) (v : record) (more : list op),
  run empty_heap ops = Some h -> rview n h a = Some v -> renc n h a = Some (h', Ok tt) ->
  calm (robjs n h' a) (rblks n h' a) a h' more -> run h' more = Some h2 ->
  rview n h2 a = Some v /\ exists b g, record_encode v = Ok b /\ buf_of h2 a = Ok g /\ gcontent g = b.
Proof.
  intros ops h h' h2 a n v more R V E C R2. pose proof (run_sound _ _ _ empty_sound R) as S. destruct (enc_correct n) as (_ & (A & B & D)).
  destruct (A _ _ _ _ S E) as ((Sm & S' & Cu) & K). destruct (K eq_refl) as (w & b & g & Vw & Cw & Bg & Eg).
  rewrite (D _ _ _ V) in Vw. inv Vw.
  assert (rview n h' a = Some w) as V' by (rewrite (same_rview n h h' a S Sm); exact V).
  destruct (calm_rec n more h' h2 a w S' V') as (V2 & u & b2 & g2 & Vu & Cw2 & Bg2 & Eg2); [|exact C|exact R2|].
  - exists w, (gcontent g), g. auto.
  - rewrite V2 in Vu. inv Vu. split; [assumption|]. exists (gcontent g2), g2. auto.
Qed.
Print Assumptions C78_record_partial.

(** An encoded array; then another array gets it as an element, is encoded, and its buffer is overwritten. *)
Definition demo_more : list op := [NewArr; AppendVal 5 4; EncodeVal 9 5; Write 14 0 x00].
Example C78_applies : run empty_heap demo = Some demo_heap /\ vview 4 demo_heap 4 = demo_value /\
  venc 4 demo_heap 4 = Some (demo_encoded, Ok tt) /\
  calm (vobjs 4 demo_encoded 4) (vblks 4 demo_encoded 4) 4 demo_encoded demo_more /\
  exists h, run demo_encoded demo_more = Some h /\ buf_blk demo_encoded 4 <> buf_blk h 4 /\ buf_blk h 5 = [14].
Proof.
  split; [vm_compute; reflexivity|]. split; [vm_compute; reflexivity|]. split; [vm_compute; reflexivity|]. split.
  - vm_compute. repeat split; intros k E; try discriminate E; injection E as <-; intuition discriminate.
  - exists (or_empty (run demo_encoded demo_more)). split; [vm_compute; reflexivity|]. split; [vm_compute; discriminate|vm_compute; reflexivity].
Qed.

(** ** C79: a copy is independent of the original *)

(** Copy returns as the copy of plain values does. The copy has the same contents, and shares no object with anything
    that existed before. It shares no memory either, except for the bytes of the sub-keys. *)
Theorem C79_value_exact : forall (ops : list op) (h : heap) (a : ref) (n : nat) (v : value),
  run empty_heap ops = Some h -> vview n h a = Some v -> all_settled h (vobjs n h a) ->
  exists h' r, vcopy n h a = Some (h', r) /\ outcome r = outcome (value_copy v) /\
    forall x, r = Ok x -> vview n h' x = Some v /\ vview n h' a = Some v /\
      (forall z, In z (vobjs n h' x) -> length (objs h) <= z) /\
      (forall k, In k (vblks n h' x) -> length (mem h) <= k \/ In k (vkeyblks n h a)).
Proof.
  intros ops h a n v R V T. pose proof (run_sound _ _ _ empty_sound R) as S. destruct (copy_spec n) as ((A & B) & _).
  destruct (B _ _ _ S V) as (h' & r & C & E). exists h', r. split; [assumption|]. split; [assumption|]. intros x ->.
  destruct (A _ _ _ _ _ S C V T) as (V' & O & K). split; [assumption|]. split; [|split].
  - destruct (copy_grows n) as (G & _). apply (framed_v n h h' a v S); [eapply G; eauto|assumption].
  - intros z I. apply O in I. lia.
  - intros k I. apply K in I. destruct I; [left; lia|now right].
Qed.
Print Assumptions C79_value_exact.
Theorem C79_record_exact : forall (ops : list op) (h : heap) (a : ref) (n : nat) (v : record),
  run empty_heap ops = Some h -> rview n h a = Some v -> all_settled h (robjs n h a) ->
  exists h' r, rcopy n h a = Some (h', r) /\ outcome r = outcome (record_copy v) /\
    forall x, r = Ok x -> rview n h' x = Some v /\ rview n h' a = Some v /\
      (forall z, In z (robjs n h' x) -> length (objs h) <= z) /\
      (forall k, In k (rblks n h' x) -> length (mem h) <= k \/ In k (rkeyblks n h a)).
Proof.
  intros ops h a n v R V T. pose proof (run_sound _ _ _ empty_sound R) as S. destruct (copy_spec n) as (_ & (A & B)).
  destruct (B _ _ _ S V) as (h' & r & C & E). exists h', r. split; [assumption|]. split; [assumption|]. intros x ->.
  destruct (A _ _ _ _ _ S C V T) as (V' & O & K). split; [assumption|]. split; [|split].
  - destruct (copy_grows n) as (_ & G). apply (framed_r n h h' a v S); [eapply G; eauto|assumption].
  - intros z I. apply O in I. lia.
  - intros k I. apply K in I. destruct I; [left; lia|now right].
Qed.
Print Assumptions C79_record_exact.

(** False: a record and its copy hold the same sub-key bytes, and so do a key and its copy. *)
Theorem C79_refuted :
  (exists h h1 h2 k, run empty_heap [NewBytes [x6b]; NewSimpleKeyObj (Some (Sl 0 0 1))] = Some h /\
     key_copy h 0 = (h1, Ok 1) /\ step h1 (Write 0 0 x7a) = Some h2 /\ kview h1 1 = Some k /\ kview h2 1 <> Some k) /\
  (exists h h1 h2 r, run empty_heap [NewBytes [x6b]; NewSimpleKeyObj (Some (Sl 0 0 1)); NewRec; SetKeyOf 1 0] = Some h /\
     rcopy 2 h 1 = Some (h1, Ok 3) /\ step h1 (Write 0 0 x7a) = Some h2 /\ rview 2 h1 3 = Some r /\ rview 2 h2 3 <> Some r).
Proof.
  split.
  - do 4 eexists. split; [reflexivity|]. split; [reflexivity|]. split; [reflexivity|]. split; [reflexivity|]. discriminate.
  - do 4 eexists. split; [reflexivity|]. split; [reflexivity|]. split; [reflexivity|]. split; [reflexivity|]. discriminate.
Qed.
Print Assumptions C79_refuted.

(** Missing: writes to the bytes of sub-keys. Otherwise no history that leaves alone the objects and memory made by Copy
    changes the copy, and no history that leaves alone what was there before changes the original. *)
Definition leaves_new (h h' : heap) (shared : list nat) (o : op) : Prop :=
  (forall a, target o = Some a -> ~ length (objs h) <= a < length (objs h')) /\
  (forall k, writes o = Some k -> ~ length (mem h) <= k < length (mem h') /\ ~ In k shared).
Definition leaves_old (h : heap) (o : op) : Prop :=
  (forall a, target o = Some a -> length (objs h) <= a) /\ (forall k, writes o = Some k -> length (mem h) <= k).
Lemma kblks_bound h a k : sound h -> In k (kblks h a) -> k < length (mem h).
Proof.
  intros S I. unfold kblks in I. destruct (get h a) as [[]|] eqn:G; try destruct I. apply in_flat_map in I.
  destruct I as (s & Is & Ik). destruct s as [s|]; [|destruct Ik]. destruct Ik as [<- |[]].
  pose proof (S a _ (Some s) G) as B. simpl in B. specialize (B (or_intror Is)). apply andb_true_iff in B. destruct B as [B _].
  now apply Nat.ltb_lt.
Qed.
Lemma blks_bound n : forall h a, sound h -> (forall k, In k (vblks n h a) -> k < length (mem h)) /\ (forall k, In k (rblks n h a) -> k < length (mem h)).
Proof.
  induction n as [|n IH]; intros h a S; [split; intros k []|]. split; intros k I.
  - cbn [vblks] in I. destruct (get h a) as [[]|] eqn:G; try destruct I.
    + destruct data as [s|]; [|destruct I]. destruct I as [<- |[]].
      pose proof (S a _ (Some s) G (or_intror (or_introl eq_refl))) as B. simpl in B. apply andb_true_iff in B. destruct B as [B _]. now apply Nat.ltb_lt.
    + apply in_flat_map in I. destruct I as (x & _ & Ix). destruct (IH h x S); auto.
    + apply in_flat_map in I. destruct I as (x & _ & Ix). destruct (IH h x S); auto.
  - cbn [rblks] in I. destruct (get h a) as [[]|] eqn:G; try destruct I. rewrite !in_app_iff in I. destruct I as [I|[I|I]].
    + destruct key as [x|]; [|destruct I]. eapply kblks_bound; eauto.
    + destruct val as [x|]; [|destruct I]. destruct (IH h x S); auto.
    + destruct scheme as [x|]; [|destruct I]. destruct (IH h x S); auto.
Qed.
Theorem C79_value_partial : forall (ops : list op) (h h' h2 : heap) (a x : ref) (n : nat) (v : value) (more : list op),
  run empty_heap ops = Some h -> vview n h a = Some v -> all_settled h (vobjs n h a) ->
  vcopy n h a = Some (h', Ok x) -> run h' more = Some h2 ->
  (Forall (leaves_new h h' (vkeyblks n h a)) more -> vview n h2 x = Some v) /\
  (Forall (leaves_old h) more -> vview n h2 a = Some v).
Proof.
  intros ops h h' h2 a x n v more R V T C R2. pose proof (run_sound _ _ _ empty_sound R) as S. destruct (copy_spec n) as ((A & _) & _).
  destruct (A _ _ _ _ _ S C V T) as (V' & O & K). destruct (copy_grows n) as (G & _). pose proof (G _ _ _ _ S C) as Gr.
  pose proof (grows_sound _ _ Gr) as S'. split; intros F.
  - destruct (frame_run n more h' h2 x S' R2) as (Q & _). apply Q; [assumption|]. eapply Forall_impl; [|exact F].
    intros o (P1 & P2). split; [intros b Tb I; apply O in I; apply (P1 b Tb); lia|].
    intros k Wk I. destruct (P2 k Wk) as (P3 & P4). apply K in I. destruct I as [I|I]; [lia|contradiction].
  - destruct (framed_v n h h' a v S Gr V) as (Va & Oa & Ba & _).
    destruct (frame_run n more h' h2 a S' R2) as (Q & _). apply Q; [assumption|]. rewrite Oa, Ba. eapply Forall_impl; [|exact F].
    intros o (P1 & P2). split.
    + intros b Tb I. destruct (vobjs_bound n h a v V b I) as (ob & Gb). apply get_lt in Gb. specialize (P1 b Tb). lia.
    + intros k Wk I. destruct (blks_bound n h a S) as (B & _). apply B in I. specialize (P2 k Wk). lia.
Qed.
Print Assumptions C79_value_partial.
Theorem C79_record_partial : forall (ops : list op) (h h' h2 : heap) (a x : ref) (n : nat) (v : record) (more : list op),
  run empty_heap ops = Some h -> rview n h a = Some v -> all_settled h (robjs n h a) ->
  rcopy n h a = Some (h', Ok x) -> run h' more = Some h2 ->
  (Forall (leaves_new h h' (rkeyblks n h a)) more -> rview n h2 x = Some v) /\
  (Forall (leaves_old h) more -> rview n h2 a = Some v).
Proof.
  intros ops h h' h2 a x n v more R V T C R2. pose proof (run_sound _ _ _ empty_sound R) as S. destruct (copy_spec n) as (_ & (A & _)).
  destruct (A _ _ _ _ _ S C V T) as (V' & O & K). destruct (copy_grows n) as (_ & G). pose proof (G _ _ _ _ S C) as Gr.
  pose proof (grows_sound _ _ Gr) as S'. split; intros F.
  - destruct (frame_run n more h' h2 x S' R2) as (_ & Q). apply Q; [assumption|]. eapply Forall_impl; [|exact F].
    intros o (P1 & P2). split; [intros b Tb I; apply O in I; apply (P1 b Tb); lia|].
    intros k Wk I. destruct (P2 k Wk) as (P3 & P4). apply K in I. destruct I as [I|I]; [lia|contradiction].
  - destruct (framed_r n h h' a v S Gr V) as (Va & Oa & Ba & _).
    destruct (frame_run n more h' h2 a S' R2) as (_ & Q). apply Q; [assumption|]. rewrite Oa, Ba. eapply Forall_impl; [|exact F].
    intros o (P1 & P2). split.
    + intros b Tb I. destruct (robjs_bound n h a v V b I) as (ob & Gb). apply get_lt in Gb. specialize (P1 b Tb). lia.
    + intros k Wk I. destruct (blks_bound n h a S) as (_ & B). apply B in I. specialize (P2 k Wk). lia.
Qed.
Print Assumptions C79_record_partial.

(** Everything the parsers of values and keys return meets the condition on parsed parts. *)
Theorem C79_parsed_settled :
  (forall c m n, new_std_value c = Ok (m, n) -> settled (OStd m)) /\
  (forall c b d n, new_simple_value c = Ok (VSimple b d, n) -> settled (OSimple b d)) /\
  (forall c ks b n, new_mapped_key c = Ok (KMapped ks b, n) -> settled (OMKey ks b)).
Proof.
  split; [|split].
  - intros c m n H. exists n. eapply std_reparse; eauto.
  - intros c b d n H. exists n. eapply simple_reparse; eauto.
  - intros c ks b n H. exists n. unfold new_mapped_key in *. simpl gcontent. destruct (decode_keys (gcontent c)) as [[ks' n']| |] eqn:E;
      cbn [rbind] in H; inv H. rewrite E. reflexivity.
Qed.
Print Assumptions C79_parsed_settled.

(** Copying the array of the demo; then the original gets another element and its bytes are changed, or the copy is. *)
Definition demo_copied : heap := Eval vm_compute in or_empty (option_map fst (vcopy 4 demo_heap 4)).
Definition demo_touch_old : list op := [AppendVal 4 0; Write 0 0 x00; SetTimeOf 2 (Some 5%Z); NewArr; AppendVal 11 10; EncodeVal 9 11].
Definition demo_touch_new : list op := [DeleteVal 10 0; Write 2 0 x00].
Example C79_applies :
  all_settled demo_heap (vobjs 4 demo_heap 4) /\ vcopy 4 demo_heap 4 = Some (demo_copied, Ok 10) /\
  Forall (leaves_new demo_heap demo_copied (vkeyblks 4 demo_heap 4)) demo_touch_old /\
  Forall (leaves_old demo_heap) demo_touch_new /\
  (exists h, run demo_copied demo_touch_old = Some h /\ vview 4 h 4 <> demo_value /\ vview 4 h 10 = demo_value) /\
  (exists h, run demo_copied demo_touch_new = Some h /\ vview 4 h 10 <> demo_value /\ vview 4 h 4 = demo_value).
Proof.
  split.
  { intros a o I G. vm_compute in I. decompose [or] I; subst; vm_compute in G; try contradiction; inv G; exact Logic.I. }
  split; [vm_compute; reflexivity|]. split.
  { unfold demo_touch_old. repeat apply Forall_cons; try apply Forall_nil; split; intros k E; try discriminate E; injection E as <-;
      vm_compute; intuition lia. }
  split.
  { unfold demo_touch_new. repeat apply Forall_cons; try apply Forall_nil; split; intros k E; try discriminate E; injection E as <-;
      vm_compute; intuition lia. }
  split.
  - exists (or_empty (run demo_copied demo_touch_old)). split; [vm_compute; reflexivity|]. split; [vm_compute; discriminate|vm_compute; reflexivity].
  - exists (or_empty (run demo_copied demo_touch_new)). split; [vm_compute; reflexivity|]. split; [vm_compute; discriminate|vm_compute; reflexivity].
Qed.

(** ** C80: Encode returns *)

(** Encode succeeds exactly on the objects whose references end and whose contents can be encoded. *)
Theorem C80_exact : forall (ops : list op) (h : heap) (a : ref), run empty_heap ops = Some h ->
  ((exists n h', venc n h a = Some (h', Ok tt)) <-> (exists n v b, vview n h a = Some v /\ value_encode v = Ok b)) /\
  ((exists n h', renc n h a = Some (h', Ok tt)) <-> (exists n v b, rview n h a = Some v /\ record_encode v = Ok b)).
Proof.
  intros ops h a R. pose proof (run_sound _ _ _ empty_sound R) as S. split; split.
  - intros (n & h' & E). destruct (enc_correct n) as ((A & _) & _). destruct (A _ _ _ _ S E) as (_ & K).
    destruct (K eq_refl) as (v & b & g & V & C & _). eauto.
  - intros (n & v & b & V & E). destruct (enc_correct n) as ((_ & B & _) & _). destruct (B _ _ _ S V) as (h' & r & En & Er).
    rewrite E in Er. cbn [rmap rbind] in Er. subst r. eauto.
  - intros (n & h' & E). destruct (enc_correct n) as (_ & (A & _)). destruct (A _ _ _ _ S E) as (_ & K).
    destruct (K eq_refl) as (v & b & g & V & C & _). eauto.
  - intros (n & v & b & V & E). destruct (enc_correct n) as (_ & (_ & B & _)). destruct (B _ _ _ S V) as (h' & r & En & Er).
    rewrite E in Er. cbn [rmap rbind] in Er. subst r. eauto.
Qed.
Print Assumptions C80_exact.

Lemma self_array h a e b est : get h a = Some (OArr e b est [a]) -> forall n, venc n h a = None /\ vcopy n h a = None.
Proof.
  intros G. induction n as [|n (IH & IH')]; [now split|]. cbn [venc vcopy]. rewrite G. cbn [enc_all copy_all]. rewrite IH, IH'. now split.
Qed.
Lemma self_records h a r e b est e' b' est' t q w : get h a = Some (ORecs e b est [r]) ->
  get h r = Some (ORec e' b' est' None (Some a) None t q w) ->
  forall n, venc n h a = None /\ renc n h r = None /\ vcopy n h a = None /\ rcopy n h r = None.
Proof.
  intros G R. induction n as [|n (I1 & I2 & I3 & I4)]; [now repeat split|]. cbn [venc renc vcopy rcopy]. rewrite G, R.
  cbn [enc_all copy_all enc_part copy_part]. unfold is_nil_of. rewrite G. cbv iota. rewrite I1, I2, I3, I4. now repeat split.
Qed.
(** False: an array appended to itself, and a record list inside one of its records; Copy does not return either. *)
Theorem C80_refuted :
  (exists h, run empty_heap [NewArr; AppendVal 0 0] = Some h /\ forall n, venc n h 0 = None /\ vcopy n h 0 = None) /\
  (exists h, run empty_heap [NewRecs; NewRec; SetValOf 1 0; AppendRec 0 1] = Some h /\
     forall n, venc n h 0 = None /\ renc n h 1 = None /\ vcopy n h 0 = None /\ rcopy n h 1 = None).
Proof.
  split.
  - eexists. split; [reflexivity|]. eapply self_array. reflexivity.
  - eexists. split; [reflexivity|]. eapply self_records; reflexivity.
Qed.
Print Assumptions C80_refuted.

(** Missing: objects that contain themselves. *)
Theorem C80_partial : forall (ops : list op) (h : heap) (a : ref) (n : nat), run empty_heap ops = Some h ->
  (vview n h a <> None -> venc n h a <> None) /\ (rview n h a <> None -> renc n h a <> None).
Proof.
  intros ops h a n R. pose proof (run_sound _ _ _ empty_sound R) as S. destruct (enc_correct n) as ((_ & B & _) & (_ & B' & _)). split; intros V E.
  - destruct (vview n h a) as [v|] eqn:W; [|contradiction]. destruct (B _ _ _ S W) as (h' & r & En & _). congruence.
  - destruct (rview n h a) as [v|] eqn:W; [|contradiction]. destruct (B' _ _ _ S W) as (h' & r & En & _). congruence.
Qed.
Print Assumptions C80_partial.
Example C80_applies : run empty_heap demo = Some demo_heap /\ vview 4 demo_heap 4 <> None /\ rview 4 demo_heap 2 <> None /\
  vview 2 demo_heap 4 = None.
Proof. split; [vm_compute; reflexivity|]. split; [vm_compute; discriminate|]. split; [vm_compute; discriminate|vm_compute; reflexivity]. Qed.
