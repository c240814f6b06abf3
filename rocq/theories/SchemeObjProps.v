(** * C90, C91: schemes as objects that share memory. *)
From Coq Require Import List NArith ZArith Bool Lia.
From Coq Require Import Strings.Byte.
From Verif Require Import Base BaseProofs VarintModel KeyModel SchemeModel SchemeProofs SchemeObjModel SchemeObjSpec SchemeObjProofs.
Import ListNotations.
Local Open Scope Z_scope.

(** A client that puts the encoding of a scheme in memory, maps it, decodes it, and copies it. *)
Definition sample : scheme := mkScheme (Some [x61; x62]) (Some [x74]) (Some [Some [x78]; Some [x79; x7a]]).
Definition sample_bytes : bytes := match encode_scheme sample with Ok b => b | _ => [] end.
Definition sample_calls : list call :=
  [NewBlock sample_bytes; NewMappedScheme (Some (Sli 0 0 (length sample_bytes))); CallDecode 0; CallCopy 0].
Definition sample_state : state := match after_calls no_schemes sample_calls with Some s => s | None => no_schemes end.
Lemma sample_reached : reachable sample_state.
Proof. exists sample_calls. vm_compute. reflexivity. Qed.

(** ** C90 *)

(** Decode of a MappedScheme ends as [decode_scheme] does on the bytes the buffer holds now; on success it returns the number of
    bytes read, the scheme shows exactly the decoded fields and is decoded. Otherwise decoded stays as it was and the
    fields are those of [after_decode]. The memory, the other schemes and the buffer stay. *)
Theorem C90_decode_exact : forall s a o s' r, reachable s -> object s a = Some o -> f_kind o = KMappedScheme -> decode s a o = (s', r) ->
  let b := gcontent (bytes_in s (f_buf o)) in
  r = rmap snd (decode_scheme b) /\
  (forall f n, decode_scheme b = Ok (f, n) -> shown s' a = Some f) /\
  shown s' a = Some (after_decode (fields s o) b) /\
  option_map is_decoded (object s' a) = Some (match r with Ok _ => true | _ => is_decoded o end) /\
  shown_buf s' a = shown_buf s a /\ blocks s' = blocks s /\
  forall a', a' <> a -> object s' a' = object s a' /\ shown s' a' = shown s a'.
Proof.
  intros s a o s' r R G K D b. destruct (reachable_good _ R) as (S & _).
  destruct (decode_spec _ _ _ _ _ S G D) as ((K1 & (more & K2) & K3 & K4) & _ & o' & G' & Ek & Eb & So' & Fl & Fa & M).
  unfold shown, shown_buf. rewrite G', G. cbn [option_map]. rewrite K in *. fold b in Fa, M.
  split; [destruct (decode_scheme b) as [[f n]| |]; cbn; [apply M|exact M|exact M]|].
  split; [intros f n Q; rewrite Q in M; f_equal; apply M|]. split; [now f_equal|].
  split; [unfold is_decoded; rewrite Ek, K, Fl; reflexivity|].
  split; [unfold get_buf; rewrite Ek, K, Eb; unfold bytes_in; now rewrite K1|]. split; [exact K1|].
  intros a' N. rewrite K4 by exact N. split; [reflexivity|]. destruct (object s a') as [oa|] eqn:Ga; [|reflexivity]. cbn. f_equal.
  destruct S as (So & _). destruct (So _ _ Ga) as (_ & _ & _ & Li). unfold fields, bytes_in. rewrite K1. f_equal.
  destruct (f_buckets oa) as [i|]; [|reflexivity]. cbn. rewrite K2. now rewrite app_nth1 by exact Li.
Qed.
Print Assumptions C90_decode_exact.
Example C90_decode_applies : exists s o s' r, after_calls no_schemes (firstn 2 sample_calls) = Some s /\ object s 0 = Some o /\ f_kind o = KMappedScheme /\
  decode s 0 o = (s', r) /\ r = Ok (zlen sample_bytes) /\ shown s' 0 = Some sample /\ get_domain s o = Panic.
Proof. do 4 eexists. split; [vm_compute; reflexivity|]. split; [vm_compute; reflexivity|]. split; [reflexivity|]. split; [vm_compute; reflexivity|]. split; [vm_compute; reflexivity|]. split; vm_compute; reflexivity. Qed.

(** The accessors, and when they panic: those of a MappedScheme that is not decoded all do except EstBufSize, Buf, IsEncoded,
    IsDecoded and SchemeMagic; BucketAt does for an index outside the buckets. *)
Theorem C90_accessors_exact : forall s o f, fields s o = f ->
  (is_decoded o = true ->
     get_domain s o = Ok (s_domain f) /\ get_tablet s o = Ok (s_tablet f) /\ get_buckets s o = Ok (s_buckets f) /\
     get_domain_name s o = Ok (gcontent (s_domain f)) /\ get_tablet_name s o = Ok (gcontent (s_tablet f)) /\
     forall idx, get_bucket_at s o idx =
       match s_buckets f with
       | None => Panic
       | Some bs => if ((0 <=? idx) && (idx <? Z.of_nat (length bs)))%bool then Ok (nth (Z.to_nat idx) bs None) else Panic
       end) /\
  (is_decoded o = false -> f_kind o = KMappedScheme /\
     get_domain s o = Panic /\ get_tablet s o = Panic /\ get_buckets s o = Panic /\ get_domain_name s o = Panic /\ get_tablet_name s o = Panic /\
     forall idx, get_bucket_at s o idx = Panic) /\
  get_est s o = est_scheme f /\
  (is_encoded o = true -> get_buf s o = Ok (bytes_in s (f_buf o)) /\
     get_magic s o = match gcontent (bytes_in s (f_buf o)) with [] => Panic | x :: _ => Ok x end) /\
  (is_encoded o = false -> f_kind o = KScheme /\ get_buf s o = Panic /\ get_magic s o = Panic).
Proof.
  intros s o f <-. assert (RD : readable o = is_decoded o) by reflexivity.
  split; [|split; [|split; [reflexivity|split]]].
  - intros D. unfold get_domain, get_tablet, get_buckets, get_domain_name, get_tablet_name, get_bucket_at. rewrite RD, D.
    split; [reflexivity|]. split; [reflexivity|]. split; [reflexivity|]. split; [reflexivity|]. split; [reflexivity|].
    intros idx. cbn [fields s_buckets]. destruct (slices_in s (f_buckets o)) as [bs|]; [|reflexivity]. cbn [option_map]. rewrite map_length.
    unfold go_index. destruct (Z.ltb_spec idx 0) as [P|P], (Z.leb_spec 0 idx) as [P'|P']; try lia; cbn [andb]; [reflexivity|].
    destruct (Z.ltb_spec idx (Z.of_nat (length bs))) as [Q|Q].
    + destruct (nth_error bs (Z.to_nat idx)) as [x|] eqn:E; [|apply nth_error_None in E; lia]. cbn [rbind]. f_equal.
      symmetry. apply nth_error_nth. now rewrite nth_error_map, E.
    + destruct (nth_error bs (Z.to_nat idx)) as [x|] eqn:E; [|reflexivity]. assert (nth_error bs (Z.to_nat idx) <> None) as E' by congruence.
      apply nth_error_Some in E'. lia.
  - intros D. assert (K : f_kind o = KMappedScheme) by (unfold is_decoded in D; destruct (f_kind o); congruence). split; [exact K|].
    unfold get_domain, get_tablet, get_buckets, get_domain_name, get_tablet_name, get_bucket_at. rewrite RD, D. repeat split; reflexivity.
  - intros E. assert (B : get_buf s o = Ok (bytes_in s (f_buf o))) by (unfold get_buf, is_encoded in *; destruct (f_kind o); [reflexivity|now rewrite E]).
    split; [exact B|]. unfold get_magic. rewrite B. cbn [rbind]. destruct (gcontent (bytes_in s (f_buf o))); reflexivity.
  - intros E. assert (K : f_kind o = KScheme) by (unfold is_encoded in E; destruct (f_kind o); congruence). split; [exact K|].
    unfold get_magic, get_buf. unfold is_encoded in E. rewrite K in *. rewrite E. split; reflexivity.
Qed.
Print Assumptions C90_accessors_exact.
Example C90_accessors_applies : exists o, object sample_state 0 = Some o /\ is_decoded o = true /\ fields sample_state o = sample /\
  get_bucket_at sample_state o 1 = Ok (Some [x79; x7a]) /\ get_bucket_at sample_state o 2 = Panic /\ get_bucket_at sample_state o (-1) = Panic.
Proof. eexists. split; [vm_compute; reflexivity|]. repeat split; vm_compute; reflexivity. Qed.

(** As long as the client does not write to the bytes the fields lie in, does not replace a bucket and does not decode again, a
    decoded scheme keeps showing the fields of its buffer. *)
Theorem C90_decoded_partial : forall s a o s' f n cs s'', reachable s -> object s a = Some o -> f_kind o = KMappedScheme ->
  decode_scheme (gcontent (bytes_in s (f_buf o))) = Ok (f, n) -> decode s a o = (s', Ok n) ->
  after_calls s' cs = Some s'' -> undisturbed s' a cs -> shown s'' a = Some f.
Proof.
  intros s a o s' f n cs s'' R G K Q D H U. destruct (C90_decode_exact _ _ _ _ _ R G K D) as (_ & F & _). rewrite <- (F _ _ Q).
  destruct R as (cs0 & R0). assert (R1 : reachable s').
  { exists (cs0 ++ [CallDecode a]). clear - R0 G D. revert R0. generalize no_schemes. induction cs0 as [|c cs0 IH]; intros s0 H; cbn in H |- *.
    - inv H. rewrite G, D. reflexivity.
    - destruct (after_call s0 c); [|discriminate]. now apply IH. }
  apply (undisturbed_calls cs); [apply (reachable_good _ R1)|exact H|exact U|].
  specialize (F _ _ Q). apply nth_error_Some. unfold shown, object in F. destruct (nth_error (objects s') a); [intros X; discriminate X|discriminate F].
Qed.
Print Assumptions C90_decoded_partial.
Example C90_decoded_applies : exists s o s' s'', after_calls no_schemes (firstn 2 sample_calls) = Some s /\ object s 0 = Some o /\
  decode s 0 o = (s', Ok (zlen sample_bytes)) /\
  after_calls s' [WriteByte 0 0 xff; CallCopy 0; WriteBucket 1 0 None; CallEncode 1] = Some s'' /\
  undisturbed s' 0 [WriteByte 0 0 xff; CallCopy 0; WriteBucket 1 0 None; CallEncode 1] /\ shown s'' 0 = Some sample.
Proof.
  do 4 eexists. split; [vm_compute; reflexivity|]. split; [vm_compute; reflexivity|]. split; [vm_compute; reflexivity|]. split; [vm_compute; reflexivity|].
  split; [|vm_compute; reflexivity]. cbn. split; [|repeat split; auto; discriminate].
  intros (x & H & C). repeat (destruct H as [<- |H]; [cbn in C; lia|]). destruct H.
Qed.

(** Refuted: the scheme shows the fields of its buffer whenever it is decoded. After a second Decode that fails it is still
    decoded and shows a mixture: here the tablet is nil and the buckets are those of the first Decode. *)
Theorem C90_failed_decode_refuted : ~ (forall s a o f, reachable s -> object s a = Some o -> f_kind o = KMappedScheme -> is_decoded o = true ->
  shown s a = Some f -> exists n, decode_scheme (gcontent (bytes_in s (f_buf o))) = Ok (f, n)).
Proof.
  intros H. set (cs := firstn 3 sample_calls ++ [WriteByte 0 4 xff; CallDecode 0]).
  destruct (after_calls no_schemes cs) as [s|] eqn:E; [|vm_compute in E; discriminate].
  destruct (object s 0) as [o|] eqn:G; [|vm_compute in E; inv E; discriminate].
  assert (R : reachable s) by (exists cs; exact E).
  destruct (H s 0%nat o (fields s o) R G) as (n & Q).
  - vm_compute in E. inv E. vm_compute in G. inv G. reflexivity.
  - vm_compute in E. inv E. vm_compute in G. inv G. reflexivity.
  - unfold shown. now rewrite G.
  - vm_compute in E. inv E. vm_compute in G. inv G. vm_compute in Q. discriminate.
Qed.
Print Assumptions C90_failed_decode_refuted.
Example C90_failed_decode_shows : exists s o, after_calls no_schemes (firstn 3 sample_calls ++ [WriteByte 0 4 xff; CallDecode 0]) = Some s /\
  object s 0 = Some o /\ is_decoded o = true /\ get_domain s o = Ok (Some [x61; x62]) /\ get_tablet s o = Ok None /\
  get_buckets s o = Ok (Some [Some [x78]; Some [x79; x7a]]).
Proof. do 2 eexists. split; [vm_compute; reflexivity|]. repeat split; vm_compute; reflexivity. Qed.

(** ** C91 *)

(** Copy of either kind makes a Scheme that is not encoded and shows the same fields, also if the source is not decoded; the
    source and all others are as before. *)
Theorem C91_copy_exact : forall s a o, reachable s -> object s a = Some o ->
  exists s' c, after_call s (CallCopy a) = Some s' /\ object s' (length (objects s)) = Some c /\ length (objects s') = Datatypes.S (length (objects s)) /\
    f_kind c = KScheme /\ is_encoded c = false /\ is_decoded c = true /\
    fields s' c = fields s o /\ blocks s' = blocks s /\
    forall b, (b < length (objects s))%nat -> object s' b = object s b /\ shown s' b = shown s b.
Proof.
  intros s a o R G. destruct (reachable_good _ R) as (S & _). assert (H : after_call s (CallCopy a) = Some (copy_of s o)) by (cbn; now rewrite G).
  pose proof (call_spec _ _ _ S H) as (_ & _ & _ & _ & O & _ & _).
  assert (Old : forall b, (b < length (objects s))%nat -> object (copy_of s o) b = object s b /\ shown (copy_of s o) b = shown s b).
  { intros b L. destruct (object s b) as [ob|] eqn:Gb; [|apply nth_error_None in Gb; lia]. split; [now apply O|].
    eapply undisturbed_call; eauto. unfold disturbs. rewrite Gb. auto. }
  exists (copy_of s o). unfold copy_of in *. destruct (f_buckets o) as [i|] eqn:F; cbn [slices_in] in *.
  - eexists. split; [exact H|]. split; [unfold object; cbn [objects]; rewrite nth_error_app2, Nat.sub_diag by lia; reflexivity|].
    split; [cbn; rewrite app_length; cbn; lia|]. split; [reflexivity|]. split; [reflexivity|]. split; [reflexivity|]. split; [|split; [reflexivity|exact Old]].
    unfold fields. cbn [f_domain f_tablet f_buckets slices_in lists]. rewrite F. rewrite app_nth2, Nat.sub_diag by lia. reflexivity.
  - eexists. split; [exact H|]. split; [unfold object; cbn [objects]; rewrite nth_error_app2, Nat.sub_diag by lia; reflexivity|].
    split; [cbn; rewrite app_length; cbn; lia|]. split; [reflexivity|]. split; [reflexivity|]. split; [reflexivity|]. split; [|split; [reflexivity|exact Old]].
    unfold fields. cbn [f_domain f_tablet f_buckets slices_in]. now rewrite F.
Qed.
Print Assumptions C91_copy_exact.
Example C91_copy_applies : exists o c, object sample_state 0 = Some o /\ object sample_state 1 = Some c /\ fields sample_state c = sample /\ get_buf sample_state c = Panic.
Proof. do 2 eexists. split; [vm_compute; reflexivity|]. split; [vm_compute; reflexivity|]. split; vm_compute; reflexivity. Qed.

(** A scheme, copy or not, shows the same through any calls of the client that do not write to a byte of one of its fields, do
    not replace one of its buckets and do not decode it. In particular Decode and Encode of the source are harmless. *)
Theorem C91_undisturbed_partial : forall s a cs s', reachable s -> (a < length (objects s))%nat ->
  after_calls s cs = Some s' -> undisturbed s a cs -> shown s' a = shown s a.
Proof. intros s a cs s' R L H U. apply (undisturbed_calls cs s s' a); auto. apply (reachable_good _ R). Qed.
Print Assumptions C91_undisturbed_partial.
Example C91_undisturbed_applies : exists s', after_calls sample_state [WriteBucket 0 1 None; CallEncode 1; NewBlock [x00]; CallDecode 0] = Some s' /\
  undisturbed sample_state 1 [WriteBucket 0 1 None; CallEncode 1; NewBlock [x00]; CallDecode 0] /\ shown s' 1 = Some sample.
Proof. eexists. split; [vm_compute; reflexivity|]. split; [vm_compute; repeat split; auto; discriminate|vm_compute; reflexivity]. Qed.

(** No two schemes share a slice of buckets: replacing an element of the one a scheme hands out changes what no other scheme shows. *)
Theorem C91_buckets_independent : forall s a b oa k i x s', reachable s -> object s a = Some oa -> f_buckets oa = Some k -> b <> a ->
  (b < length (objects s))%nat -> after_call s (WriteBucket k i x) = Some s' -> shown s' b = shown s b.
Proof.
  intros s a b oa k i x s' R Ga F N L H. destruct (reachable_good _ R) as (S & A). eapply undisturbed_call; eauto.
  unfold disturbs. destruct (object s b) as [ob|] eqn:Gb; [|auto]. intros Q. apply N. exact (A _ _ _ _ _ Gb Ga Q F).
Qed.
Print Assumptions C91_buckets_independent.
Example C91_buckets_applies : exists oa s', object sample_state 1 = Some oa /\ f_buckets oa = Some 1%nat /\
  after_call sample_state (WriteBucket 1 0 None) = Some s' /\ shown s' 0 = Some sample /\ shown s' 1 <> Some sample.
Proof. do 2 eexists. split; [vm_compute; reflexivity|]. split; [reflexivity|]. split; [vm_compute; reflexivity|]. split; [vm_compute; reflexivity|vm_compute; discriminate]. Qed.

(** Encode of a Scheme puts [encode_scheme] of the fields it shows now in new memory and makes it the buffer; an error keeps
    everything, an earlier buffer included. Encode of a MappedScheme is always an error. *)
Theorem C91_encode_exact : forall s a o s' r, reachable s -> object s a = Some o -> encode s a o = (s', r) ->
  shown s' a = shown s a /\
  (forall b, (b < length (objects s))%nat -> b <> a -> object s' b = object s b /\ shown s' b = shown s b) /\
  match f_kind o, encode_scheme (fields s o) with
  | KMappedScheme, _ => r = Err /\ s' = s
  | KScheme, Ok b => r = Ok tt /\ shown_buf s' a = Some (Ok (Some b)) /\ blocks s' = blocks s ++ [b] /\ option_map is_encoded (object s' a) = Some true
  | KScheme, Err => r = Err /\ s' = s
  | KScheme, Panic => r = Panic /\ s' = s
  end.
Proof.
  intros s a o s' r R G E. destruct (reachable_good _ R) as (S & _).
  assert (H : after_call s (CallEncode a) = Some s') by (cbn; now rewrite G, E).
  assert (La : (a < length (objects s))%nat) by (apply nth_error_Some; unfold object in G; congruence).
  pose proof (call_spec _ _ _ S H) as (_ & _ & _ & _ & O & _ & _).
  assert (U : forall b, ~ disturbs s b (CallEncode a)) by (intros b; unfold disturbs; destruct (object s b); auto).
  split; [apply (undisturbed_call s _ s' a S H (U a) La)|].
  split.
  { intros b L N. destruct (object s b) as [ob|] eqn:Gb; [|apply nth_error_None in Gb; lia]. split; [|apply (undisturbed_call s _ s' b S H (U b) L)].
    apply O; [exact Gb|]. cbn. now apply Nat.eqb_neq, not_eq_sym. }
  unfold encode in E. destruct (f_kind o); [inv E; auto|]. destruct (encode_scheme (fields s o)) as [b| |]; inv E; auto.
  split; [reflexivity|]. unfold shown_buf, object. cbn [objects]. rewrite replace_same by exact La. cbn [option_map]. split; [|split; reflexivity].
  unfold get_buf. cbn [f_kind f_flag f_buf bytes_in in_block start len blocks]. rewrite app_nth2, Nat.sub_diag by lia. cbn [nth skipn]. now rewrite firstn_all.
Qed.
Print Assumptions C91_encode_exact.
Example C91_encode_applies : exists c s', object sample_state 1 = Some c /\ encode sample_state 1 c = (s', Ok tt) /\ shown_buf s' 1 = Some (Ok (Some sample_bytes)).
Proof. do 2 eexists. split; [vm_compute; reflexivity|]. split; vm_compute; reflexivity. Qed.

(** Refuted: a copy shows the same whatever is done to the memory of the source ("deep copy"). *)
Theorem C91_deep_copy_refuted : ~ (forall s a k i x s' s'', reachable s -> (a < length (objects s))%nat -> (k < length (blocks s))%nat ->
  after_call s (CallCopy a) = Some s' -> after_call s' (WriteByte k i x) = Some s'' ->
  shown s'' (length (objects s)) = shown s' (length (objects s))).
Proof.
  intros H. destruct (after_calls no_schemes (firstn 3 sample_calls)) as [s|] eqn:E; [|vm_compute in E; discriminate].
  assert (R : reachable s) by (eexists; exact E). vm_compute in E. inv E.
  match type of R with reachable ?s =>
    pose proof (fun s' s'' => H s 0%nat 0%nat 2%nat xff s' s'' R (le_n 1) (le_n 1)) as H' end. clear H. vm_compute in H'.
  specialize (H' _ _ eq_refl eq_refl). discriminate.
Qed.
Print Assumptions C91_deep_copy_refuted.
