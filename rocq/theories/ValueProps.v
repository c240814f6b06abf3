(** * Theorems about values. *)
From Coq Require Import List NArith ZArith Bool Lia.
From Coq Require Import Strings.Byte.
From Verif Require Import Base BaseProofs EndianModel VarintModel VarintSpec KeyModel KeySpec KeyProofs
  ValueModel ValueSpec ValueProofs ValueAccess ValueCopy ValueArrays.
Import ListNotations.

(** ** C36: values survive encode and decode *)

(** Encode produces exactly the wire format. *)
Theorem C36_wire_format : forall (v : value) (t : tree) (b : bytes), says v t -> (value_encode v = Ok b <-> wire t b).
Proof. intros v t b S. now apply (proj1 encode_wire). Qed.
Print Assumptions C36_wire_format.

Theorem C36_roundtrip : forall (v : value) (t : tree) (b suffix : bytes),
  says v t -> plain v -> value_encode v = Ok b ->
  exists m, new_std_value (b ++ suffix) = Ok (m, zlen b) /\ mv_buf m = b /\ shows m t /\ well_formed m.
Proof.
  intros v t b suf S P E. apply (proj1 encode_wire v t S) in E.
  destruct (proj1 wire_parsed t b E (proj1 says_plain v t S P)) as (m & Pm & Rest). exists m. split; [apply Pm|exact Rest].
Qed.
Print Assumptions C36_roundtrip.

(** Two encodings, one a prefix of the other, are of the same value. *)
Theorem C36_unambiguous : forall (v v' : value) (t t' : tree) (b more : bytes),
  says v t -> says v' t' -> value_encode v = Ok b -> value_encode v' = Ok (b ++ more) -> t = t' /\ more = [].
Proof.
  intros v v' t t' b more S S' E E'. apply (proj1 encode_wire v t S) in E. apply (proj1 encode_wire v' t' S') in E'.
  destruct (proj1 wire_prefix_free t b E (proj1 says_ok _ _ S) t' _ more [] (proj1 says_ok _ _ S') E') as (A & B & C).
  - now rewrite app_nil_r.
  - auto.
Qed.
Print Assumptions C36_unambiguous.

(** The values the property is about: every one of them says something, and Encode accepts it unless a count or a
    length does not fit in 16 bits. *)
Inductive solid : value -> Prop :=
| solid_prim d : solid (VPrim (Some d))
| solid_arr e l : l <> [] -> (forall v, In v l -> solid v) -> solid (VArr e l).
Theorem C36_covered : forall v, solid v -> plain v /\ exists t, says v t.
Proof.
  induction 1 as [d|e l Hl H IH].
  - split; [constructor|]. exists (TPrim d). constructor.
  - split; [constructor; intros v Hv; apply (IH v Hv)|].
    assert (exists ts, says_all l ts) as (ts & S).
    { clear Hl H. induction l as [|v l IHl]; [exists []; constructor|].
      destruct (IHl (fun x Hx => IH x (or_intror Hx))) as (ts & S). destruct (IH v (or_introl eq_refl)) as (_ & t & St).
      exists (t :: ts). now constructor. }
    exists (TArr ts). now constructor.
Qed.
Print Assumptions C36_covered.

Definition nested : value :=
  va_append (va_append new_value_array (VPrim (Some [x61; x62])))
            (va_append (va_append new_value_array (VPrim (Some []))) (VPrim (Some [x63]))).
Example C36_applies :
  solid nested /\ value_encode nested = Ok [x41; x02; x0b; x01; x02; x61; x62; x41; x02; x04; x00; x01; x01; x63] /\
  exists m, new_std_value ([x41; x02; x0b; x01; x02; x61; x62; x41; x02; x04; x00; x01; x01; x63] ++ [xff]) = Ok (m, 14%Z) /\
    fresh_at m [1; 1]%N = Ok (MVal [x01; x01; x63] [x63] BPrim).
Proof.
  split; [|split; [reflexivity|eexists; split; reflexivity]].
  constructor; [discriminate|]. intros v [<-|[<-|[]]]; [constructor|]. constructor; [discriminate|].
  intros v [<-|[<-|[]]]; constructor.
Qed.

(** ** C37: parsing a value from untrusted bytes is safe *)
Theorem C37_parse_safe : forall buf : bytes, new_std_value buf <> Panic.
Proof. exact new_std_no_panic. Qed.
Print Assumptions C37_parse_safe.

Theorem C37_parse_inside : forall (buf : bytes) (m : mval) (n : Z), new_std_value buf = Ok (m, n) ->
  (1 <= n <= zlen buf)%Z /\ mv_buf m = firstn (Z.to_nat n) buf.
Proof.
  intros buf m n H. destruct (std_decode_inv _ _ _ H) as (l & ct & body & suf & -> & L & -> & ->).
  pose proof (layout_nonempty _ _ _ L). pose proof (zlen_nonneg suf). cbn [mv_buf]. split.
  - rewrite zlen_app. unfold zlen in *. lia.
  - rewrite firstn_app_exact; [reflexivity|]. unfold zlen. lia.
Qed.
Print Assumptions C37_parse_inside.

(** The content is part of the bytes and shorter, and the declared size has at most 16 bits. *)
Theorem C37_parse_content : forall (buf : bytes) (m : mval) (n : Z), new_std_value buf = Ok (m, n) ->
  (exists h, h <> [] /\ mv_buf m = h ++ mv_content m) /\ (mv_size m < 65536)%N.
Proof.
  intros buf m n H. destruct (std_decode_inv _ _ _ H) as (l & ct & body & suf & -> & L & -> & ->). cbn [mv_buf mv_content].
  destruct L as [mg sf lf c sa sr lc na nr Z0 Fa Fr Fl Em]. split.
  - exists (mg :: sf ++ lf). split; [discriminate|]. cbn [app]. now rewrite <- app_assoc.
  - assert (forall n k f, raw_field n k f -> (n < 65536)%N) as B.
    { intros n k f []; [lia|pose proof (b2n_bound b); lia|pose proof (b2n_bound h); pose proof (b2n_bound l); lia]. }
    pose proof (B _ _ _ Fa). pose proof (B _ _ _ Fr). unfold mv_size. cbn [mv_body].
    destruct sr as [|p]; cbn [rec_body]; [|rewrite repeat_length; lia].
    destruct sa as [|p]; cbn [arr_body]; [lia|rewrite repeat_length; lia].
Qed.
Print Assumptions C37_parse_content.

Example C37_applies :
  new_std_value [] = Err /\ new_std_value [xc0] = Err /\ new_std_value [x01; x05; x00] = Err /\
  exists m, new_std_value [x51; x01; x01; x07] = m /\ m = Err /\
  new_std_value [x02; x00; x01; x09; x09] = Ok (MVal [x02; x00; x01; x09] [x09] BPrim, 4%Z).
Proof. repeat split; try reflexivity. eexists. repeat split; reflexivity. Qed.

(** ** C38: value parsing depends only on the consumed bytes *)
Theorem C38_locality : forall (buf : bytes) (m : mval) (n : Z) (other : bytes),
  new_std_value buf = Ok (m, n) -> new_std_value (firstn (Z.to_nat n) buf ++ other) = Ok (m, n).
Proof.
  intros buf m n other H. destruct (std_decode_inv _ _ _ H) as (l & ct & body & suf & -> & L & -> & ->).
  rewrite firstn_app_exact by (unfold zlen; lia). now apply std_decode_layout.
Qed.
Print Assumptions C38_locality.

(** No encoding read this way is a proper prefix of another. *)
Theorem C38_prefix_free : forall (a more : bytes) (m m' : mval),
  new_std_value a = Ok (m, zlen a) -> new_std_value (a ++ more) = Ok (m', zlen (a ++ more)) -> more = [].
Proof.
  intros a more m m' H H'. pose proof (C38_locality a m (zlen a) more H) as Q.
  rewrite <- (firstn_all a) in H' at 1. replace (Z.to_nat (zlen a)) with (length a) in Q by (unfold zlen; lia).
  rewrite Q in H'. injection H' as _ E. rewrite zlen_app in E. destruct more; [reflexivity|]. unfold zlen in E. simpl length in E. lia.
Qed.
Print Assumptions C38_prefix_free.

Example C38_applies : exists m, new_std_value [x01; x01; x61; x62] = Ok (m, 3%Z) /\ new_std_value [x01; x01; x61; x63; x64] = Ok (m, 3%Z).
Proof. eexists. split; reflexivity. Qed.

(** ** C39: lazy element access is order independent *)
Theorem C39_order_independent : forall (c b ct : bytes) (cells : list vcell) (n : Z) (ms : list mval) (r : bytes) (idxs : list N),
  new_std_value c = Ok (MVal b ct (BArr cells), n) -> reads ct ms r -> length ms = length cells ->
  run_value_at (MVal b ct (BArr cells)) idxs =
  map (fun i => match nth_error ms (N.to_nat i) with Some e => Ok (VCell e) | None => Err end) idxs.
Proof.
  intros c b ct cells n ms r idxs P R L. rewrite (fresh_cells _ _ _ _ _ P), <- L.
  pose proof (run_expected ms r idxs b ct (length ms) 0 false R (or_introl eq_refl) (Nat.le_0_l _) ltac:(discriminate)) as Q.
  cbn [firstn map app] in Q. rewrite Nat.sub_0_r in Q. rewrite Q. clear.
  induction idxs as [|i idxs IH]; [reflexivity|]. cbn [expected map]. destruct (nth_error ms (N.to_nat i)) eqn:E.
  - now rewrite IH.
  - apply nth_error_None in E. destruct (Nat.leb_spec (length ms) (N.to_nat i)); [|lia]. now rewrite IH.
Qed.
Print Assumptions C39_order_independent.

(** To any depth, for clients that hold on to elements: following any paths through the live object, in any order,
    shows what a fresh parse shows. *)
Theorem C39_nested : forall (c : bytes) (m : mval) (n : Z) (paths : list (list N)),
  new_std_value c = Ok (m, n) -> well_formed m ->
  live_run m paths = map (fun p => rmap face (fresh_at m p)) paths.
Proof. intros c m n paths P W. apply live_run_coherent. eapply fresh_coherent; eassumption. Qed.
Print Assumptions C39_nested.

(** Encoded values are well formed, so both apply to them (see C36_roundtrip). *)
Example C39_applies : exists m, new_std_value [x41; x02; x0b; x01; x02; x61; x62; x41; x02; x04; x00; x01; x01; x63] = Ok (m, 14%Z) /\
  well_formed m /\
  live_run m [[1; 1]; [0]; [1; 0]; [1; 1]; [2]; [0; 0]]%N =
  [Ok (true, false, false, 0%N, Some [x63], [x01; x01; x63]); Ok (true, false, false, 0%N, Some [x61; x62], [x01; x02; x61; x62]);
   Ok (true, false, false, 0%N, Some [], [x00]); Ok (true, false, false, 0%N, Some [x63], [x01; x01; x63]); Err; Err].
Proof.
  destruct C36_applies as (S & E & _). destruct (C36_covered _ S) as (P & t & St).
  destruct (C36_roundtrip nested t _ [] St P E) as (m & Pm & _ & _ & W). exists m.
  rewrite app_nil_r in Pm. split; [exact Pm|]. split; [exact W|]. vm_compute in Pm. injection Pm as <-. reflexivity.
Qed.

(** ** C40: a failing element access keeps failing *)

(** Exact: [ms] are the elements that parse before the first one that does not. *)
Theorem C40_access_exact : forall (c b ct : bytes) (cells : list vcell) (n : Z),
  new_std_value c = Ok (MVal b ct (BArr cells), n) ->
  exists ms r, reads ct ms r /\ (length ms = length cells \/ length ms < length cells /\ new_std_value r = Err) /\
    forall idxs, run_value_at (MVal b ct (BArr cells)) idxs = expected (length cells) ms false idxs.
Proof.
  intros c b ct cells n P. destruct (reads_max (length cells) ct) as (ms & r & R & H). exists ms, r.
  split; [assumption|]. split; [assumption|]. intros idxs. rewrite (fresh_cells _ _ _ _ _ P) at 1.
  pose proof (run_expected ms r idxs b ct (length cells) 0 false R H (Nat.le_0_l _) ltac:(discriminate)) as Q.
  cbn [firstn map app] in Q. rewrite Nat.sub_0_r in Q. exact Q.
Qed.
Print Assumptions C40_access_exact.

(** The second call returns a nil element without an error; a call on a later element panics. *)
Theorem C40_failing_access_refuted :
  exists m n, new_std_value [x41; x03; x01; xff] = Ok (m, n) /\
    run_value_at m [0; 0; 1]%N = [Err; Ok VBroken; Panic].
Proof. eexists _, _. split; reflexivity. Qed.
Print Assumptions C40_failing_access_refuted.

(** The same for RecordAt. *)
Theorem C40_failing_record_refuted :
  exists m n, new_std_value [x11; x01; x02; x60; x00] = Ok (m, n) /\
    snd (record_at m 0) = Err /\ snd (record_at (fst (record_at m 0)) 0) = Ok RBroken.
Proof. eexists _, _. repeat split; reflexivity. Qed.
Print Assumptions C40_failing_record_refuted.

(** Missing: elements that do not parse. An access that fails because the index is out of range keeps failing,
    whatever happens in between. *)
Theorem C40_out_of_range_partial : forall (c : bytes) (m : mval) (n : Z) (idxs : list N) (k : nat) (i : N),
  new_std_value c = Ok (m, n) -> nth_error idxs k = Some i -> (mv_is_array m = false \/ (mv_size m <= i)%N) ->
  nth_error (run_value_at m idxs) k = Some Err.
Proof.
  intros c m n idxs k i P E H. destruct m as [b ct [|cells|cells]].
  - clear P H. revert k E. induction idxs as [|j idxs IH]; intros [|k] E; try discriminate; [reflexivity|]. exact (IH k E).
  - destruct H as [H|H]; [discriminate|]. unfold mv_size in H. cbn [mv_body] in H.
    destruct (C40_access_exact _ _ _ _ _ P) as (ms & r & R & L & Q). rewrite Q.
    assert (length ms <= length cells) as Lm by lia.
    assert (forall failed, nth_error (expected (length cells) ms failed idxs) k = Some Err) as G; [|apply G].
    clear -E H Lm. revert k E. induction idxs as [|j idxs IH]; intros k E failed; [destruct k; discriminate|].
    cbn [expected]. destruct k as [|k].
    + injection E as ->. assert (nth_error ms (N.to_nat i) = None) as -> by (apply nth_error_None; lia).
      destruct (Nat.leb_spec (length cells) (N.to_nat i)); [reflexivity|lia].
    + destruct (nth_error ms (N.to_nat j)); [exact (IH k E _)|].
      destruct (Nat.leb (length cells) (N.to_nat j)); [exact (IH k E _)|]. destruct failed; exact (IH k E _).
  - clear P H. revert k E. induction idxs as [|j idxs IH]; intros [|k] E; try discriminate; [reflexivity|]. exact (IH k E).
Qed.
Print Assumptions C40_out_of_range_partial.

Example C40_applies : exists m n, new_std_value [x41; x02; x03; x01; x01; x61] = Ok (m, n) /\
  run_value_at m [5; 0; 5]%N = [Err; Ok (VCell (MVal [x01; x01; x61] [x61] BPrim)); Err].
Proof. eexists _, _. split; reflexivity. Qed.

(** ** C41: copying preserves the encoding *)
Theorem C41_copy_construct : forall (v : value) (t : tree) (b suffix : bytes) (m : mval) (n : Z),
  says v t -> plain v -> value_encode v = Ok b -> new_std_value (b ++ suffix) = Ok (m, n) ->
  exists v', std_copy_construct m = Ok v' /\ says v' t /\ value_encode v' = Ok b.
Proof.
  intros v t b suf m n S P E Pm. pose proof E as W. apply (proj1 encode_wire v t S) in W.
  destruct (proj1 copy_wire t b W (proj1 says_plain v t S P)) as (m' & v' & Pm' & S' & _ & C).
  rewrite Pm' in Pm. injection Pm as -> _. exists v'. split; [|split; [assumption|now apply (proj1 encode_wire v' t S')]].
  unfold std_copy_construct. destruct (new_std_split _ _ _ (Pm' [])) as (_ & L). apply C. unfold zlen in L. lia.
Qed.
Print Assumptions C41_copy_construct.

(** Also after elements have been accessed along any paths. *)
Fixpoint after (m : mval) (paths : list (list N)) : mval :=
  match paths with [] => m | p :: ps => after (fst (live_at m p)) ps end.
Theorem C41_copy_construct_accessed : forall (c : bytes) (m : mval) (n : Z) (paths : list (list N)),
  new_std_value c = Ok (m, n) -> well_formed m -> std_copy_construct (after m paths) = std_copy_construct m.
Proof.
  intros c m n paths P W. pose proof (fresh_coherent _ _ _ P W) as C.
  assert (forall ps x, coherent x m -> coherent (after x ps) m) as G.
  { induction ps as [|p ps IH]; intros x Cx; cbn [after]; [assumption|]. apply IH. now apply live_at_coherent. }
  specialize (G paths m C). unfold std_copy_construct. rewrite (coherent_buf _ _ G). eapply copy_coherent; eassumption.
Qed.
Print Assumptions C41_copy_construct_accessed.

(** In-memory copies: of any values and records made with the API. *)
Theorem C41_copy : forall v v' : value, made v -> value_copy v = Ok v' -> value_encode v' = value_encode v.
Proof. intros v v' M E. apply (proj1 copy_encode v M v' E). Qed.
Print Assumptions C41_copy.
Theorem C41_record_copy : forall r r' : record, rmade r -> record_copy r = Ok r' -> record_encode r' = record_encode r.
Proof. intros r r' M. now apply (proj2 copy_encode). Qed.
Print Assumptions C41_record_copy.
Theorem C41_copy_succeeds : forall v, plain v -> exists v', value_copy v = Ok v' /\ value_encode v' = value_encode v.
Proof.
  intros v P. destruct (plain_copy v P) as (v' & E). exists v'. split; [assumption|].
  exact (C41_copy v v' (plain_made v P) E).
Qed.
Print Assumptions C41_copy_succeeds.

Example C41_applies :
  value_copy nested = Ok (VArr 1 [VPrim (Some [x61; x62]); VArr 1 [VPrim (Some []); VPrim (Some [x63])]]) /\
  exists m n v', new_std_value [x41; x02; x0b; x01; x02; x61; x62; x41; x02; x04; x00; x01; x01; x63] = Ok (m, n) /\
    std_copy_construct (after m [[1; 0]; [0]]%N) = Ok v' /\
    value_encode v' = Ok [x41; x02; x0b; x01; x02; x61; x62; x41; x02; x04; x00; x01; x01; x63].
Proof. split; [reflexivity|]. eexists _, _, _. repeat split; vm_compute; reflexivity. Qed.

(** ** C42: value arrays behave as lists *)

(** Exact: as lists whose size is seen modulo 65536. *)
Theorem C42_history_exact : forall (e : Z) (l : list value) (ops : list va_op),
  fst (va_run (VArr e l) ops) = fst (list_run (fun n => (n mod 65536)%N) l ops) /\
  va_elems (snd (va_run (VArr e l) ops)) = snd (list_run (fun n => (n mod 65536)%N) l ops).
Proof. intros e l ops. destruct (va_run_exact ops e l) as (e' & E). rewrite E. split; reflexivity. Qed.
Print Assumptions C42_history_exact.

(** Missing: arrays of 65536 elements and more. *)
Theorem C42_history_partial : forall (e : Z) (l : list value) (ops : list va_op),
  (N.of_nat (length l + appends ops) < 65536)%N ->
  fst (va_run (VArr e l) ops) = fst (list_run (fun n => n) l ops) /\
  va_elems (snd (va_run (VArr e l) ops)) = snd (list_run (fun n => n) l ops).
Proof. intros e l ops H. rewrite <- (list_run_small ops l H). apply C42_history_exact. Qed.
Print Assumptions C42_history_partial.

(** After 65536 appends the array reports size 0 and refuses every index. *)
Theorem C42_history_refuted : forall v : value, exists ops,
  fst (va_run new_value_array (ops ++ [ASize; AAt 0%N])) = repeat ODone (N.to_nat 65536) ++ [OSize 0%N; ORefused] /\
  fst (list_run (fun n => n) [] (ops ++ [ASize; AAt 0%N])) = repeat ODone (N.to_nat 65536) ++ [OSize 65536%N; OElem v].
Proof.
  intros v. exists (repeat (AAppend v) (N.to_nat 65536)). unfold new_value_array.
  rewrite (proj1 (C42_history_exact _ _ _)). rewrite !list_run_app, !list_run_appends. cbn [fst snd app].
  cbn [list_run fst]. rewrite repeat_length, N2Nat.id. split; [reflexivity|].
  assert (nth_error (repeat v (N.to_nat 65536)) (N.to_nat 0) = Some v) as ->; [|reflexivity].
  rewrite <- (Nat.succ_pred (N.to_nat 65536)) by lia. reflexivity.
Qed.
Print Assumptions C42_history_refuted.

Example C42_applies :
  fst (va_run new_value_array [AAppend (VPrim (Some [x61])); AAppend (VPrim None); ASize; AAt 1%N; ADelete 0%N; AAt 0%N; ASize; AAt 1%N; ADelete 7%N]) =
  [ODone; ODone; OSize 2%N; OElem (VPrim None); ODone; OElem (VPrim None); OSize 1%N; ORefused; OPanic].
Proof. reflexivity. Qed.

(** ** C43: the estimated buffer size *)

(** Exact for primitives: one byte too small for 1 to 127 and for 256 to 32767 bytes. *)
Theorem C43_primitive_exact : forall (d b : bytes), prim_encode (Some d) = Ok b ->
  value_est (VPrim (Some d)) =
  (zlen b - if (1 <=? zlen d) && (zlen d <=? 127) || (256 <=? zlen d) && (zlen d <=? 32767) then 1 else 0)%Z.
Proof.
  intros d b E. destruct (prim_est d b E) as [->|(H & ->)].
  - destruct (Z.leb_spec 1 (zlen d)), (Z.leb_spec (zlen d) 127), (Z.ltb_spec (zlen d) 128), (Z.leb_spec 256 (zlen d)),
      (Z.leb_spec (zlen d) 32767), (Z.ltb_spec (zlen d) 32768); cbn [andb orb]; lia.
  - destruct (Z.leb_spec 1 (zlen d)), (Z.leb_spec (zlen d) 127), (Z.leb_spec 256 (zlen d)),
      (Z.leb_spec (zlen d) 32767); cbn [andb orb]; lia.
Qed.
Print Assumptions C43_primitive_exact.

(** Exact for keys made by adding sub keys: an upper bound only if there are fewer than 128 and each is shorter than
    128 bytes. *)
Theorem C43_key_exact : forall (subs : list gslice) (k k' : ikey) (b : bytes),
  Forall (fun s => (zlen (gcontent s) + 10 < 2 ^ 63)%Z) subs -> (zlen subs < 2 ^ 63)%Z ->
  add_all new_key subs = Ok k -> key_encode k = Ok k' -> ikey_buf k' = Ok (Some b) ->
  (ikey_est k <= zlen b)%Z /\ ikey_est k' = zlen b /\
  ((zlen b <= ikey_est k)%Z <-> length subs < 128 /\ forall s, In s subs -> length (gcontent s) < 128).
Proof.
  intros subs k k' b F L A E B. unfold new_key in A. apply add_all_est in A. subst k. cbn [app key_encode ikey_est] in *.
  assert (Forall sized (map gcontent subs)) as Fz.
  { rewrite Forall_map. revert F. apply Forall_impl. intros s H. unfold sized. exact H. }
  destruct (key_bytes_exists (map gcontent subs) Fz) as (l & Kl); [unfold zlen in *; rewrite map_length; assumption|].
  rewrite (encode_keys_spec subs l Kl Fz) in E.
  - destruct (_ <? _)%Z in E; [discriminate|]. cbn [rbind] in E. injection E as <-. cbn [ikey_buf] in B. injection B as ->.
    cbn [ikey_est]. destruct (key_est_exact subs b Kl) as (B1 & B2). split; [assumption|]. split; [reflexivity|]. assumption.
  - exact L.
Qed.
Print Assumptions C43_key_exact.

Theorem C43_estimate_refuted :
  (exists v b, value_encode v = Ok b /\ (value_est v < zlen b)%Z) /\
  (exists k k' b, add_all new_key [Some (repeat x61 200)] = Ok k /\ key_encode k = Ok k' /\ ikey_buf k' = Ok (Some b) /\ (ikey_est k < zlen b)%Z).
Proof.
  split.
  - exists (VPrim (Some [x61])), [x01; x01; x61]. split; reflexivity.
  - eexists _, _, _. repeat split; vm_compute; reflexivity.
Qed.
Print Assumptions C43_estimate_refuted.

(** Missing: the estimate itself. It is at most 4 bytes per array and 1 byte per primitive too small, for values made by
    appending; and exact after Encode. *)
Theorem C43_bound_partial : forall (v : value) (b : bytes), appended v -> value_encode v = Ok b ->
  (zlen b <= value_est v + slack v)%Z.
Proof. intros v b A E. exact (est_bound v A b E). Qed.
Print Assumptions C43_bound_partial.
Theorem C43_after_encode_partial : forall (e : Z) (l : list value) (v' : value) (b : bytes),
  va_encode (VArr e l) = (v', Ok b) -> value_est v' = zlen b /\ value_encode v' = Ok b.
Proof.
  intros e l v' b E. unfold va_encode in E. destruct (value_encode (VArr e l)) as [b'| |] eqn:Q; inversion E; subst.
  split; [|exact Q]. cbn [value_est]. rewrite value_encode_arr in Q.
  destruct (size_header 6 (length l)) as [[m s]| |]; cbn [rbind] in Q; try discriminate.
  destruct (encode_values l) as [c| |]; cbn [rbind] in Q; try discriminate.
  assert (1 <= zlen b)%Z; [|destruct (Z.leb_spec (zlen b) 0); lia]. unfold with_content in Q.
  destruct (zlen c =? 0)%Z; [inversion Q; rewrite zlen_cons; pose proof (zlen_nonneg s); lia|].
  destruct (zlen c <? 256)%Z; [inversion Q; rewrite zlen_cons; match goal with |- context [zlen ?x] => pose proof (zlen_nonneg x) end; lia|].
  destruct (zlen c <? 65536)%Z; [|discriminate].
  inversion Q; rewrite zlen_cons; match goal with |- context [zlen ?x] => pose proof (zlen_nonneg x) end; lia.
Qed.
Print Assumptions C43_after_encode_partial.

Example C43_applies :
  value_est nested = 8%Z /\ slack nested = 11%Z /\ appended nested /\ prim_encode (Some [x61]) = Ok [x01; x01; x61] /\
  exists v', va_encode nested = (v', Ok [x41; x02; x0b; x01; x02; x61; x62; x41; x02; x04; x00; x01; x01; x63]) /\ value_est v' = 14%Z.
Proof.
  split; [reflexivity|]. split; [reflexivity|]. split; [|split; [reflexivity|]].
  - apply (appended_arr [VPrim (Some [x61; x62]); VArr 4 [VPrim (Some []); VPrim (Some [x63])]]).
    intros v [<-|[<-|[]]]; [constructor|]. apply (appended_arr [VPrim (Some []); VPrim (Some [x63])]).
    intros v [<-|[<-|[]]]; constructor.
  - eexists. split; reflexivity.
Qed.
