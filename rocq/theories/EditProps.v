(** * Theorems about editable copies of parsed objects *)
From Coq Require Import List NArith ZArith Bool Lia.
From Coq Require Import Strings.Byte.
From Verif Require Import Base KeyModel ValueModel ViewModel ViewSpec ViewProofs ViewInv ViewStep ViewHist EditModel EditSpec EditProofs EditMore.
Import ListNotations.
Local Open Scope nat_scope.

(** ** C110: an editable copy says what the original says, and is independent of it *)

(** CopyConstruct on a parsed object, or on anything reached from it, as long as nothing was written into its buffer: it
    returns; a copy has the contents of the bytes, down to the last element; there is none only if some element cannot be
    read or a sub key is empty. The calls it makes on the original are calls the client could make as well, and none is a
    write: what the original answers later is covered by C96. *)
Theorem C110_contents : forall s k w s1 d, step s (OParse k w) = (s1, Ok (ARef d)) ->
  exists e, reads k (now (s_mem s) w 0 (w_len w)) = Some e /\
  forall ops s2 rs, Forall (spares w) ops -> run s1 ops = (s2, rs) ->
  forall a x, says d e ops rs a x ->
  exists s3 r, (forall fuel, extent x < fuel -> edit fuel s2 a = Some (s3, r)) /\
    (match r with Ok c => contents x (look (s_mem s3) c) | _ => forall t, ~ contents x t end) /\
    exists calls, Forall no_write calls /\ fst (run s2 calls) = s3.
Proof.
  intros s k w s1 d H. rewrite <- (now_rdw (s_mem s) w w 0) by (reflexivity || lia).
  destruct (parse_known k s w s1 d H) as (e & E & A & B & C). exists e. split; [exact A|].
  intros ops s2 rs Sp Hr a x Hs. destruct (history w s1 E d e B C ops s2 rs Sp Hr) as (E2 & I2 & K).
  specialize (K a x Hs). assert (P : proper x) by (eapply says_proper; [|exact Hs]; exists k; eauto).
  destruct (edit_total w (S (extent x)) s2 E2 a x I2 K P ltac:(lia)) as ((s3 & r) & Y). exists s3, r. split; [|split].
  - intros fuel L. exact (edit_more _ _ _ _ Y fuel L).
  - destruct (edit_ok w _ s2 E2 a x s3 r I2 K Y) as (_ & _ & _ & _ & Q). destruct r; [exact (proj1 Q)|exact Q|exact Q].
  - exact (edit_calls _ _ _ _ _ Y).
Qed.
Print Assumptions C110_contents.

(** There is only one such contents. *)
Theorem C110_contents_unique : forall e t t', contents e t -> contents e t' -> t = t'.
Proof. intros e t t' A B. exact (contents_unique _ _ B _ A). Qed.
Print Assumptions C110_contents_unique.

(** The bytes of a copy are in buffers of its own, one for each value, that did not exist before; nothing that existed is
    changed. This holds in every state. *)
Theorem C110_own_memory : forall fuel s a s2 c, edit fuel s a = Some (s2, Ok c) ->
  exists new, s_mem s2 = s_mem s ++ new /\ length (byte_slices c) = length new /\
    forall i w, nth_error (byte_slices c) i = Some w -> w = Win (length (s_mem s) + i) 0 (length (nth i new [])).
Proof.
  intros fuel s a s2 c H. destruct (edit_owns _ _ _ _ _ H) as (tl & M & ->). exists tl. split; [exact M|].
  split; [apply covers_length|apply covers_nth].
Qed.
Print Assumptions C110_own_memory.

(** So a copy of a value or of a record keeps its contents through any calls and any writes, into the buffer of the
    original too, as long as its own buffers are not written to. *)
Theorem C110_independent_partial : forall s k w s1 d, step s (OParse k w) = (s1, Ok (ARef d)) ->
  exists e, reads k (now (s_mem s) w 0 (w_len w)) = Some e /\
  forall ops s2 rs, Forall (spares w) ops -> run s1 ops = (s2, rs) ->
  forall a x, says d e ops rs a x -> (forall y, x <> RKey y) ->
  forall fuel s3 c, edit fuel s2 a = Some (s3, Ok c) ->
  forall later s4 rs4, (forall sl, In sl (byte_slices c) -> Forall (spares sl) later) -> run s3 later = (s4, rs4) ->
    look (s_mem s4) c = look (s_mem s3) c.
Proof.
  intros s k w s1 d H. rewrite <- (now_rdw (s_mem s) w w 0) by (reflexivity || lia).
  destruct (parse_known k s w s1 d H) as (e & E & A & B & C). exists e. split; [exact A|].
  intros ops s2 rs Sp Hr a x Hs Nk fuel s3 c Hc later s4 rs4 Sl Hl. destruct (history w s1 E d e B C ops s2 rs Sp Hr) as (E2 & I2 & K).
  specialize (K a x Hs). assert (P : proper x) by (eapply says_proper; [|exact Hs]; exists k; eauto).
  destruct (edit_ok w _ s2 E2 a x s3 _ I2 K Hc) as (_ & _ & _ & _ & Q1 & Q2).
  apply (later_same c s3 later s4 rs4 Q2); [|exact Hl]. intros sl Hi. apply Sl. unfold slices in Hi.
  rewrite (keyless_slices (s_mem s3) c), app_nil_r in Hi; [exact Hi|]. apply (contents_keyless _ _ Q1 P). intros q ->. destruct (Nk q eq_refl).
Qed.
Print Assumptions C110_independent_partial.

(** A copy of a key has no bytes of its own: it shows what the original shows, now and after any writes. If a sub key is
    empty there is no copy. Here writes before the copy are allowed as well. *)
Theorem C110_key_exact : forall s w s1 d, step s (OParse KKey w) = (s1, Ok (ARef d)) ->
  exists y, reads KKey (now (s_mem s) w 0 (w_len w)) = Some (RKey y) /\
  forall ops s2 rs fuel, run s1 ops = (s2, rs) -> 0 < fuel ->
  if existsb (fun b => match gcontent b with [] => true | _ => false end) (ikey_keys y) then edit fuel s2 d = Some (s2, Panic)
  else exists c, edit fuel s2 d = Some (s2, Ok c) /\
    forall later s3 rs3, run s2 later = (s3, rs3) ->
      exists ks, tells s3 (OKeys d) = Ok (AKeys ks) /\ look (s_mem s3) c = SKey ks.
Proof.
  intros s w s1 d H. rewrite <- (now_rdw (s_mem s) w w 0) by (reflexivity || lia).
  cbn [step] in H. destruct (in_range (s_mem s) w) eqn:V; [|discriminate]. apply in_range_valid in V.
  unfold as_ref in H. cbn [parse_as] in H. unfold new_key_at, alloc in H. pose proof (parse_key_spec (s_mem s) w V) as Q. cbn [reads]. unfold bytes in *.
  destruct (parse_key (s_mem s) w) as [o| |]; try discriminate. cbn [fst snd rbind] in H. injection H as <- <-.
  destruct Q as (k & n & Q1 & ((ks & kw & Eo & Ek & Ik & Fk) & _ & _) & (ks' & E')). rewrite E' in Eo. injection Eo as -> ->. subst o.
  rewrite Q1. exists k. split; [reflexivity|]. intros ops s2 rs fuel Hr Lf. destruct fuel as [|fuel]; [lia|].
  destruct (run_shape _ _ _ _ Hr (length (s_objs s)) (PKey ks kw)) as (y & Y1 & <-); [apply nth_last|].
  assert (X : existsb (fun b => match gcontent b with [] => true | _ => false end) (ikey_keys k) = negb (forallb (fun w => negb (Nat.eqb (w_len w) 0)) ks)).
  { rewrite Ek. cbn [ikey_keys]. clear - Fk V. induction Fk as [|x ks Fx Fk IH]; [reflexivity|]. cbn [map existsb forallb]. rewrite IH, negb_andb, negb_involutive.
    f_equal. pose proof (rdw_length _ _ (valid_inside _ _ _ V Fx)) as L. cbn [gcontent]. destruct (rdw (s_mem s) x); rewrite <- L; reflexivity. }
  rewrite X. cbn [edit]. rewrite Y1. unfold edit_key. destruct (forallb _ ks); cbn [negb]; [|reflexivity].
  exists (MKey ks). split; [reflexivity|]. intros later s3 rs3 Hl.
  destruct (run_shape _ _ _ _ Hl (length (s_objs s)) (PKey ks kw)) as (y & Z1 & <-); [exact Y1|].
  exists (map (rdw (s_mem s3)) ks). unfold tells. cbn [step snd look]. rewrite Z1. split; [reflexivity|]. f_equal. apply map_ext. intros x.
  symmetry. apply now_rdw; [reflexivity|lia].
Qed.
Print Assumptions C110_key_exact.

(** CopyConstruct of a record or of a key gives a copy or panics; it never returns an error. *)
Theorem C110_panic_or_copy : forall fuel s a s2 r, is_a s a KRecord \/ is_a s a KKey -> edit fuel s a = Some (s2, r) -> r <> Err.
Proof.
  intros [|fuel] s a s2 r A; [discriminate|]. unfold is_a in A. cbn [edit].
  destruct (nth_error (s_objs s) a) as [[bw cw b|bw cw|ks w|bw k v c ts sig]|]; try (destruct A; contradiction).
  - unfold edit_key. destruct (forallb _ ks); intros [= _ <-]; discriminate.
  - destruct (edit fuel s k) as [[s1 [k'| |]]|]; try discriminate; try (intros [= _ <-]; discriminate).
    destruct (edit fuel s1 v) as [[s3 [v'| |]]|]; try discriminate; try (intros [= _ <-]; discriminate).
    destruct (edit fuel s3 c) as [[s4 [c'| |]]|]; try discriminate; intros [= _ <-]; discriminate.
Qed.
Print Assumptions C110_panic_or_copy.

(** ** Witnesses *)
Definition parsed (k : kind) (b : bytes) : st := fst (step (St [b] []) (OParse k (Win 0 0 (length b)))).
Definition answer (r : option (st * res made)) : option (res shown) :=
  match r with Some (s, r) => Some (rmap (look (s_mem s)) r) | None => None end.
Definition array_bytes : bytes := [x41; x02; x06; x01; x01; x41; x01; x01; x42].
Definition record_bytes : bytes := [x74; x00; x01; x01; x41; x00; x00; x00; x00; x00; x00; x00; x00; x05].
Definition key_bytes : bytes := [x02; x01; x41; x01; x42].
Definition hollow_bytes : bytes := [x02; x01; x41; x00].
Definition broken_bytes : bytes := [x41; x03; x05; x01; x01; x41; xff; xff].
Definition broken_record : bytes := [x70; x00] ++ broken_bytes ++ [x00].

(** A write into the buffer a key was parsed from changes the copy of the key that was made before. *)
Theorem C110_key_shares_refuted : exists c s2,
  edit 1 (parsed KKey key_bytes) 0 = Some (s2, Ok c) /\ look (s_mem s2) c = SKey [[x41]; [x42]] /\
  look (s_mem (fst (run s2 [OWrite 0 2 x58]))) c = SKey [[x58]; [x42]].
Proof. eexists. eexists. split; [vm_compute; reflexivity|]. split; vm_compute; reflexivity. Qed.
Print Assumptions C110_key_shares_refuted.

(** A parsed key with an empty sub key answers its sub keys, and panics when it is copied. *)
Theorem C110_empty_sub_key_refuted :
  tells (parsed KKey hollow_bytes) (OKeys 0) = Ok (AKeys [[x41]; []]) /\ answer (edit 9 (parsed KKey hollow_bytes) 0) = Some Panic.
Proof. split; vm_compute; reflexivity. Qed.
Print Assumptions C110_empty_sub_key_refuted.

(** An array with an element that cannot be read gives an error the first time and a panic the second time, though nothing
    was written; a record with such a value panics the first time. *)
Theorem C110_unreadable_refuted : exists s2,
  edit 9 (parsed KValue broken_bytes) 0 = Some (s2, Err) /\ answer (edit 9 s2 0) = Some Panic /\
  tells (parsed KRecord broken_record) (OTail 0) = Ok (ATail None None) /\
  answer (edit 12 (parsed KRecord broken_record) 0) = Some Panic.
Proof. eexists. split; [vm_compute; reflexivity|]. split; [vm_compute; reflexivity|]. split; vm_compute; reflexivity. Qed.
Print Assumptions C110_unreadable_refuted.

(** Copies of an array and of a record, and the original's buffer overwritten afterwards. *)
Example C110_applies :
  (exists c s2, edit 10 (parsed KValue array_bytes) 0 = Some (s2, Ok c) /\ look (s_mem s2) c = SArray [SBytes [x41]; SBytes [x42]] /\
     byte_slices c = [Win 1 0 1; Win 2 0 1] /\ look (s_mem (fst (run s2 [OWrite 0 5 x58; OWrite 0 0 x00]))) c = look (s_mem s2) c /\
     look (s_mem (fst (run s2 [OWrite 2 0 x58]))) c = SArray [SBytes [x41]; SBytes [x58]] /\
     tells (fst (run s2 [OWrite 2 0 x58])) (OContent 2) = Ok (ABytes (Some [x42]))) /\
  answer (edit 15 (parsed KRecord record_bytes) 0) = Some (Ok (SRecord (SKey []) (SBytes [x41]) (SBytes []) (Some 5%Z) None)).
Proof.
  split; [|vm_compute; reflexivity]. eexists. eexists. split; [vm_compute; reflexivity|]. split; [vm_compute; reflexivity|].
  split; [vm_compute; reflexivity|]. split; [vm_compute; reflexivity|]. split; vm_compute; reflexivity.
Qed.
(** The hypotheses of the theorems are met: an element that was handed out before, copied after other calls. *)
Example C110_contents_applies :
  let ops := [OMake [x00]; OValueAt 0 1] in
  exists s1 s2 rs m x, step (St [array_bytes] []) (OParse KValue (Win 0 0 9)) = (s1, Ok (ARef 0)) /\ Forall (spares (Win 0 0 9)) ops /\
    run s1 ops = (s2, rs) /\ reads KValue array_bytes = Some (RVal m) /\ says 0 (RVal m) ops rs 2 (RVal x) /\ mv_content x = [x42] /\
    answer (edit 4 s2 2) = Some (Ok (SBytes [x42])) /\ answer (edit 4 s2 0) = Some (Ok (SArray [SBytes [x41]; SBytes [x42]])).
Proof.
  cbv zeta. do 4 eexists. exists (MVal [x01; x01; x42] [x42] BPrim). split; [vm_compute; reflexivity|]. split.
  { repeat (apply Forall_cons; [intros b i x H; discriminate H|]). apply Forall_nil. }
  split; [vm_compute; reflexivity|]. split; [vm_compute; reflexivity|]. split.
  { eapply says_value with (j := 1) (i := 1).
    - apply says_start.
    - reflexivity.
    - reflexivity.
    - vm_compute. reflexivity. }
  split; [reflexivity|]. split; vm_compute; reflexivity.
Qed.
