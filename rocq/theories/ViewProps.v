(** * Theorems about parsed objects that look into a buffer *)
From Coq Require Import List NArith ZArith Bool Lia.
From Coq Require Import Strings.Byte.
From Verif Require Import Base KeyModel ValueModel ViewModel ViewSpec ViewProofs ViewInv ViewStep ViewHist.
Import ListNotations.
Local Open Scope nat_scope.

(** ** C96: parsed objects show the bytes that are now in the buffer *)

(** Where the parts of a parsed object lie is settled when it is parsed. From then on Buf, Value, Key and the Buf of the
    value and of the scheme of a record are the bytes that are at these places now, after any calls and writes; kind,
    size, timestamp and signature never change. *)
Theorem C96_windows_exact : forall s k w s1 d, step s (OParse k w) = (s1, Ok (ARef d)) ->
  exists e, reads k (now (s_mem s) w 0 (w_len w)) = Some e /\ exists places refs, forall ops s2 rs, run s1 ops = (s2, rs) ->
    window_answers e (s_mem s) w places refs d s2.
Proof.
  intros s k w s1 d H. rewrite <- (now_rdw (s_mem s) w w 0) by (reflexivity || lia). exact (windows k s w s1 d H).
Qed.
Print Assumptions C96_windows_exact.

(** Which slices are parsed: those whose bytes are; the others fail in the same way, and leave everything as it was. *)
Definition outcome {A} (r : res A) : res unit := rmap (fun _ => tt) r.
Definition parse_outcome (k : kind) (b : bytes) : res unit :=
  match k with
  | KValue => outcome (new_std_value b)
  | KSimple => outcome (new_simple_value b)
  | KKey => outcome (new_mapped_key (Some b))
  | KRecord => outcome (new_mapped_record b)
  end.
Theorem C96_parse_exact : forall s k w, w_blk w < length (s_mem s) -> w_off w + w_len w <= length (nth (w_blk w) (s_mem s) []) ->
  outcome (snd (step s (OParse k w))) = parse_outcome k (now (s_mem s) w 0 (w_len w)) /\
  (outcome (snd (step s (OParse k w))) <> Ok tt -> fst (step s (OParse k w)) = s).
Proof.
  intros s k w B L. rewrite <- (now_rdw (s_mem s) w w 0) by (reflexivity || lia).
  assert (V : valid (s_mem s) w) by (split; assumption).
  assert (in_range (s_mem s) w = true) as R.
  { unfold in_range. destruct (Nat.ltb_spec (w_blk w) (length (s_mem s))); [|lia]. destruct (Nat.leb_spec (w_off w + w_len w) (length (nth (w_blk w) (s_mem s) []))); [reflexivity|lia]. }
  cbn [step]. rewrite R. destruct k; cbn [parse_as parse_outcome].
  - pose proof (parse_value_spec (s_mem s) w V) as P. unfold new_value, alloc, as_ref. destruct (parse_value (s_mem s) w); cbn.
    + destruct P as (m & n & -> & _). split; [reflexivity|]. intros C. exfalso. now apply C.
    + rewrite P. split; reflexivity.
    + rewrite P. split; reflexivity.
  - pose proof (parse_simple_spec (s_mem s) w V) as P. unfold new_simple, alloc, as_ref. destruct (parse_simple (s_mem s) w); cbn.
    + destruct P as (bw & cw & n & _ & -> & _). split; [reflexivity|]. intros C. exfalso. now apply C.
    + rewrite P. split; reflexivity.
    + rewrite P. split; reflexivity.
  - pose proof (parse_key_spec (s_mem s) w V) as P. unfold new_key_at, alloc, as_ref. destruct (parse_key (s_mem s) w); cbn.
    + destruct P as (k & n & -> & _). split; [reflexivity|]. intros C. exfalso. now apply C.
    + rewrite P. split; reflexivity.
    + rewrite P. split; reflexivity.
  - pose proof (parse_record_spec (s_mem s) w V) as P. unfold new_record_at, as_ref. destruct (parse_record (s_mem s) w) as [[[[ko vo] co] ro]| |]; cbn.
    + destruct P as (bw & ts & sig & k & v & c & kw & vw & cw & n & -> & _). split; [reflexivity|]. intros C. exfalso. now apply C.
    + rewrite P. split; reflexivity.
    + rewrite P. split; reflexivity.
Qed.
Print Assumptions C96_parse_exact.
(** A record whose key is cut off, one that panics, and a simple value. *)
Example C96_parse_exact_applies : parse_outcome KRecord [x74; x02; x01] = Err /\
  step (St [[x74; x02; x01]] []) (OParse KRecord (Win 0 0 3)) = (St [[x74; x02; x01]] [], Err) /\
  parse_outcome KRecord [x04; xff] = Panic /\ parse_outcome KSimple [x01; xff] = Ok tt.
Proof. repeat split; vm_compute; reflexivity. Qed.

(** No call but a write changes a byte that exists. *)
Theorem C96_only_writes : forall s o s2 r, step s o = (s2, r) -> forall b i, b < length (s_mem s) ->
  byte_at (s_mem s2) b i =
    match o with
    | OWrite b' i' x => if Nat.eqb b' b && Nat.eqb i' i && Nat.ltb i (length (nth b (s_mem s) [])) then Some x else byte_at (s_mem s) b i
    | _ => byte_at (s_mem s) b i
    end.
Proof. exact step_memory. Qed.
Print Assumptions C96_only_writes.

Definition array_bytes : bytes := [x41; x02; x06; x01; x01; x41; x01; x01; x42].
Definition record_bytes : bytes := [x74; x00; x01; x01; x41; x00; x00; x00; x00; x00; x00; x00; x00; x05].
Definition at_start (b : bytes) : st := St [b] [].

(** A write into the buffer changes an element that was handed out before, and the value of a record but not its
    timestamp. *)
Theorem C96_refuted :
  snd (run (at_start array_bytes)
     [OParse KValue (Win 0 0 9); OValueAt 0 1; OContent 1; OContent 2; OWrite 0 8 x58; OContent 2]) =
     [Ok (ARef 0); Ok (ARef 2); Ok (ABytes (Some [x41])); Ok (ABytes (Some [x42])); Ok ADone; Ok (ABytes (Some [x58]))] /\
  snd (run (at_start record_bytes)
     [OParse KRecord (Win 0 0 14); OPart 0 ValuePart; OContent 2; OTail 0; OWrite 0 4 x58; OWrite 0 13 x07; OContent 2; OTail 0]) =
     [Ok (ARef 0); Ok (ARef 2); Ok (ABytes (Some [x41])); Ok (ATail (Some 5%Z) None); Ok ADone; Ok ADone;
      Ok (ABytes (Some [x58])); Ok (ATail (Some 5%Z) None)].
Proof. split; vm_compute; reflexivity. Qed.
Print Assumptions C96_refuted.

(** An element that cannot be read is an error the first time only: then it is nil without an error, and those after it
    panic, though nothing was written. *)
Definition broken_bytes : bytes := [x41; x03; x05; x01; x01; x41; xff; xff].
Theorem C96_broken_element_refuted :
  exists m, reads KValue broken_bytes = Some (RVal m) /\ element m KValue 1 = None /\ element m KValue 2 = None /\
  snd (run (at_start broken_bytes) [OParse KValue (Win 0 0 8); OSize 0; OValueAt 0 0; OValueAt 0 1; OValueAt 0 1; OValueAt 0 2; OValueAt 0 0; OValueAt 0 3]) =
    [Ok (ARef 0); Ok (ASize 3); Ok (ARef 1); Err; Ok ANil; Panic; Ok (ARef 1); Err].
Proof. eexists. split; [vm_compute; reflexivity|]. split; [vm_compute; reflexivity|]. split; vm_compute; reflexivity. Qed.
Print Assumptions C96_broken_element_refuted.

(** An index past the end, and a value of another kind, is an error that changes nothing, in every state. *)
Theorem C96_out_of_range : forall s a i p v r n, is_a s a KValue ->
  tells s (OKind a) = Ok (AKind p v r) -> tells s (OSize a) = Ok (ASize n) ->
  (v = false \/ (n <= N.of_nat i)%N -> step s (OValueAt a i) = (s, Err)) /\
  (r = false \/ (n <= N.of_nat i)%N -> step s (ORecordAt a i) = (s, Err)).
Proof.
  intros s a i p v r n A K S. unfold is_a in A. unfold tells in K, S. cbn [step snd] in K, S.
  cbn [step]. destruct (nth_error (s_objs s) a) as [[bw cw [| cells | cells]| | |]|]; try destruct A.
  - injection K as <- <- <-. split; reflexivity.
  - injection K as <- <- <-. injection S as <-. split; [|reflexivity]. intros [H|H]; [discriminate|]. unfold elem_at.
    rewrite (proj2 (nth_error_None cells i)) by lia. reflexivity.
  - injection K as <- <- <-. injection S as <-. split; [reflexivity|]. intros [H|H]; [discriminate|]. unfold elem_at.
    rewrite (proj2 (nth_error_None cells i)) by lia. reflexivity.
Qed.
Print Assumptions C96_out_of_range.
Example C96_out_of_range_applies : let s := fst (step (at_start array_bytes) (OParse KValue (Win 0 0 9))) in
  is_a s 0 KValue /\ tells s (OKind 0) = Ok (AKind false true false) /\ tells s (OSize 0) = Ok (ASize 2) /\ step s (OValueAt 0 2) = (s, Err).
Proof. vm_compute. auto. Qed.

(** As long as nothing is written into the window an object was parsed from, the object and everything reached from it
    says what a parse of the bytes said: each call on each of them answers accordingly, whatever else is called. Elements
    are found exactly where the bytes hold them one after the other. *)
Theorem C96_untouched_partial : forall s k w s1 d, step s (OParse k w) = (s1, Ok (ARef d)) ->
  exists e, reads k (now (s_mem s) w 0 (w_len w)) = Some e /\
  forall ops s2 rs, Forall (spares w) ops -> run s1 ops = (s2, rs) ->
  forall j o r a x, nth_error ops j = Some o -> nth_error rs j = Some r -> says d e (firstn j ops) (firstn j rs) a x ->
    right x a o r.
Proof.
  intros s k w s1 d H. rewrite <- (now_rdw (s_mem s) w w 0) by (reflexivity || lia).
  destruct (parse_known k s w s1 d H) as (e & E & A & B & C). exists e. split; [exact A|].
  intros ops s2 rs. apply (history_right w s1 E d e B C).
Qed.
Print Assumptions C96_untouched_partial.

(** The rest of the block may be written, elements may be asked in any order, and other objects may look at the same bytes. *)
Definition array_block : bytes := xff :: array_bytes ++ [xee].
Example C96_applies :
  let ops := [OWrite 0 0 x00; OValueAt 0 1; OWrite 0 10 x00; OParse KValue (Win 0 4 3); OValueAt 0 0; OContent 1; OContent 2] in
  exists s1, step (at_start array_block) (OParse KValue (Win 0 1 9)) = (s1, Ok (ARef 0)) /\ Forall (spares (Win 0 1 9)) ops /\
    snd (run s1 ops) = [Ok ADone; Ok (ARef 2); Ok ADone; Ok (ARef 3); Ok (ARef 1); Ok (ABytes (Some [x41])); Ok (ABytes (Some [x42]))] /\
    exists m x, reads KValue array_bytes = Some (RVal m) /\ element m KValue 1 = Some (RVal x) /\ mv_content x = [x42] /\
      says 0 (RVal m) (firstn 6 ops) (firstn 6 (snd (run s1 ops))) 2 (RVal x).
Proof.
  cbv zeta. eexists. split; [vm_compute; reflexivity|]. split.
  { repeat (apply Forall_cons; [intros b i x H; try discriminate H; injection H as <- <- _; right; cbn; lia|]). apply Forall_nil. }
  split; [vm_compute; reflexivity|]. eexists. exists (MVal [x01; x01; x42] [x42] BPrim). split; [vm_compute; reflexivity|].
  split; [vm_compute; reflexivity|]. split; [reflexivity|].
  match goal with |- says _ _ ?o ?r _ _ => let r' := eval vm_compute in r in replace r with r' by (vm_compute; reflexivity) end.
  eapply says_value with (j := 1) (i := 1).
  - apply says_start.
  - reflexivity.
  - reflexivity.
  - vm_compute. reflexivity.
Qed.

(** ** C97: copies *)

(** Copy of a parsed value or record reads what Buf shows now. If that parses, the copy has a buffer of its own, and as long
    as that is not written to, the copy says what the bytes said, whatever happens to the original; if not, Copy panics. *)
Theorem C97_copy_exact : forall s a k b s1 r, is_a s a k -> k <> KKey -> tells s (OBuf a) = Ok (ABytes (Some b)) ->
  step s (OCopy a) = (s1, r) ->
  s_mem s1 = s_mem s ++ [b] /\
  match reads k b with
  | None => r = Panic
  | Some e => exists c, r = Ok (ARef c) /\
      forall ops s2 rs, Forall (spares (Win (length (s_mem s)) 0 (length b))) ops -> run s1 ops = (s2, rs) ->
      forall j o r' d x, nth_error ops j = Some o -> nth_error rs j = Some r' -> says c e (firstn j ops) (firstn j rs) d x -> right x d o r'
  end.
Proof.
  intros s a k b s1 r Ha Nk Hb Hc.
  assert (C : exists bw, as_ref (copy_into k s bw) = (s1, r) /\ rdw (s_mem s) bw = b).
  { unfold is_a in Ha. unfold tells in Hb. cbn [step snd] in Hb, Hc.
    destruct (nth_error (s_objs s) a) as [[bw cw body|bw cw|ks w|bw k' v c ts sig]|]; destruct k; try contradiction; try congruence;
      exists bw; split; try exact Hc; congruence. }
  destruct C as (bw & Hcp & <-). destruct (copy_into k s bw) as [s' q] eqn:Q. unfold as_ref in Hcp. cbn [fst snd] in Hcp.
  injection Hcp as <- <-. destruct (copy_ok k s bw s' q Q) as (M1 & _ & P). split; [exact M1|].
  destruct q as [c| |]; cbn [rbind].
  - destruct P as (e & E & P1 & P2 & P3). rewrite P1. exists c. split; [reflexivity|]. intros ops s2 rs.
    apply (history_right _ s' E c e P2 P3).
  - contradiction.
  - rewrite P. reflexivity.
Qed.
Print Assumptions C97_copy_exact.

(** Copies of keys keep looking into the same buffer: a write changes original and copy. A record that was parsed and not
    touched since can fail to parse again, because its key may be read beyond its end, and then Copy panics. So it does
    when the buffer was overwritten. *)
Theorem C97_key_shares_refuted :
  snd (run (at_start [x01; x01; x41]) [OParse KKey (Win 0 0 3); OCopy 0; OWrite 0 2 x58; OKeys 0; OKeys 1]) =
    [Ok (ARef 0); Ok (ARef 1); Ok ADone; Ok (AKeys [[x58]]); Ok (AKeys [[x58]])].
Proof. vm_compute. reflexivity. Qed.
Print Assumptions C97_key_shares_refuted.

Theorem C97_record_copy_refuted :
  let b := [x70; x80; x80; x80; x80; x80; x80; x80; x80; x00] in
  snd (run (at_start b) [OParse KRecord (Win 0 0 10); OBuf 0; OCopy 0]) =
    [Ok (ARef 0); Ok (ABytes (Some [x70; x80; x80; x80; x80; x80; x80; x80])); Panic].
Proof. vm_compute. reflexivity. Qed.
Print Assumptions C97_record_copy_refuted.

Theorem C97_overwritten_refuted :
  snd (run (at_start array_bytes) [OParse KValue (Win 0 0 9); OWrite 0 0 xff; OCopy 0]) = [Ok (ARef 0); Ok ADone; Panic].
Proof. vm_compute. reflexivity. Qed.
Print Assumptions C97_overwritten_refuted.

(** A value whose window was not written to can be copied at any time, and its Buf still reads the same. *)
Theorem C97_value_copy_partial : forall s k w s1 d, k = KValue \/ k = KSimple -> step s (OParse k w) = (s1, Ok (ARef d)) ->
  exists e, reads k (now (s_mem s) w 0 (w_len w)) = Some e /\
  forall ops s2 rs, Forall (spares w) ops -> run s1 ops = (s2, rs) ->
  exists b s3 c, tells s2 (OBuf d) = Ok (ABytes (Some b)) /\ reads k b = Some e /\ is_a s2 d k /\ step s2 (OCopy d) = (s3, Ok (ARef c)).
Proof.
  intros s k w s1 d Hk H. rewrite <- (now_rdw (s_mem s) w w 0) by (reflexivity || lia).
  destruct (parse_known k s w s1 d H) as (e & E & A & B & C). exists e. split; [exact A|].
  intros ops s2 rs Sp Hr. destruct (history w s1 E d e B C ops s2 rs Sp Hr) as (E2 & I2 & K).
  pose proof (proj2 I2 d e (K d e (says_start _ _ _ _))) as Hh.
  assert (P : exists b, tells s2 (OBuf d) = Ok (ABytes (Some b)) /\ reads k b = Some e /\ is_a s2 d k /\ k <> KKey).
  { destruct Hk as [-> | ->]; cbn [reads] in A.
    - destruct (new_std_value _) as [[m n]| |] in A; try discriminate. injection A as <-. cbn [holds] in Hh.
      destruct Hh as (bw & cw & body & N & _ & _ & Rb & _ & _ & _ & (b0 & n0 & J)). exists (mv_buf m).
      unfold tells, is_a. cbn [step snd reads]. rewrite N, Rb, (value_again _ _ _ J). splits; try reflexivity; try exact I; discriminate.
    - destruct (new_simple_value _) as [[v n]| |] eqn:D in A; try discriminate. destruct (simple_is_simple _ _ _ D) as (x & c & ->).
      injection A as <-. cbn [holds] in Hh. destruct Hh as (bw & cw & N & _ & _ & Rb & _ & (b0 & n0 & J)). exists x.
      unfold tells, is_a. cbn [step snd reads]. rewrite N, Rb, (simple_again _ _ _ _ J). splits; try reflexivity; try exact I; discriminate. }
  destruct P as (b & P1 & P2 & P3 & P4). destruct (step s2 (OCopy d)) as [s3 r] eqn:Q.
  destruct (C97_copy_exact s2 d k b s3 r P3 P4 P1 Q) as (_ & F). rewrite P2 in F. destruct F as (c & -> & _).
  exists b, s3, c. splits; try assumption. reflexivity.
Qed.
Print Assumptions C97_value_copy_partial.

Example C97_applies :
  snd (run (at_start array_bytes)
    [OParse KValue (Win 0 0 9); OCopy 0; OWrite 0 8 x58; OValueAt 1 1; OContent 3; OValueAt 0 1; OContent 5; OWrite 1 8 x59; OContent 3; OContent 5]) =
    [Ok (ARef 0); Ok (ARef 1); Ok ADone; Ok (ARef 3); Ok (ABytes (Some [x42])); Ok (ARef 5); Ok (ABytes (Some [x58])); Ok ADone;
     Ok (ABytes (Some [x59])); Ok (ABytes (Some [x58]))] /\
  is_a (fst (run (at_start array_bytes) [OParse KValue (Win 0 0 9)])) 0 KValue.
Proof. split; vm_compute; [reflexivity|exact I]. Qed.
