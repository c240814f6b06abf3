(** * Theorems about decoding again (C103, C104). *)
From Coq Require Import List NArith ZArith Bool.
From Coq Require Import Strings.Byte.
From Verif Require Import Base VarintModel KeyModel ValueModel KindModel RefillModel RefillSpec RefillProofs.
Import ListNotations.
Local Open Scope Z_scope.

(** C103. After the caller has written other bytes into the buffer of a parsed value or key, a Decode that succeeds
    makes it answer as a new parse of these bytes would, and says so with IsDecoded; a Decode that fails leaves it as it
    was; and Decode without a write in between changes nothing. *)

(** NewStandardMappedValue's object is [s_new]. Decode answers as a new parse of the window's bytes. The counts follow
    the heading of the bytes, also when Decode fails later; a heading without elements leaves them as they were. The
    window and the content change exactly when Decode succeeds. *)
Theorem C103_value_exact : forall (mem : bytes) o o' r, s_buf mem o <> [] -> s_decode mem o = (o', r) ->
  r = outcome (new_std_value (s_buf mem o)) /\
  counts_of o' = look (heading_of (s_buf mem o)) (counts_of o) /\
  (forall m n, new_std_value (s_buf mem o) = Ok (m, n) ->
     s_buf mem o' = mv_buf m /\ range mem (s_content o') = mv_content m /\ s_decoded o' = true) /\
  ((forall n, r <> Ok n) -> s_len o' = s_len o /\ s_content o' = s_content o /\ s_decoded o' = s_decoded o).
Proof.
  intros mem o o' r NE D. destruct (value_exact mem o o' r NE D) as (R & C & S & X).
  split; [exact R|split; [exact C|split; [|exact X]]]. intros m n E. destruct (S m n E) as (S1 & S2 & S3 & _). auto.
Qed.
Print Assumptions C103_value_exact.

(** When a value decoded again answers as a new parse of the bytes. *)
Theorem C103_value_shows_exact : forall (mem : bytes) o o' m n,
  new_std_value (s_buf mem o) = Ok (m, n) -> s_decode mem o = (o', Ok n) ->
  (s_face mem o' = face_of (VStd m) <->
   match heading_of (s_buf mem o) with
   | AsPrimitive => s_arr o = None /\ s_recs o = None /\ s_size o = 0%N
   | AsArray _ => s_recs o = None
   | AsRecords _ => s_arr o = None
   end).
Proof. exact face_exact. Qed.
Print Assumptions C103_value_shows_exact.

(** In particular the first Decode, in the constructor, does. *)
Theorem C103_value_first : forall (buf : bytes) o' m n,
  new_std_value buf = Ok (m, n) -> s_decode buf (s_new (length buf)) = (o', Ok n) -> s_face buf o' = face_of (VStd m).
Proof.
  intros buf o' m n E D.
  assert (s_buf buf (s_new (length buf)) = buf) as B by (unfold s_buf; cbn [s_new s_len]; apply firstn_all).
  apply (C103_value_shows_exact buf (s_new (length buf)) o' m n); [rewrite B; exact E|exact D|].
  destruct (heading_of (s_buf buf (s_new (length buf)))); repeat split.
Qed.
Print Assumptions C103_value_first.

(** Which elements can be looked at after a Decode that succeeded: those below the size of the bytes now there; the others give an error, but
    elements beyond those that an earlier content of the other kind had give a panic. *)
Definition look_at (held : option N) (size idx : N) : res unit :=
  match held with
  | None => Err
  | Some n => if (idx <? size)%N then if (idx <? n)%N then Ok tt else Panic else Err
  end.
Theorem C103_elements_exact : forall (mem : bytes) o o' n idx, s_buf mem o <> [] -> s_decode mem o = (o', Ok n) ->
  match heading_of (s_buf mem o) with
  | AsPrimitive => s_value_at o' idx = look_at (s_arr o) (s_size o) idx /\ s_record_at o' idx = look_at (s_recs o) (s_size o) idx
  | AsArray n => s_value_at o' idx = (if (idx <? n)%N then Ok tt else Err) /\ s_record_at o' idx = look_at (s_recs o) n idx
  | AsRecords n => s_record_at o' idx = (if (idx <? n)%N then Ok tt else Err) /\ s_value_at o' idx = look_at (s_arr o) n idx
  end.
Proof.
  intros mem o o' r idx NE D. destruct (value_exact mem o o' (Ok r) NE D) as (_ & C & _). unfold counts_of, s_value_at, s_record_at, look_at in *.
  destruct (heading_of (s_buf mem o)) as [|n|n]; cbn [look] in C; injection C as -> -> ->; rewrite ?N.leb_antisym.
  - split; [destruct (s_arr o)|destruct (s_recs o)]; try reflexivity; destruct (idx <? s_size o)%N; reflexivity.
  - split; [|destruct (s_recs o); [|reflexivity]]; destruct (idx <? n)%N; reflexivity.
  - split; [|destruct (s_arr o); [|reflexivity]]; destruct (idx <? n)%N; reflexivity.
Qed.
Print Assumptions C103_elements_exact.
Example C103_elements_applies :
  exists o1 o2, s_decode [x10; x00] (s_new 2) = (o1, Ok 2) /\ s_decode [x40; x05] o1 = (o2, Ok 2) /\
    s_value_at o2 4 = Ok tt /\ s_value_at o2 5 = Err /\ s_record_at o2 0 = Panic /\ s_record_at o2 5 = Err.
Proof. do 2 eexists. do 5 (split; [reflexivity|]). reflexivity. Qed.

(** Decode again without a write in between: the same answer, and nothing changes. *)
Theorem C103_value_again : forall (mem : bytes) o o' n, s_buf mem o <> [] -> s_decode mem o = (o', Ok n) ->
  s_decode mem o' = (o', Ok n).
Proof. exact value_again. Qed.
Print Assumptions C103_value_again.

(** Whatever is written and however often it is decoded: an array stays an array, a record list stays a record
    list, and the window never grows. *)
Theorem C103_value_sticky : forall (mems : list bytes) o,
  (s_arr o <> None -> s_arr (s_after mems o) <> None) /\ (s_recs o <> None -> s_recs (s_after mems o) <> None).
Proof. exact value_sticky. Qed.
Print Assumptions C103_value_sticky.
Theorem C103_value_window : forall (mem : bytes) o,
  (length (s_buf mem (fst (s_decode mem o))) <= length (s_buf mem o))%nat.
Proof. exact value_shrinks. Qed.
Print Assumptions C103_value_window.

(** Length-prefixed values keep all of it. *)
Theorem C103_simple_exact : forall (mem : bytes) o o' r, p_decode mem o = (o', r) ->
  r = outcome (new_simple_value (p_buf mem o)) /\
  (forall b c n, new_simple_value (p_buf mem o) = Ok (VSimple b c, n) ->
     p_buf mem o' = b /\ range mem (p_content o') = c /\ p_decoded o' = true) /\
  ((forall n, r <> Ok n) -> o' = o).
Proof. exact simple_exact. Qed.
Print Assumptions C103_simple_exact.
Theorem C103_simple_again : forall (mem : bytes) o o' n, p_decode mem o = (o', Ok n) -> p_decode mem o' = (o', Ok n).
Proof. exact simple_again. Qed.
Print Assumptions C103_simple_again.

(** A new object: its first Decode is the parse, and until one succeeds it is not decoded and has no content. *)
Theorem C103_simple_first : forall (buf : bytes) o' r, p_decode buf (p_new (length buf)) = (o', r) ->
  r = outcome (new_simple_value buf) /\
  (forall b c n, new_simple_value buf = Ok (VSimple b c, n) -> p_buf buf o' = b /\ range buf (p_content o') = c /\ p_decoded o' = true) /\
  ((forall n, r <> Ok n) -> p_buf buf o' = buf /\ range buf (p_content o') = [] /\ p_decoded o' = false).
Proof.
  intros buf o' r D. assert (p_buf buf (p_new (length buf)) = buf) as B by (apply firstn_all).
  destruct (C103_simple_exact buf _ o' r D) as (R & S & F). rewrite B in R, S. split; [exact R|]. split; [exact S|].
  intros N. rewrite (F N). split; [exact B|]. split; reflexivity.
Qed.
Print Assumptions C103_simple_first.
Example C103_simple_first_applies :
  p_decode [x02; x61; x62; x07] (p_new 4) = (PVal 3 (1%nat, 2%nat) true, Ok 3) /\ p_decode [x05; x61] (p_new 2) = (p_new 2, Err).
Proof. split; reflexivity. Qed.
(** A new key: the first Decode is the parse. *)
Theorem C103_key_first : forall (buf : bytes) o' r, k_decode buf k_new = (o', r) ->
  r = outcome (decode_keys buf) /\
  (forall ks n, decode_keys buf = Ok (ks, n) -> k_keys o' = ks /\ k_decoded o' = true) /\
  ((forall n, r <> Ok n) -> k_decoded o' = false /\
     (k_keys o' = [] \/ exists n l (known : list bytes), decode_uvarint64 buf = Ok (n, l) /\ (length known < N.to_nat n)%nat /\
        k_keys o' = map Some known ++ repeat None (N.to_nat n - length known))).
Proof. intros buf o' r D. exact (key_exact buf k_new o' r D). Qed.
Print Assumptions C103_key_first.
Example C103_key_first_applies :
  k_decode [x02; x01; x61; x01; x62] k_new = (KVal [Some [x61]; Some [x62]] true, Ok 5) /\
  k_decode [x02; x01; x61; x05] k_new = (KVal [Some [x61]; None] false, Err).
Proof. split; reflexivity. Qed.

(** Keys: a Decode that fails may leave the sub keys read so far, and nil for the others. *)
Theorem C103_key_exact : forall (buf : bytes) o o' r, k_decode buf o = (o', r) ->
  r = outcome (decode_keys buf) /\
  (forall ks n, decode_keys buf = Ok (ks, n) -> k_keys o' = ks /\ k_decoded o' = true) /\
  ((forall n, r <> Ok n) -> k_decoded o' = k_decoded o /\
     (k_keys o' = k_keys o \/
      exists n l (known : list bytes), decode_uvarint64 buf = Ok (n, l) /\ (length known < N.to_nat n)%nat /\
        k_keys o' = map Some known ++ repeat None (N.to_nat n - length known))).
Proof. exact key_exact. Qed.
Print Assumptions C103_key_exact.
Theorem C103_key_again : forall (buf : bytes) o o' n, k_decode buf o = (o', Ok n) -> k_decode buf o' = (o', Ok n).
Proof. exact key_again. Qed.
Print Assumptions C103_key_again.

(** Values: an array of no elements refilled with an empty primitive is still an array; refilled with a record list of five
    it is both, and looking at its fourth element panics; refilled with an array that misses its content, Decode fails
    and the size is another one. Keys: a Decode that fails loses the sub key; IsDecoded of a parsed key is
    false. *)
Theorem C103_refuted :
  (exists o1 o2 m, s_decode [x40; x00; x07] (s_new 3) = (o1, Ok 2) /\
     s_decode [x01; x00; x07] o1 = (o2, Ok 2) /\ new_std_value [x01; x00] = Ok (m, 2) /\
     f_prim (face_of (VStd m)) = true /\ f_prim (s_face [x01; x00; x07] o2) = false /\
     f_value (face_of (VStd m)) = Some [] /\ f_value (s_face [x01; x00; x07] o2) = None) /\
  (exists o1 o2, s_decode [x40; x00] (s_new 2) = (o1, Ok 2) /\ s_decode [x10; x05] o1 = (o2, Ok 2) /\
     f_arr (s_face [x10; x05] o2) = true /\ f_recs (s_face [x10; x05] o2) = true /\ s_value_at o2 3 = Panic) /\
  (exists o1 o2, s_decode [x40; x02] (s_new 2) = (o1, Ok 2) /\ s_decode [x41; x07] o1 = (o2, Err) /\
     s_size o1 = 2%N /\ s_size o2 = 7%N) /\
  (exists o1 o2, k_decode [x01; x01; x61] k_new = (o1, Ok 3) /\ k_decode [x01; x05; x61] o1 = (o2, Err) /\
     k_keys o1 = [Some [x61]] /\ k_keys o2 = [None]) /\
  (exists k, new_mapped_key (Some [x01; x01; x61]) = Ok (k, 3) /\ ikey_is_decoded k = false).
Proof.
  split; [|split; [|split; [|split]]].
  - do 3 eexists. do 6 (split; [reflexivity|]). reflexivity.
  - do 2 eexists. do 4 (split; [reflexivity|]). reflexivity.
  - do 2 eexists. do 3 (split; [reflexivity|]). reflexivity.
  - do 2 eexists. do 3 (split; [reflexivity|]). reflexivity.
  - eexists. split; reflexivity.
Qed.
Print Assumptions C103_refuted.

(** A parsed primitive refilled with an array of two: it answers as the array. *)
Example C103_applies :
  exists o1 o2 m, s_decode [x01; x03; x61; x62; x63] (s_new 5) = (o1, Ok 5) /\
    s_decode [x41; x02; x02; x00; x00] o1 = (o2, Ok 5) /\ new_std_value [x41; x02; x02; x00; x00] = Ok (m, 5) /\
    s_face [x41; x02; x02; x00; x00] o2 = face_of (VStd m) /\ s_size o2 = 2%N.
Proof. do 3 eexists. do 4 (split; [reflexivity|]). reflexivity. Qed.

(** C104. The same for parsed records. *)

(** Decode answers as a new parse of the window's bytes. When it succeeds, key, value and scheme are those of the new
    bytes; the timestamp and the signature are those of the new bytes if these have them, and else the old ones. When
    it fails, some of key, value and scheme may be new. *)
Theorem C104_record_exact : forall (mem : bytes) o o' r, r_buf mem o <> [] -> r_decode mem o = (o', r) ->
  r = outcome (new_mapped_record (r_buf mem o)) /\
  (forall b k v s t g n, new_mapped_record (r_buf mem o) = Ok (MRec b k v s t g, n) ->
     exists m rest, r_buf mem o = m :: rest /\
     r_buf mem o' = b /\ r_key o' = Some k /\ r_value o' = Some v /\ r_scheme o' = Some s /\
     r_ts o' = (if N.testbit (b2n m) 2 then t else r_ts o) /\
     r_sig o' = (if N.testbit (b2n m) 1 then g else r_sig o) /\ r_decoded o' = true) /\
  ((forall n, r <> Ok n) ->
     o' = o \/
     exists m rest k n, r_buf mem o = m :: rest /\ new_mapped_key (Some rest) = Ok (k, n) /\
       (o' = put_key o k \/
        exists p1 q1 v n1, r_buf mem o = p1 ++ q1 /\ new_std_value q1 = Ok (v, n1) /\
          (o' = put_value (put_key o k) v \/
           exists p2 q2 s n2, r_buf mem o = p2 ++ q2 /\ new_std_value q2 = Ok (s, n2) /\
             o' = put_ts (put_scheme (put_value (put_key o k) v) s) None))).
Proof. exact record_exact. Qed.
Print Assumptions C104_record_exact.

(** When a record decoded again shows what a new parse of the bytes shows. *)
Theorem C104_record_shows_exact : forall (mem : bytes) o o' m n,
  new_mapped_record (r_buf mem o) = Ok (m, n) -> r_decode mem o = (o', Ok n) ->
  exists x rest, r_buf mem o = x :: rest /\
  (r_shows o' m <-> (N.testbit (b2n x) 2 = true \/ r_ts o = None) /\ (N.testbit (b2n x) 1 = true \/ r_sig o = None)).
Proof. exact record_face. Qed.
Print Assumptions C104_record_shows_exact.

(** Decode again without a write in between, for records whose empty key is written as one zero byte. Missing: empty keys
    written with more bytes, of which Decode passes over one only. *)
Theorem C104_record_again_partial : forall (mem : bytes) o o' n (m : byte) (r : list byte),
  r_buf mem o = m :: x00 :: r -> r_decode mem o = (o', Ok n) ->
  exists o2, r_decode mem o' = (o2, Ok n) /\ r_buf mem o2 = r_buf mem o' /\ keys_of (r_key o2) = keys_of (r_key o') /\
    r_value o2 = r_value o' /\ r_scheme o2 = r_scheme o' /\ r_ts o2 = r_ts o' /\ r_sig o2 = r_sig o' /\ r_decoded o2 = true.
Proof. exact record_again. Qed.
Print Assumptions C104_record_again_partial.

(** The objects of the examples below, computed. *)
Definition stamped_once := Eval vm_compute in
  fst (r_decode [x74; x00; x01; x01; x76; x00; x00; x00; x00; x00; x00; x00; x00; x05] (r_new 14)).
Definition stamped_gone := Eval vm_compute in
  fst (r_decode [x70; x00; x01; x01; x77; x00; x00; x00; x00; x00; x00; x00; x00; x05] stamped_once).
Definition stamped_again := Eval vm_compute in
  fst (r_decode [x74; x00; x01; x01; x77; x00; x00; x00; x00; x00; x00; x00; x00; x06] stamped_once).

(** A record with a timestamp refilled with one that has none keeps the old timestamp; refilled with one whose scheme
    cannot be read, Decode fails and the value is the new one beside the old scheme; and a record that was parsed cannot always be
    decoded again. *)
Theorem C104_refuted :
  (let first := [x74; x00; x01; x01; x76; x00; x00; x00; x00; x00; x00; x00; x00; x05] in
   let second := [x70; x00; x01; x01; x77; x00; x00; x00; x00; x00; x00; x00; x00; x05] in
   exists o1 o2 m, r_decode first (r_new 14) = (o1, Ok 14) /\ r_decode second o1 = (o2, Ok 6) /\
     new_mapped_record second = Ok (m, 6) /\ r_ts o2 <> None /\ ~ r_shows o2 m) /\
  (let first := [x70; x00; x01; x01; x76; x00] in
   let second := [x70; x00; x01; x01; x77; x0f] in
   exists o1 o2 v, r_decode first (r_new 6) = (o1, Ok 6) /\ r_decode second o1 = (o2, Err) /\
     r_value o1 <> Some v /\ r_value o2 = Some v /\ mv_value v = Some [x77] /\ r_scheme o2 = r_scheme o1) /\
  (let buf := [x70; x80; x80; x80; x80; x80; x80; x80; x00] in
   exists o1 o2, r_decode buf (r_new 9) = (o1, Ok 8) /\ r_decode buf o1 = (o2, Err)).
Proof.
  split; [|split]; cbv zeta.
  - exists stamped_once, stamped_gone. eexists.
    split; [vm_compute; reflexivity|]. split; [vm_compute; reflexivity|]. split; [vm_compute; reflexivity|].
    split; [discriminate|]. intros (_ & _ & _ & H & _). discriminate H.
  - do 3 eexists. split; [reflexivity|]. split; [reflexivity|].
    split; [|split; [reflexivity|split; reflexivity]]. discriminate.
  - do 2 eexists. split; reflexivity.
Qed.
Print Assumptions C104_refuted.

(** A record with a timestamp refilled with another one. *)
Example C104_applies :
  let first := [x74; x00; x01; x01; x76; x00; x00; x00; x00; x00; x00; x00; x00; x05] in
  let second := [x74; x00; x01; x01; x77; x00; x00; x00; x00; x00; x00; x00; x00; x06] in
  exists o1 o2 m, r_decode first (r_new 14) = (o1, Ok 14) /\ r_decode second o1 = (o2, Ok 14) /\
    new_mapped_record second = Ok (m, 14) /\ r_shows o2 m /\ r_ts o2 = Some 6.
Proof.
  cbv zeta. exists stamped_once, stamped_again. eexists.
  split; [vm_compute; reflexivity|]. split; [vm_compute; reflexivity|]. split; [vm_compute; reflexivity|].
  split; [repeat split|reflexivity].
Qed.
