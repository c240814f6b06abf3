(** * C111: every IEncodable keeps the protocol that its interface describes. *)
From Coq Require Import List Bool Lia.
From Verif Require Import Base ProtoModel ProtoSpec ProtoProofs.
Import ListNotations.

Definition cls_eq_dec : forall a b : cls, {a = b} + {a <> b}.
Proof. decide equality. Defined.
Definition cls_eqb (a b : cls) : bool := if cls_eq_dec a b then true else false.
Lemma put_same : forall w i x, nth_error w i = Some x -> put w i x = w.
Proof.
  induction w as [|y w IH]; intros [|i] x H; try discriminate H; cbn in *; [now injection H as ->|]. now rewrite (IH _ _ H).
Qed.

(** A program that breaks a clause of the table, and the call that does. *)
Definition witness (c : cls) (cl : clause) : list event * call :=
  let good := Ok tt in
  match cl with
  | CEncode => ([New c true good], Encode good)
  | CIsDecoded => ([New c false good], IsDecoded)
  | CCopy => ([New c false good], Copy false good)
  | CCopyConstruct => ([New c true good], CopyConstruct Primitive good)
  | CIsEncoded =>
      match c with
      | ValueArray | RecordList => ([Zero c; On 0 (Encode good)], IsEncoded)
      | _ => ([New c false good; On 0 (Encode good); On 0 Update], IsEncoded)
      end
  | CBuf =>
      match c with
      | ValueArray | RecordList => ([Zero c; On 0 (Encode good)], Buf)
      | _ => ([New c false good; On 0 (Encode good); On 0 Update], Buf)
      end
  | CDecode => ([New c false good], Decode false good)
  end.

(** Which types can be made to break which clause: those of the table, and no others, whatever program is run and whatever
    the contents are. *)
Theorem C111_exact : forall c cl, defect c cl = true <-> exists es i k, breaks es i k c cl.
Proof.
  intros c cl. split.
  - intros D. exists (fst (witness c cl)), 0%nat, (snd (witness c cl)).
    destruct c, cl; try discriminate D; cbn; eexists; eexists;
      (split; [reflexivity|split; [reflexivity|split; [reflexivity|reflexivity]]]).
  - intros (es & i & k & f & a & Nf & <- & Na & K).
    destruct (asked es i k f a Nf Na) as (x & _ & R & ->).
    destruct (defect (f_cls f) cl) eqn:D; [reflexivity|]. rewrite (sound x f k cl R D) in K. discriminate K.
Qed.
Print Assumptions C111_exact.

(** The protocol in full for parsed values, primitives, records parsed and built, and built schemes. *)
Definition faithful (c : cls) : Prop :=
  In c [SimpleMappedValue; StandardMappedValue; Primitive; MappedRecord; Record_; Scheme].
Theorem C111_protocol_partial : forall es i k f a cl,
  nth_error (faces [] es (answers [] es)) i = Some f -> faithful (f_cls f) ->
  nth_error (answers [] (es ++ [On i k])) (length es) = Some (Some a) ->
  keeps cl f k a = true.
Proof.
  intros es i k f a cl Nf F Na. destruct (asked es i k f a Nf Na) as (x & _ & R & ->).
  apply sound; [assumption|]. unfold faithful in F. cbn in F.
  repeat (destruct F as [F|F]; [rewrite <- F; destruct cl; reflexivity|]). destruct F.
Qed.
Print Assumptions C111_protocol_partial.
(** And for arrays and record lists made by their constructors. *)
Theorem C111_lists_partial : forall es i k f a cl,
  no_zero_lists es = true ->
  nth_error (faces [] es (answers [] es)) i = Some f -> (f_cls f = ValueArray \/ f_cls f = RecordList) ->
  nth_error (answers [] (es ++ [On i k])) (length es) = Some (Some a) ->
  keeps cl f k a = true.
Proof.
  intros es i k f a cl Z Nf F Na. destruct (asked es i k f a Nf Na) as (x & Nx & R & ->).
  apply sound_lists; [assumption| |assumption].
  eapply Forall_forall; [apply (whole_world es [] (Forall_nil _) Z)|]. eapply nth_error_In; eassumption.
Qed.
Print Assumptions C111_lists_partial.

(** A record is built, encoded, changed and encoded again; a parsed value is copied both ways. *)
Definition tour : list event :=
  [New Record_ false (Ok tt); On 0 (Encode (Ok tt)); On 0 Update; On 0 (Encode Err);
   New StandardMappedValue false (Ok tt); On 1 (CopyConstruct ValueArray (Ok tt)); On 1 (Copy false (Ok tt));
   On 2 Update; On 2 (Encode (Ok tt)); On 0 IsEncoded; On 1 IsEncoded; On 2 IsEncoded; On 3 IsDecoded; On 2 Buf; On 0 Buf].
Example C111_protocol_applies :
  no_zero_lists tour = true /\
  faces [] tour (answers [] tour) =
    [Face Record_ false true; Face StandardMappedValue false true; Face ValueArray true true; Face StandardMappedValue false true] /\
  skipn 9 (answers [] tour) =
    [Some (ABool false); Some (ABool true); Some (ABool true); Some (ABool true); Some (ADone (Ok tt)); Some (ADone Panic)].
Proof. split; [reflexivity|split; reflexivity]. Qed.

(** MappedKey.IsDecoded answers the opposite of the truth, after every program. *)
Theorem C111_mapped_key_refuted : forall es i f,
  nth_error (faces [] es (answers [] es)) i = Some f -> f_cls f = MappedKey ->
  nth_error (answers [] (es ++ [On i IsDecoded])) (length es) = Some (Some (ABool (negb (f_parsed f)))) /\
  forall o, nth_error (answers [] (es ++ [On i (Encode o)])) (length es) = Some (Some (ADone (Ok tt))).
Proof.
  intros es i f Nf C. split.
  - destruct (answered es i IsDecoded f Nf) as (x & _ & [Cx R] & ->). rewrite C in Cx. rewrite Cx in R.
    cbn [answer_to fst snd]. unfold is_decoded. rewrite Cx, R. reflexivity.
  - intros o. destruct (answered es i (Encode o) f Nf) as (x & _ & [Cx R] & ->). rewrite C in Cx.
    cbn [answer_to]. unfold encode. rewrite Cx. reflexivity.
Qed.
Print Assumptions C111_mapped_key_refuted.
Example C111_mapped_key_applies :
  let es := [New MappedKey false (Ok tt); On 0 (Decode false (Ok tt))] in
  faces [] es (answers [] es) = [Face MappedKey false true].
Proof. reflexivity. Qed.

(** EmptyKey refuses neither Encode nor Decode, so it is neither mapped nor constructed, and its editable copy is no more
    editable than it. *)
Theorem C111_empty_key_refuted : forall es i f,
  nth_error (faces [] es (answers [] es)) i = Some f -> f_cls f = EmptyKey ->
  (forall o, nth_error (answers [] (es ++ [On i (Encode o)])) (length es) = Some (Some (ADone (Ok tt)))) /\
  (forall d o, nth_error (answers [] (es ++ [On i (Decode d o)])) (length es) = Some (Some (ADone (Ok tt)))) /\
  (forall c o, nth_error (answers [] (es ++ [On i (CopyConstruct c o)])) (length es) = Some (Some (ACopy (Ok EmptyKey)))) /\
  nth_error (answers [] (es ++ [On i Update])) (length es) = Some (Some (ADone Err)).
Proof.
  intros es i f Nf C. split; [|split; [|split]]; intros;
    match goal with |- nth_error (answers [] (es ++ [On i ?k])) _ = _ =>
      destruct (answered es i k f Nf) as (x & _ & [Cx _] & ->) end;
    rewrite C in Cx; cbn [answer_to]; unfold encode, decode, copy_construct, update; rewrite Cx; reflexivity.
Qed.
Print Assumptions C111_empty_key_refuted.
Example C111_empty_key_applies : faces [] [New EmptyKey false Err] (answers [] [New EmptyKey false Err]) = [Face EmptyKey false true].
Proof. reflexivity. Qed.

(** Once encoded, keys and trie nodes call themselves encoded for good: whatever is done afterwards, also changes of the
    content, they hand out the bytes they have. *)
Theorem C111_stale_refuted : forall es fs i f,
  nth_error (faces [] es (answers [] es)) i = Some f -> (f_cls f = Key \/ f_cls f = TrieNode) -> f_cache f = true ->
  nth_error (answers [] ((es ++ fs) ++ [On i IsEncoded])) (length (es ++ fs)) = Some (Some (ABool true)) /\
  nth_error (answers [] ((es ++ fs) ++ [On i Buf])) (length (es ++ fs)) = Some (Some (ADone (Ok tt))).
Proof.
  intros es fs i f Nf C K.
  destruct (forall2_nth rel _ _ i (world_rel es [] [] (Forall2_nil _))) as (_ & _ & F3).
  destruct (F3 f Nf) as (x & Nx & Cx & R).
  assert (Ex : o_encoded x = true) by (destruct C as [C|C]; rewrite C in Cx; rewrite Cx in R; auto).
  rewrite <- Cx in C.
  destruct (sticky fs _ i x Nx C Ex) as (y & Ny & Cy & Ey). rewrite <- world_app in Ny.
  rewrite !last_answer. cbn [step]. rewrite Ny. cbn [answer_to snd]. unfold buf, is_encoded.
  destruct Cy as [Cy|Cy]; rewrite Cy, Ey; split; reflexivity.
Qed.
Print Assumptions C111_stale_refuted.
(** A key is encoded and then gets a further sub key: the specification knows of no encoding, the key says it has one. *)
Example C111_stale_applies :
  let es := [New Key false (Ok tt); On 0 (Encode (Ok tt))] in
  let fs := [On 0 Update] in
  faces [] es (answers [] es) = [Face Key true true] /\ faces [] (es ++ fs) (answers [] (es ++ fs)) = [Face Key false true].
Proof. split; reflexivity. Qed.

(** A Trie never encodes, has no bytes, and its copies are mapped. *)
Theorem C111_trie_refuted : forall es i f,
  nth_error (faces [] es (answers [] es)) i = Some f -> f_cls f = Trie ->
  (forall o, nth_error (answers [] (es ++ [On i (Encode o)])) (length es) = Some (Some (ADone Panic))) /\
  nth_error (answers [] (es ++ [On i IsEncoded])) (length es) = Some (Some (ABool false)) /\
  nth_error (answers [] (es ++ [On i Buf])) (length es) = Some (Some (ADone Panic)) /\
  (forall d o, nth_error (answers [] (es ++ [On i (Copy d o)])) (length es) = Some (Some (ACopy (Ok MappedTrie)))) /\
  (forall c o, nth_error (answers [] (es ++ [On i (CopyConstruct c o)])) (length es) = Some (Some (ACopy (Ok MappedTrie)))).
Proof.
  intros es i f Nf C. split; [|split; [|split; [|split]]]; intros;
    match goal with |- nth_error (answers [] (es ++ [On i ?k])) _ = _ =>
      destruct (answered es i k f Nf) as (x & _ & [Cx R] & ->) end;
    rewrite C in Cx; rewrite Cx in R; destruct R as [R _]; cbn [answer_to];
    unfold encode, copy_construct, copy, buf, is_encoded; rewrite ?Cx, ?R; reflexivity.
Qed.
Print Assumptions C111_trie_refuted.
Example C111_trie_applies :
  let es := [New Trie false (Ok tt); On 0 Update; On 0 (Copy false (Ok tt))] in
  faces [] es (answers [] es) = [Face Trie false true; Face MappedTrie false true].
Proof. reflexivity. Qed.

(** A node of a parsed trie never counts as parsed, unless its bytes are those of a dummy node. *)
Theorem C111_trie_node_refuted : forall es i f,
  forallb no_dummy es = true ->
  nth_error (faces [] es (answers [] es)) i = Some f -> f_cls f = MappedTrieNode ->
  nth_error (answers [] (es ++ [On i IsDecoded])) (length es) = Some (Some (ABool false)).
Proof.
  intros es i f D Nf C. destruct (answered es i IsDecoded f Nf) as (x & Nx & [Cx _] & ->). rewrite C in Cx.
  cbn [answer_to fst snd]. unfold is_decoded. rewrite Cx.
  assert (W : real x).
  { eapply Forall_forall; [apply (real_world es [] (Forall_nil _) D)|]. eapply nth_error_In; eassumption. }
  unfold real in W. rewrite (W Cx). reflexivity.
Qed.
Print Assumptions C111_trie_node_refuted.
Example C111_trie_node_applies :
  let es := [New MappedTrieNode false (Ok tt); On 0 (Decode false (Ok tt))] in
  forallb no_dummy es = true /\ faces [] es (answers [] es) = [Face MappedTrieNode false true] /\
  answers [] es = [Some (ACopy (Ok MappedTrieNode)); Some (ADone (Ok tt))].
Proof. split; [reflexivity|split; reflexivity]. Qed.

(** Copying a MappedScheme gives a Scheme, parsed or not. *)
Theorem C111_mapped_scheme_refuted : forall es i f d o,
  nth_error (faces [] es (answers [] es)) i = Some f -> f_cls f = MappedScheme ->
  nth_error (answers [] (es ++ [On i (Copy d o)])) (length es) = Some (Some (ACopy (Ok Scheme))).
Proof.
  intros es i f d o Nf C. destruct (answered es i (Copy d o) f Nf) as (x & _ & [Cx _] & ->). rewrite C in Cx.
  cbn [answer_to fst snd]. unfold copy. rewrite Cx. reflexivity.
Qed.
Print Assumptions C111_mapped_scheme_refuted.
Example C111_mapped_scheme_applies :
  faces [] [New MappedScheme false (Ok tt)] (answers [] [New MappedScheme false (Ok tt)]) = [Face MappedScheme false false].
Proof. reflexivity. Qed.

(** ** What happens when the contents do not allow a call *)

(** Constructors: those that parse hand on an error or a panic of the parser; NewMappedTrieNode drops the error and returns
    the node; all others do not look at the contents. *)
Theorem C111_new : forall es c d o,
  nth_error (answers [] (es ++ [New c d o])) (length es) = Some (Some (ACopy (
    match o with
    | Ok _ => Ok c
    | Err => if existsb (cls_eqb c) [MappedKey; SimpleMappedValue; StandardMappedValue; MappedRecord; MappedTrie] then Err else Ok c
    | Panic => if existsb (cls_eqb c) [MappedKey; SimpleMappedValue; StandardMappedValue; MappedRecord; MappedTrie; MappedTrieNode] then Panic else Ok c
    end))).
Proof. intros es c d o. rewrite last_answer. cbn [step snd]. destruct c, o; reflexivity. Qed.
Print Assumptions C111_new.

(** Copies that cannot be made: Copy never returns an error, it panics; CopyConstruct of keys and trie nodes panics, of
    parsed values, lists and records it hands on the error. *)
Theorem C111_failed_copies : forall es i f d c o,
  nth_error (faces [] es (answers [] es)) i = Some f -> o <> Ok tt ->
  nth_error (answers [] (es ++ [On i (Copy d o)])) (length es) = Some (Some (ACopy (
    match f_cls f with
    | EmptyKey | Primitive | Scheme => Ok (f_cls f)
    | MappedScheme => Ok Scheme
    | Trie => Ok MappedTrie
    | _ => Panic
    end))) /\
  nth_error (answers [] (es ++ [On i (CopyConstruct c o)])) (length es) = Some (Some (ACopy (
    match f_cls f with
    | EmptyKey => Ok EmptyKey
    | SimpleMappedValue | Primitive => Ok Primitive
    | MappedScheme | Scheme => Ok Scheme
    | Trie => Ok MappedTrie
    | MappedTrie | MappedTrieNode => Err
    | MappedKey | Key | TrieNode => Panic
    | StandardMappedValue | ValueArray | RecordList | MappedRecord | Record_ => match o with Err => Err | _ => Panic end
    end))).
Proof.
  intros es i f d c o Nf No. split;
    match goal with |- nth_error (answers [] (es ++ [On i ?k])) _ = _ =>
      destruct (answered es i k f Nf) as (x & _ & [Cx _] & ->) end;
    rewrite <- Cx; cbn [answer_to fst snd]; unfold copy, copy_construct;
    destruct (o_cls x), o as [[]| |]; try reflexivity; congruence.
Qed.
Print Assumptions C111_failed_copies.

(** Encode and Decode that cannot be done: the type that does the work hands on the error or the panic, and afterwards the
    object answers as before. *)
Theorem C111_failed_work : forall es i f o,
  nth_error (faces [] es (answers [] es)) i = Some f -> o <> Ok tt ->
  (existsb (cls_eqb (f_cls f)) [Key; Primitive; Record_; Scheme; TrieNode] = true ->
   nth_error (answers [] (es ++ [On i (Encode o)])) (length es) = Some (Some (ADone o)) /\
   world [] (es ++ [On i (Encode o)]) = world [] es) /\
  (existsb (cls_eqb (f_cls f)) [MappedKey; SimpleMappedValue; StandardMappedValue; MappedRecord; MappedScheme; MappedTrie; MappedTrieNode] = true ->
   forall d, nth_error (answers [] (es ++ [On i (Decode d o)])) (length es) = Some (Some (ADone o)) /\
   world [] (es ++ [On i (Decode d o)]) = world [] es).
Proof.
  intros es i f o Nf No. split; [intros H|intros H d];
    match goal with |- nth_error (answers [] (es ++ [On i ?k])) _ = _ /\ _ =>
      destruct (answered es i k f Nf) as (x & Nx & [Cx _] & ->) end;
    rewrite world_app; cbn [world step]; rewrite Nx; rewrite <- Cx in H; cbn [answer_to];
    unfold encode, decode; destruct (o_cls x); try discriminate H; destruct o as [[]| |]; try congruence; cbn [fst snd];
    (split; [reflexivity|rewrite app_nil_r; apply put_same; exact Nx]).
Qed.
Print Assumptions C111_failed_work.

(** Updates: taken by the six editable types, refused by all others, also by trie nodes that were parsed. *)
Theorem C111_updates : forall es i f,
  nth_error (faces [] es (answers [] es)) i = Some f ->
  nth_error (answers [] (es ++ [On i Update])) (length es) = Some (Some (ADone (
    if existsb (cls_eqb (f_cls f)) [Key; ValueArray; RecordList; Record_; Trie; TrieNode] then Ok tt else Err))).
Proof.
  intros es i f Nf. destruct (answered es i Update f Nf) as (x & _ & [Cx _] & ->). rewrite <- Cx.
  cbn [answer_to]. unfold update. destruct (o_cls x); reflexivity.
Qed.
Print Assumptions C111_updates.
Example C111_failed_applies :
  answers [] [New MappedTrieNode false Err; New StandardMappedValue false Err; New StandardMappedValue false (Ok tt);
              On 1 (Copy false Err); On 1 (CopyConstruct Primitive Err); On 0 Update; On 1 (Decode false Panic)] =
  [Some (ACopy (Ok MappedTrieNode)); Some (ACopy Err); Some (ACopy (Ok StandardMappedValue));
   Some (ACopy Panic); Some (ACopy Err); Some (ADone Err); Some (ADone Panic)].
Proof. reflexivity. Qed.
