(** * Theorems about EstBufSize over all histories of calls. *)
From Coq Require Import List NArith ZArith Bool Arith Lia.
From Coq Require Import Strings.Byte.
From Verif Require Import Base BaseProofs VarintSpec VarintProofs KeyModel KeySpec KeyProofs KeyProps ValueModel ObjModel ObjSpec ObjProofs ObjHistory EstSpec EstProofs.
Import ListNotations.

(** ** C109: estimated sizes of what is put together *)

(** Exact, for every history of calls and every object: EstBufSize is what the ledger says. The ledger is credited with the size an
    element had when it was appended and debited with the size it has when it is deleted. *)
Theorem C109_ledger : forall (ops : list op) (h : heap) (a : ref), run empty_heap ops = Some h ->
  size_of h a = shown h (ledger_after empty_heap no_entries ops) a.
Proof. intros ops h a R. apply kept_shown. exact (kept_run ops _ _ _ empty_sound (empty_kept no_entries) R). Qed.
Print Assumptions C109_ledger.

(** After an Encode that returns no error EstBufSize of an array or key is the length of Buf. *)
Theorem C109_after_encode : forall (ops : list op) (h : heap) (a : ref), run empty_heap ops = Some h ->
  (forall l n h', array_of h a l -> venc n h a = Some (h', Ok tt) -> exists b, buf_of h' a = Ok (Some b) /\ size_of h' a = zlen b) /\
  (forall e ks b est h', get h a = Some (OKeyObj e ks b est) -> key_enc h a = (h', Ok tt) -> exists b, buf_of h' a = Ok (Some b) /\ size_of h' a = zlen b).
Proof.
  intros ops h a R. pose proof (run_sound _ _ _ empty_sound R) as S. split.
  - intros l n h' A E. exact (encode_array n h a h' l S E A).
  - intros e ks b est h' G E. exact (encode_key h a h' e ks b est E G).
Qed.
Print Assumptions C109_after_encode.
(** An Encode of a key that is too long reports an error, changes nothing, and the program goes on. *)
Theorem C109_failed_encode : forall (ops : list op) (h : heap) (a : ref) e ks b est,
  run empty_heap ops = Some h -> get h a = Some (OKeyObj e ks b est) -> (zlen ks < 2 ^ 63)%Z -> Forall sized (map gcontent (map (rd h) ks)) ->
  (4096 < fold_right (fun k n => zlen (gcontent k) + n) 0 (map (rd h) ks))%Z ->
  key_enc h a = (h, Err) /\ step h (EncodeKey a) = Some h.
Proof.
  intros ops h a e ks b est R G Hk S L.
  assert (encode_keys (map (rd h) ks) = Err) as E.
  { destruct (C29_key_limit (map (rd h) ks) S) as (l & (n & ls & M & F & ->) & _ & X); [unfold zlen in *; now rewrite map_length|].
    apply X. clear X. rewrite zlen_app. pose proof (zlen_nonneg n) as Hn.
    assert (fold_right (fun k n => zlen (gcontent k) + n) 0 (map (rd h) ks) <= zlen (concat ls))%Z; [|lia].
    clear - F. revert ls F. induction (map (rd h) ks) as [|k l IH]; intros ls F; cbn [map] in F; inversion F as [|? x ? ls' V F' E1 E2]; subst;
      cbn [fold_right concat]; [unfold zlen; simpl; lia|]. rewrite zlen_app. specialize (IH _ F').
    assert (zlen (gcontent k) <= zlen x)%Z; [|lia]. destruct V as (m & HM & ->). rewrite zlen_app. pose proof (zlen_nonneg m). lia. }
  assert (key_enc h a = (h, Err)) as K by (unfold key_enc; rewrite G, E; reflexivity).
  split; [exact K|]. unfold step. now rewrite K.
Qed.
Print Assumptions C109_failed_encode.
Example C109_failed_encode_applies : exists h ks b est,
  run empty_heap [NewBytes (repeat x61 4097); NewKeyObj; AddSub 0 (Some (Sl 0 0 4097))] = Some h /\
  get h 0 = Some (OKeyObj false ks b est) /\ Forall sized (map gcontent (map (rd h) ks)) /\
  (4096 < fold_right (fun k n => zlen (gcontent k) + n) 0 (map (rd h) ks))%Z.
Proof.
  do 4 eexists. split; [vm_compute; reflexivity|]. split; [vm_compute; reflexivity|].
  split; [constructor; [vm_compute; reflexivity|constructor]|vm_compute; reflexivity].
Qed.
(** So does the program after every other Encode and Copy that reports an error. *)
Theorem C109_goes_on : forall (h h' : heap) (n : nat) (a : ref),
  (venc n h a = Some (h', Err) -> step h (EncodeVal n a) = Some h') /\ (renc n h a = Some (h', Err) -> step h (EncodeRec n a) = Some h') /\
  (key_enc h a = (h', Err) -> step h (EncodeKey a) = Some h') /\
  (vcopy n h a = Some (h', Err) -> step h (CopyVal n a) = Some h') /\ (rcopy n h a = Some (h', Err) -> step h (CopyRec n a) = Some h') /\
  (key_copy h a = (h', Err) -> step h (CopyKey a) = Some h').
Proof.
  intros h h' n a. split; [intros E; unfold step; now rewrite E|]. split; [intros E; unfold step; now rewrite E|].
  split; [intros E; unfold step; now rewrite E|]. split; [intros E; unfold step; now rewrite E|].
  split; intros E; unfold step; now rewrite E.
Qed.
Print Assumptions C109_goes_on.
Example C109_goes_on_applies : exists h h1 h2,
  run empty_heap [NewBytes (repeat x61 4097); NewKeyObj; AddSub 0 (Some (Sl 0 0 4097)); NewRec; SetKeyOf 1 0; NewRecs; AppendRec 2 1] = Some h /\
  renc 5 h 1 = Some (h1, Err) /\ venc 5 h 2 = Some (h2, Err).
Proof. do 3 eexists. split; [vm_compute; reflexivity|]. split; vm_compute; reflexivity. Qed.
(** No Encode changes EstBufSize of anything else: primitives, lists of records, records and parsed objects. *)
Theorem C109_encode_keeps : forall (ops : list op) (o : op) (h h' : heap) (a : ref),
  run empty_heap ops = Some h -> step h o = Some h' -> is_encode o = true -> counts_buf h a = false -> size_of h' a = size_of h a.
Proof. intros ops o h h' a R H E N. exact (encode_keeps h o h' a (run_sound _ _ _ empty_sound R) H E N). Qed.
Print Assumptions C109_encode_keeps.

(** Missing: calls on an object after it was put into another one, Encode and Copy. Histories without these keep the sums right. *)
Theorem C109_adds_up_partial : forall (ops : list op) (h : heap) (a : ref), tidy empty_heap ops -> run empty_heap ops = Some h -> adds_up h a.
Proof. intros ops h a T R. apply built_adds_up. exact (built_run ops _ _ empty_sound empty_built T R). Qed.
Print Assumptions C109_adds_up_partial.

(** An array of a primitive and a list with one record; later the bytes are changed and the primitive is taken out again. *)
Definition demo : list op :=
  [ NewBytes [x61; x62]; NewBytes [x6b]; NewPrim (Some (Sl 0 0 2)); NewKeyObj; AddSub 1 (Some (Sl 1 0 1)); NewRec; SetKeyOf 2 1;
    SetValOf 2 0; SetTimeOf 2 (Some 5%Z); NewRecs; AppendRec 3 2; NewArr; AppendVal 4 0; AppendVal 4 3; Write 0 1 x7a; DeleteVal 4 0 ].
Definition or_empty (o : option heap) : heap := match o with Some h => h | None => empty_heap end.
Definition demo_heap : heap := Eval vm_compute in or_empty (run empty_heap demo).
(** [tidy], computed. *)
Definition heldb (o : obj) (a : ref) : bool :=
  let is (p : option ref) := match p with Some x => Nat.eqb x a | None => false end in
  match o with
  | OArr _ _ _ l | ORecs _ _ _ l => existsb (Nat.eqb a) l
  | ORec _ _ _ k v s _ _ _ => is k || is v || is s
  | _ => false
  end.
Fixpoint tidyb (h : heap) (ops : list op) : bool :=
  match ops with
  | [] => true
  | o :: ops' =>
      match step h o with
      | Some h' =>
          negb (is_encode o) && negb (copies o) &&
          match target o with Some a => forallb (fun ob => negb (heldb ob a)) (objs h') | None => true end && tidyb h' ops'
      | None => false
      end
  end.
Lemma tidyb_sound ops : forall h, tidyb h ops = true -> tidy h ops.
Proof.
  induction ops as [|o ops IH]; intros h H; cbn [tidyb tidy] in *; [exact Logic.I|]. destruct (step h o) as [h'|]; [|discriminate].
  rewrite !andb_true_iff, !negb_true_iff in H. destruct H as (((E & C) & F) & R). split; [|now apply IH].
  split; [assumption|]. split; [assumption|]. intros a T b Hb. rewrite T in F. apply holds_held in Hb. destruct Hb as (ob & G & Hh).
  rewrite forallb_forall in F. specialize (F ob (nth_error_In _ _ G)). rewrite negb_true_iff in F.
  assert (heldb ob a = true); [|congruence]. clear - Hh. destruct ob; cbn [held heldb] in *; try contradiction.
  - apply existsb_exists. exists a. split; [assumption|apply Nat.eqb_refl].
  - apply existsb_exists. exists a. split; [assumption|apply Nat.eqb_refl].
  - rewrite !orb_true_iff. destruct Hh as [-> |[-> | ->]]; rewrite Nat.eqb_refl; auto.
Qed.
Example C109_ledger_applies : run empty_heap demo = Some demo_heap /\
  map (size_of demo_heap) [0; 1; 2; 3; 4] = [3; 3; 16; 17; 18]%Z /\
  map (fun a => ledger_after empty_heap no_entries demo a Whole) [0; 1; 2; 3; 4] = [0; 3; 0; 17; 18]%Z /\
  map (ledger_after empty_heap no_entries demo 2) [KeyPart; ValuePart; SchemePart] = [3; 3; 0]%Z.
Proof. split; [reflexivity|]. split; [reflexivity|]. split; reflexivity. Qed.
Example C109_adds_up_partial_applies : tidy empty_heap demo /\ adds_up demo_heap 4 /\ elements demo_heap 4 = [3].
Proof. split; [apply tidyb_sound; vm_compute; reflexivity|]. split; reflexivity. Qed.
Example C109_after_encode_applies : exists h', venc 9 demo_heap 4 = Some (h', Ok tt) /\ array_of demo_heap 4 [3] /\
  size_of demo_heap 4 = 18%Z /\ size_of h' 4 = 22%Z /\ size_of h' 3 = 17%Z /\ size_of h' 2 = 16%Z /\ size_of h' 1 = 3%Z /\ counts_buf demo_heap 3 = false.
Proof. eexists. split; [vm_compute; reflexivity|]. split; [do 3 eexists; reflexivity|]. repeat (split; [reflexivity|]). reflexivity. Qed.

(** Whatever is done later to an element, an array or record does not learn of it. [changed]: an array put into another and then given an
    element. [encoded]: an array encoded after it was put into another. [copied]: a copy of an array counts none of its elements.
    [in_debt]: of a copy three elements are deleted, then one appended: an array with two elements of which EstBufSize is 1. [listed]: EstBufSize
    of a list of records stays what it was after Encode, and is not the length of Buf. *)
Definition changed : list op := [NewArr; NewArr; AppendVal 0 1; NewPrim None; AppendVal 1 2].
Definition encoded_later : list op := [NewBytes [x61]; NewPrim (Some (Sl 0 0 1)); NewArr; AppendVal 1 0; NewArr; AppendVal 2 1; EncodeVal 3 1].
Definition copied : list op := [NewArr; NewPrim None; AppendVal 0 1; AppendVal 0 1; AppendVal 0 1; AppendVal 0 1; CopyVal 3 0].
Definition in_debt : list op := copied ++ [DeleteVal 6 0; DeleteVal 6 0; DeleteVal 6 0; AppendVal 6 1].
Definition listed : list op := [NewRec; NewRecs; AppendRec 1 0; EncodeVal 3 1].
Theorem C109_adds_up_refuted :
  (exists h, run empty_heap changed = Some h /\ elements h 0 = [1] /\ size_of h 1 = 2%Z /\ size_of h 0 = 2%Z /\ ~ adds_up h 0) /\
  (exists h, run empty_heap encoded_later = Some h /\ elements h 2 = [1] /\ size_of h 1 = 6%Z /\ size_of h 2 = 4%Z /\ ~ adds_up h 2) /\
  (exists h, run empty_heap copied = Some h /\ length (elements h 6) = 4 /\ size_of h 0 = 5%Z /\ size_of h 6 = 1%Z /\ ~ adds_up h 6) /\
  (exists h, run empty_heap in_debt = Some h /\ length (elements h 6) = 2 /\ size_of h 6 = 1%Z /\ ~ adds_up h 6) /\
  (exists h b, run empty_heap listed = Some h /\ buf_of h 1 = Ok (Some b) /\ zlen b = 4%Z /\ size_of h 1 = 5%Z).
Proof.
  split; [|split; [|split; [|split]]].
  - eexists. split; [vm_compute; reflexivity|]. repeat (split; [reflexivity|]). vm_compute. discriminate.
  - eexists. split; [vm_compute; reflexivity|]. repeat (split; [reflexivity|]). vm_compute. discriminate.
  - eexists. split; [vm_compute; reflexivity|]. repeat (split; [reflexivity|]). vm_compute. discriminate.
  - eexists. split; [vm_compute; reflexivity|]. repeat (split; [reflexivity|]). vm_compute. discriminate.
  - eexists _, _. split; [vm_compute; reflexivity|]. split; [vm_compute; reflexivity|]. split; reflexivity.
Qed.
Print Assumptions C109_adds_up_refuted.
