(** * Parsed trie nodes in shared memory. *)
From Coq Require Import List NArith ZArith Bool Lia Arith.
From Coq Require Import Strings.Byte.
From Verif Require Import Base BaseProofs EndianModel VarintModel VarintSpec VarintProofs CmpModel CmpSpec CmpProofs KeyModel KeyProofs ValueModel ValueProofs
  AVLModel MapSpec AVLSpec AVLProofs AVLHistory AVLProps TrieModel TrieProps TrieObjModel TrieObjSpec TrieObjProofs.
Import ListNotations.
Local Open Scope Z_scope.

(** What a node's buffer says, given the nodes [known] by offset: an empty node of [n] bytes; a node with key [k], value content [v] written as [e],
    below node [p], taken to have [n] bytes; nothing (an error); or a length that does not fit an int (a panic). *)
Inductive reading :=
| RdDummy (n : Z)
| RdNode (k e v : bytes) (p : nat) (n : Z)
| RdError
| RdPanic.

Definition no_num (b : bytes) : Prop := ~ exists p rest v, b = p ++ rest /\ num_at p rest v.
Definition no_str (b : bytes) : Prop := ~ exists p rest d, b = p ++ rest /\ str_at p rest d.
(** After the flag [f] and the key [k], and after the parent [p], comes [b]. *)
Definition after_flag (buf b : bytes) (n : Z) : Prop :=
  exists f w, buf = f ++ b /\ num_at f b w /\ w <> 0%N /\ n = zlen f.
Definition after_key (buf k b : bytes) (n m : Z) : Prop :=
  exists s, after_flag buf (s ++ b) n /\ str_at s b k /\ k <> [] /\ m = zlen s.
Definition after_parent (known : N -> option nat) (buf k b : bytes) (p : nat) (n m l : Z) : Prop :=
  exists o off, after_key buf k (o ++ b) n m /\ num_at o b off /\ known (off mod 2 ^ 32)%N = Some p /\ l = zlen o.

Inductive reads (known : N -> option nat) (buf : bytes) : reading -> Prop :=
| rd_dummy : forall z rest, buf = z ++ rest -> num_at z rest 0 -> reads known buf (RdDummy (zlen z))
| rd_node : forall k e v rest p n m l, after_parent known buf k (e ++ rest) p n m l -> str_at e rest v ->
    reads known buf (RdNode k e v p (n + m + l + zlen e + n))
| rd_no_flag : no_num buf -> reads known buf RdError
| rd_no_key : forall b n, after_flag buf b n -> no_str b -> ~ huge_header b -> reads known buf RdError
| rd_empty_key : forall s b n, after_flag buf (s ++ b) n -> str_at s b [] -> reads known buf RdError
| rd_no_parent : forall k b n m, after_key buf k b n m -> no_num b -> reads known buf RdError
| rd_unknown : forall k o b n m off, after_key buf k (o ++ b) n m -> num_at o b off -> known (off mod 2 ^ 32)%N = None -> reads known buf RdError
| rd_no_value : forall k b p n m l, after_parent known buf k b p n m l -> no_str b -> ~ huge_header b -> reads known buf RdError
| rd_huge_key : forall b n, after_flag buf b n -> huge_header b -> reads known buf RdPanic
| rd_huge_value : forall k b p n m l, after_parent known buf k b p n m l -> huge_header b -> reads known buf RdPanic.

Lemma no_num_err b : no_num b -> decode_uvarint64 b = Err.
Proof.
  intros N. destruct (decode_uvarint64 b) as [[v n]| |] eqn:E; [|reflexivity|destruct (num_never_panics _ E)].
  exfalso. apply N. apply num_ok in E. destruct E as (p & rest & -> & H & _). eauto 6.
Qed.
Lemma no_str_err b : no_str b -> ~ huge_header b -> decode_varchar b = Err.
Proof.
  intros N H. destruct (decode_varchar b) as [[v n]| |] eqn:E; [|reflexivity|].
  - exfalso. apply N. apply str_ok in E. destruct E as (p & rest & -> & H' & _). eauto 6.
  - exfalso. apply H, varchar_panic_exact, E.
Qed.
Lemma err_no_num b : decode_uvarint64 b = Err -> no_num b.
Proof. intros E (p & rest & v & -> & N). rewrite (num_read _ _ _ N) in E. discriminate. Qed.
Lemma err_no_str b : decode_varchar b = Err -> no_str b /\ ~ huge_header b.
Proof.
  intros E. split.
  - intros (p & rest & v & -> & N). rewrite (str_read _ _ _ N) in E. discriminate.
  - intros H. apply varchar_panic_exact in H. congruence.
Qed.

(** Every buffer has a reading. *)
Lemma reads_total known buf : exists rd, reads known buf rd.
Proof.
  destruct (decode_uvarint64 buf) as [[w n]| |] eqn:E; [|eexists; apply rd_no_flag, err_no_num, E|destruct (num_never_panics _ E)].
  apply num_ok in E. destruct E as (f & b1 & E & N & Hn). destruct (N.eq_dec w 0) as [->|Hw].
  - eexists. exact (rd_dummy known buf f b1 E N).
  - assert (A1 : after_flag buf b1 n) by (exists f, w; auto).
    destruct (decode_varchar b1) as [[k m]| |] eqn:E1.
    2: { eexists. destruct (err_no_str _ E1). eapply rd_no_key; eauto. }
    2: { eexists. eapply rd_huge_key; [exact A1|]. apply varchar_panic_exact, E1. }
    apply str_ok in E1. destruct E1 as (s & b2 & -> & S & Hm). destruct k as [|k0 k]; [eexists; eapply rd_empty_key; eauto|].
    assert (A2 : after_key buf (k0 :: k) b2 n m) by (exists s; repeat split; try assumption; discriminate).
    destruct (decode_uvarint64 b2) as [[off l]| |] eqn:E2.
    2: { eexists. eapply rd_no_parent; [exact A2|]. apply err_no_num, E2. }
    2: destruct (num_never_panics _ E2).
    apply num_ok in E2. destruct E2 as (o & b3 & -> & O & Hl).
    destruct (known (off mod 2 ^ 32)%N) as [p|] eqn:Ek; [|eexists; eapply rd_unknown; eauto].
    assert (A3 : after_parent known buf (k0 :: k) b3 p n m l) by (exists o, off; auto).
    destruct (decode_varchar b3) as [[v j]| |] eqn:E3.
    + apply str_ok in E3. destruct E3 as (e & rest & -> & V & Hj). eexists. eapply rd_node; eauto.
    + eexists. destruct (err_no_str _ E3). eapply rd_no_value; eauto.
    + eexists. eapply rd_huge_value; [exact A3|]. apply varchar_panic_exact, E3.
Qed.

(** Decode on a new node follows the reading. *)
Definition m_fresh (buf : bytes) (o : N) (p : option nat) (kids : option (avl gslice nat)) (m : option nat) : mnode :=
  mk_mnode false false buf o None None p kids m.
Definition decode_matches (x : mnode) (buf : bytes) (o : N) (p : option nat) kids m (r : res (Z * option (nat * gslice))) (rd : reading) : Prop :=
  match rd with
  | RdDummy n => x = mk_mnode true true buf o None None p kids m /\ r = Ok (n, None)
  | RdNode k e v q n => x = mk_mnode false false buf o (Some k) (Some (VSimple e v)) (Some q) kids m /\ r = Ok (n, Some (q, Some k))
  | RdError => mn_decoded x = false /\ mn_buf x = buf /\ mn_off x = o /\ mn_kids x = kids /\ mn_known x = m /\ r = Err
  | RdPanic => r = Panic
  end.

Section Decode.
  Context (s : mstate) (buf : bytes) (o : N) (p0 : option nat) (kids : option (avl gslice nat)) (m : option nat).
  Let known := known_at (map_of s m).
  Let x0 := m_fresh buf o p0 kids m.

  Lemma step_flag b n : after_flag buf b n -> exists w, decode_uvarint64 buf = Ok (w, n) /\ N.eqb w 0 = false /\ go_from buf n = Ok b.
  Proof using Type.
    clear. intros (f & w & -> & N & Hw & ->). exists w. rewrite (num_read _ _ _ N), go_from_app. apply N.eqb_neq in Hw. auto.
  Qed.
  Lemma step_key k b n j : after_key buf k b n j -> exists b1, after_flag buf b1 n /\ decode_varchar b1 = Ok (k, j) /\ k <> [] /\ go_from buf (n + j) = Ok b.
  Proof using Type.
    clear. intros (sk & A & S & Hk & ->). exists (sk ++ b). split; [exact A|]. rewrite (str_read _ _ _ S). split; [reflexivity|]. split; [exact Hk|].
    destruct A as (f & w & -> & _ & _ & ->). apply from3.
  Qed.
  Lemma step_parent k b q n j l : after_parent known buf k b q n j l ->
    exists b2 off, after_key buf k b2 n j /\ decode_uvarint64 b2 = Ok (off, l) /\ known (off mod 2 ^ 32)%N = Some q /\ go_from buf (n + j + l) = Ok b.
  Proof using Type.
    clear. intros (po & off & A & N & Hq & ->). exists (po ++ b), off. split; [exact A|]. rewrite (num_read _ _ _ N).
    split; [reflexivity|]. split; [exact Hq|]. destruct A as (sk & (f & w & -> & _ & _ & ->) & _ & _ & ->). apply from4.
  Qed.

  Lemma decode_reads rd : reads known buf rd ->
    decode_matches (fst (mnode_decode s x0)) buf o p0 kids m (snd (mnode_decode s x0)) rd.
  Proof using Type.
    intros R. unfold mnode_decode, x0, m_fresh, decode_matches. cbn [mn_buf].
    inversion R as [z rest E N|k e v rest p n j l A S|N|b n A NS NH|sk b n A S|k b n j A N|k po b n j off A N U|k b p n j l A NS NH|b n A H|k b p n j l A H]; subst rd.
    - rewrite E, (num_read _ _ _ N). cbn. rewrite <- E. auto.
    - destruct (step_parent _ _ _ _ _ _ A) as (b2 & off & A2 & D2 & K & F3). destruct (step_key _ _ _ _ A2) as (b1 & A1 & D1 & Hk & F2).
      destruct (step_flag _ _ A1) as (w & D0 & W & F1). rewrite D0, W, F1. cbn [rbind]. rewrite D1.
      destruct k as [|k0 k]; [congruence|]. rewrite F2. cbn [rbind]. rewrite D2. cbn [m_with_key mn_known]. unfold known in K. rewrite K, F3. cbn [rbind].
      unfold new_simple_value. rewrite (str_read _ _ _ S). cbn [rbind]. rewrite go_upto_app. cbn [rbind fst snd]. auto.
    - rewrite (no_num_err _ N). cbn. auto 7.
    - destruct (step_flag _ _ A) as (w & D0 & W & F1). rewrite D0, W, F1. cbn [rbind]. rewrite (no_str_err _ NS NH). cbn. auto 7.
    - destruct (step_flag _ _ A) as (w & D0 & W & F1). rewrite D0, W, F1. cbn [rbind]. rewrite (str_read _ _ _ S). cbn. auto 7.
    - destruct (step_key _ _ _ _ A) as (b1 & A1 & D1 & Hk & F2).
      destruct (step_flag _ _ A1) as (w & D0 & W & F1). rewrite D0, W, F1. cbn [rbind]. rewrite D1.
      destruct k as [|k0 k]; [congruence|]. rewrite F2. cbn [rbind]. rewrite (no_num_err _ N). cbn. auto 7.
    - destruct (step_key _ _ _ _ A) as (b1 & A1 & D1 & Hk & F2).
      destruct (step_flag _ _ A1) as (w & D0 & W & F1). rewrite D0, W, F1. cbn [rbind]. rewrite D1.
      destruct k as [|k0 k]; [congruence|]. rewrite F2. cbn [rbind]. rewrite (num_read _ _ _ N). cbn [m_with_key mn_known].
      unfold known in U. rewrite U. cbn. auto 7.
    - destruct (step_parent _ _ _ _ _ _ A) as (b2 & off & A2 & D2 & K & F3). destruct (step_key _ _ _ _ A2) as (b1 & A1 & D1 & Hk & F2).
      destruct (step_flag _ _ A1) as (w & D0 & W & F1). rewrite D0, W, F1. cbn [rbind]. rewrite D1.
      destruct k as [|k0 k]; [congruence|]. rewrite F2. cbn [rbind]. rewrite D2. cbn [m_with_key mn_known]. unfold known in K. rewrite K, F3. cbn [rbind].
      unfold new_simple_value. rewrite (no_str_err _ NS NH). cbn. auto 7.
    - destruct (step_flag _ _ A) as (w & D0 & W & F1). rewrite D0, W, F1. cbn [rbind]. rewrite (proj2 (varchar_panic_exact _) H). reflexivity.
    - destruct (step_parent _ _ _ _ _ _ A) as (b2 & off & A2 & D2 & K & F3). destruct (step_key _ _ _ _ A2) as (b1 & A1 & D1 & Hk & F2).
      destruct (step_flag _ _ A1) as (w & D0 & W & F1). rewrite D0, W, F1. cbn [rbind]. rewrite D1.
      destruct k as [|k0 k]; [congruence|]. rewrite F2. cbn [rbind]. rewrite D2. cbn [m_with_key mn_known]. unfold known in K. rewrite K, F3. cbn [rbind].
      unfold new_simple_value. rewrite (proj2 (varchar_panic_exact _) H). reflexivity.
  Qed.
End Decode.

(** ** What the calls do *)
Record amnode := mk_amnode {
  am_decoded : bool;
  am_buf : bytes;
  am_off : N;
  am_key : gslice;
  am_val : option value;
  am_parent : option nat;
  am_kids : option (list (gslice * nat));
  am_known : option nat }.
Definition mview (x : mnode) : amnode :=
  mk_amnode (mn_decoded x) (mn_buf x) (mn_off x) (mn_key x) (mn_val x) (mn_parent x)
    (option_map (fun m => entries m) (mn_kids x)) (mn_known x).
Definition mviews (s : mstate) : list amnode := map mview (ms_nodes s).
Definition is_mnode (ns : list amnode) (a : nat) (x : amnode) : Prop := nth_error ns a = Some x.

Definition mkids_put (k : gslice) (c : nat) (l l' : list (gslice * nat)) : Prop :=
  ascending (slice_lt byte_lt) l' /\ forall e, In e l' <-> e = (k, c) \/ (In e l /\ fst e <> k).

(** The node stored last in a table under an offset; the table of a node. *)
Fixpoint latest (m : list (N * nat)) (o : N) : option nat :=
  match m with [] => None | (o', a) :: m' => if N.eqb o o' then Some a else latest m' o end.
Definition known_nodes (maps : list (list (N * nat))) (m : option nat) : N -> option nat :=
  match m with Some i => latest (nth i maps []) | None => fun _ => None end.
Definition stored (maps : list (list (N * nat))) (i : nat) (o : N) (a : nat) (maps' : list (list (N * nat))) : Prop :=
  maps' = firstn i maps ++ ((o, a) :: nth i maps []) :: skipn (S i) maps.

(** What a new node with buffer [buf] leads to: the nodes and maps afterwards, and the length reported ([None] for a panic). [kids] are the children it
    starts with, [err] is what happens to an error. *)
Definition made (ns : list amnode) (maps : list (list (N * nat))) (buf : bytes) (o : N) (p : option nat) (kids : option (list (gslice * nat)))
    (m : option nat) (keep : bool) (ns' : list amnode) (maps' : list (list (N * nat))) (r : option Z) : Prop :=
  exists rd, reads (known_nodes maps m) buf rd /\
  match rd with
  | RdDummy n => ns' = ns ++ [mk_amnode true buf o None None p kids m] /\ maps' = maps /\ r = Some n
  | RdNode k e v q n =>
      exists y i, is_mnode ns q y /\ m = Some i /\
      match am_kids y with
      | None => ns' = ns /\ maps' = maps /\ r = None
      | Some l => exists l', mkids_put (Some k) (length ns) l l' /\
          ns' = (firstn q ns ++ mk_amnode (am_decoded y) (am_buf y) (am_off y) (am_key y) (am_val y) (am_parent y) (Some l') (am_known y) :: skipn (S q) ns)
                ++ [mk_amnode false buf o (Some k) (Some (VSimple e v)) (Some q) kids m] /\
          stored maps i o (length ns) maps' /\ r = Some n
      end
  | RdError =>
      if keep then exists x, am_decoded x = false /\ am_buf x = buf /\ am_off x = o /\ am_kids x = kids /\ am_known x = m /\
                             ns' = ns ++ [x] /\ maps' = maps /\ r = Some 0
      else ns' = ns /\ maps' = maps /\ r = None
  | RdPanic => ns' = ns /\ maps' = maps /\ r = None
  end.
Definition made_result (a : nat) (r : option Z) (out : res mout) : Prop :=
  match r with Some n => out = Ok (PNode (Some a) n) | None => out = Panic end.
Definition shown (ns : list amnode) (a : nat) (f : amnode -> res mout -> Prop) (out : res mout) : Prop :=
  exists x, is_mnode ns a x /\ if am_decoded x then f x out else out = Panic.

Definition mdoes (ns : list amnode) (maps : list (list (N * nat))) (c : mcall) (ns' : list amnode) (maps' : list (list (N * nat))) (out : res mout) : Prop :=
  match c with
  | MMap => ns' = ns /\ maps' = maps ++ [[]] /\ out = Ok PNone
  | MKnow i o a => ns' = ns /\ stored maps i o a maps' /\ out = Ok PNone
  | MNew p buf o m => exists r, made ns maps buf o p (Some []) m true ns' maps' r /\ made_result (length ns) r out
  | MCopy a => exists x r, is_mnode ns a x /\
      made ns maps (am_buf x) (am_off x) None None (am_known x) false ns' maps' r /\
      made_result (length ns) (option_map (fun _ => 0) r) out
  | MKey a => ns' = ns /\ maps' = maps /\ shown ns a (fun x out => out = Ok (PKey (am_key x))) out
  | MValue a => ns' = ns /\ maps' = maps /\ shown ns a (fun x out => out = Ok (PValue (am_val x))) out
  | MParent a => ns' = ns /\ maps' = maps /\ shown ns a (fun x out => out = Ok (PNode (am_parent x) 0)) out
  | MSize a => ns' = ns /\ maps' = maps /\
      shown ns a (fun x out => out = Ok (PSize (match am_kids x with None => 0 | Some l => Z.of_nat (length l) end))) out
  | MGet a k => ns' = ns /\ maps' = maps /\
      shown ns a (fun x out =>
        match am_kids x with
        | None => out = Ok (PNode None 0)
        | Some l => (exists c, In (k, c) l /\ out = Ok (PNode (Some c) 0)) \/ ((forall c, ~ In (k, c) l) /\ out = Panic)
        end) out
  | MFullKey a => ns' = ns /\ maps' = maps /\ out = Panic
  | MIsDecoded a => ns' = ns /\ maps' = maps /\ exists x, is_mnode ns a x /\ out = Ok (PBool (am_decoded x))
  | MOffset a => ns' = ns /\ maps' = maps /\ exists x, is_mnode ns a x /\ out = Ok (POff (am_off x))
  | MBuf a => ns' = ns /\ maps' = maps /\ exists x, is_mnode ns a x /\ out = Ok (PBytes (am_buf x))
  end.

(** Calls on existing nodes and maps, with node keys from [P]. *)
Definition keys_from (P : bytes -> Prop) (buf : bytes) : Prop := forall k b n m, after_key buf k b n m -> P k.
Definition m_legal (P : bytes -> Prop) (ns : list amnode) (maps : list (list (N * nat))) (c : mcall) : Prop :=
  match c with
  | MMap => True
  | MKnow i o a => (i < length maps)%nat /\ (a < length ns)%nat
  | MNew p buf o m => (match p with Some a => (a < length ns)%nat | None => True end) /\
      (match m with Some i => (i < length maps)%nat | None => True end) /\ keys_from P buf
  | MGet a k => (a < length ns)%nat /\ key_from P k
  | MCopy a | MKey a | MValue a | MParent a | MSize a | MFullKey a | MIsDecoded a | MOffset a | MBuf a => (a < length ns)%nat
  end.
Inductive m_reachable (P : bytes -> Prop) : mstate -> Prop :=
| m_none : m_reachable P (mk_mstate [] [])
| m_call : forall s c, m_reachable P s -> m_legal P (mviews s) (ms_maps s) c -> m_reachable P (fst (mstep s c)).

(** The invariant. *)
Definition mnode_ok (P : bytes -> Prop) (s : mstate) (x : mnode) : Prop :=
  (match mn_kids x with Some m => kids_ok P m | None => True end) /\ keys_from P (mn_buf x) /\
  (match mn_known x with Some i => (i < length (ms_maps s))%nat | None => True end) /\
  (mn_decoded x = true -> mn_key x = None /\ mn_val x = None).
Definition minv (P : bytes -> Prop) (s : mstate) : Prop :=
  (forall a x, nth_error (ms_nodes s) a = Some x -> mnode_ok P s x) /\
  (forall i l o a, nth_error (ms_maps s) i = Some l -> In (o, a) l -> (a < length (ms_nodes s))%nat).

Lemma mview_node s a : nth_error (mviews s) a = option_map mview (nth_error (ms_nodes s) a).
Proof. unfold mviews. apply nth_error_map. Qed.
Lemma mviews_length s : length (mviews s) = length (ms_nodes s).
Proof. unfold mviews. apply map_length. Qed.
Lemma is_mnode_view s a x : nth_error (ms_nodes s) a = Some x -> is_mnode (mviews s) a (mview x).
Proof. intros E. unfold is_mnode. rewrite mview_node, E. reflexivity. Qed.
Lemma m_exists s a : (a < length (mviews s))%nat -> exists x, nth_error (ms_nodes s) a = Some x.
Proof. rewrite mviews_length. apply lt_nth. Qed.

Lemma known_in m o a : known_at m o = Some a -> exists o', In (o', a) m.
Proof.
  unfold known_at. destruct (find _ m) as [[o' a']|] eqn:E; [|discriminate]. intros H. inv H. apply find_some in E. exists o'. apply E.
Qed.

Lemma known_latest m o : known_at m o = latest m o.
Proof.
  induction m as [|[o' a] m IH]; [reflexivity|]. unfold known_at in *. cbn [find fst latest]. rewrite N.eqb_sym. destruct (N.eqb o o'); [reflexivity|exact IH].
Qed.
Lemma known_same s m o : known_nodes (ms_maps s) m o = known_at (map_of s m) o.
Proof. unfold known_nodes, map_of. destruct m; [symmetry; apply known_latest|reflexivity]. Qed.
Lemma reads_ext k k' buf rd : (forall o, k o = k' o) -> reads k buf rd -> reads k' buf rd.
Proof.
  intros E R.
  assert (A : forall q b p n m l, after_parent k buf q b p n m l -> after_parent k' buf q b p n m l).
  { intros q b p n m l (o & off & H1 & H2 & H3 & H4). exists o, off. rewrite <- E. auto. }
  inversion R; subst; [eapply rd_dummy|eapply rd_node|eapply rd_no_flag|eapply rd_no_key|eapply rd_empty_key|eapply rd_no_parent|eapply rd_unknown|eapply rd_no_value|
                       eapply rd_huge_key|eapply rd_huge_value]; eauto. rewrite <- E. eassumption.
Qed.
Lemma reads_known s m buf rd : reads (known_nodes (ms_maps s) m) buf rd <-> reads (known_at (map_of s m)) buf rd.
Proof. split; apply reads_ext; intros o; [|symmetry]; apply known_same. Qed.

(** Making a node: MNew and MCopy. *)
Lemma make_node P (PF : prefix_free P) s buf o p kids m keep : minv P s -> keys_from P buf ->
  (match kids with Some l => kids_ok P l | None => True end) ->
  (match m with Some i => (i < length (ms_maps s))%nat | None => True end) ->
  exists ns' maps' r,
    made (mviews s) (ms_maps s) buf o p (option_map (fun l => entries l) kids) m keep ns' maps' r /\
    match mnode_decode s (m_fresh buf o p kids m) with
    | (x, Ok (n, l)) =>
        match mlink s x l with
        | Ok s' => mviews s' = ns' /\ ms_maps s' = maps' /\ r = Some n /\ minv P s'
        | Err => False
        | Panic => mviews s = ns' /\ ms_maps s = maps' /\ r = None
        end
    | (x, Err) =>
        if keep then let s' := mk_mstate (ms_nodes s ++ [x]) (ms_maps s) in mviews s' = ns' /\ ms_maps s' = maps' /\ r = Some 0 /\ minv P s'
        else mviews s = ns' /\ ms_maps s = maps' /\ r = None
    | (_, Panic) => mviews s = ns' /\ ms_maps s = maps' /\ r = None
    end.
Proof.
  intros [I1 I2] KF KK Hm.
  assert (Add : forall x, mnode_ok P s x -> minv P (mk_mstate (ms_nodes s ++ [x]) (ms_maps s))).
  { intros x N. split; cbn [ms_nodes ms_maps].
    - intros b z E. destruct (Nat.lt_ge_cases b (length (ms_nodes s))) as [L|L].
      + rewrite nth_error_app1 in E by exact L. exact (I1 _ _ E).
      + rewrite nth_error_app2 in E by exact L. destruct (b - length (ms_nodes s))%nat as [|j]; cbn in E; [inv E; exact N|destruct j; discriminate].
    - intros i l o' b E H. rewrite app_length. specialize (I2 i l o' b E H). lia. }
  destruct (reads_total (known_at (map_of s m)) buf) as (rd & R).
  pose proof (decode_reads s buf o p kids m rd R) as M.
  destruct (mnode_decode s (m_fresh buf o p kids m)) as [x d]. cbn [fst snd] in M.
  destruct rd as [n|k e v q n| |]; cbn [decode_matches] in M.
  - destruct M as (-> & ->). cbn [mlink]. do 3 eexists. split; [exists (RdDummy n); split; [apply reads_known, R|repeat split; reflexivity]|].
    unfold mviews. cbn [ms_nodes ms_maps]. rewrite map_app. split; [reflexivity|]. split; [reflexivity|]. split; [reflexivity|]. apply Add. repeat split; assumption.
  - destruct M as (-> & ->). inversion R as [|k' e' v' rest p' n' j l A SA| | | | | | | | ]; subst.
    destruct A as (po & off & A & O & K & ->).
    assert (Pk : P k) by exact (KF _ _ _ _ A).
    destruct (known_in _ _ _ K) as (o' & Hin). destruct m as [i|]; [|destruct Hin]. cbn [map_of] in Hin.
    destruct (lt_nth _ _ Hm) as (l0 & El). rewrite (nth_error_nth _ _ [] El) in Hin.
    pose proof (I2 _ _ _ _ El Hin) as Lq. destruct (lt_nth _ _ Lq) as (y & Ey). pose proof (I1 _ _ Ey) as (Ky & B1 & B2 & B3).
    cbn [mlink]. rewrite Ey. cbn [mn_known mn_off]. destruct (mn_kids y) as [l|] eqn:Ek.
    + destruct (kids_put_ok P PF l (Some k) (length (ms_nodes s)) Ky) as (l' & old & -> & K' & M); [exists k; auto|]. cbn [rbind].
      set (x := mk_mnode false false buf o (Some k) (Some (VSimple e v)) (Some q) kids (Some i)).
      set (s' := mk_mstate _ _).
      exists (mviews s'), (ms_maps s'), (Some (n' + j + zlen po + zlen e + n')). split.
      * unfold made. exists (RdNode k e v q (n' + j + zlen po + zlen e + n')). split; [apply reads_known, R|].
        exists (mview y), i. split; [apply is_mnode_view, Ey|]. split; [reflexivity|]. cbn [mview am_kids]. rewrite Ek. cbn [option_map].
        exists (entries l'). rewrite mviews_length. split; [split; [apply K'|exact M]|]. split; [|split; [apply set_nth_split, Hm|reflexivity]].
        unfold mviews, s'. cbn [ms_nodes]. rewrite map_app, set_nth_map, set_nth_split by (now rewrite map_length). reflexivity.
      * split; [reflexivity|]. split; [reflexivity|]. split; [reflexivity|].
        assert (Ln : length (ms_nodes s') = S (length (ms_nodes s))).
        { unfold s'. cbn [ms_nodes]. rewrite app_length, set_nth_length. cbn [length]. lia. }
        assert (Lm : length (ms_maps s') = length (ms_maps s)) by (unfold s'; cbn [ms_maps]; apply set_nth_length).
        split.
        -- intros b z E. assert (N : mnode_ok P s z); [|destruct N as (N1 & N2 & N3 & N4); repeat split; try assumption; try (now apply N4); now rewrite Lm].
           unfold s' in E. cbn [ms_nodes] in E. destruct (Nat.lt_ge_cases b (length (ms_nodes s))) as [L|L].
           ++ rewrite nth_error_app1 in E by (now rewrite set_nth_length). destruct (Nat.eq_dec q b) as [->|Hq].
              ** rewrite set_nth_same in E by exact L. inv E. repeat split; try assumption; try apply K'; now apply B3.
              ** rewrite set_nth_other in E by exact Hq. exact (I1 _ _ E).
           ++ rewrite nth_error_app2 in E by (now rewrite set_nth_length). rewrite set_nth_length in E.
              destruct (b - length (ms_nodes s))%nat as [|t]; cbn in E; [|destruct t; discriminate]. inv E.
              repeat split; try assumption; intros; discriminate.
        -- intros i' l1 o1 a1 E H. rewrite Ln. unfold s' in E. cbn [ms_maps] in E. destruct (Nat.eq_dec i i') as [->|Hi].
           ++ rewrite set_nth_same in E by exact Hm. inv E. destruct H as [H|H]; [inv H; lia|].
              rewrite (nth_error_nth _ _ [] El) in H. specialize (I2 _ _ _ _ El H). lia.
           ++ rewrite set_nth_other in E by exact Hi. specialize (I2 _ _ _ _ E H). lia.
    + exists (mviews s), (ms_maps s), None. split; [|repeat split; reflexivity].
      unfold made. exists (RdNode k e v q (n' + j + zlen po + zlen e + n')). split; [apply reads_known, R|].
      exists (mview y), i. split; [apply is_mnode_view, Ey|]. split; [reflexivity|]. cbn [mview am_kids]. rewrite Ek. cbn. auto.
  - destruct M as (M1 & M2 & M3 & M4 & M5 & ->). destruct keep.
    + do 3 eexists. split.
      * exists RdError. split; [apply reads_known, R|]. exists (mview x).
        split; [exact M1|]. split; [exact M2|]. split; [exact M3|]. split; [cbn [mview am_kids]; now rewrite M4|]. split; [exact M5|].
        split; [reflexivity|]. split; reflexivity.
      * cbn zeta. unfold mviews. cbn [ms_nodes ms_maps]. rewrite map_app. split; [reflexivity|]. split; [reflexivity|]. split; [reflexivity|]. apply Add.
        unfold mnode_ok. rewrite M1, M2, M4, M5. repeat split; try assumption; intros; discriminate.
    + exists (mviews s), (ms_maps s), None. split; [|repeat split; reflexivity]. exists RdError. split; [apply reads_known, R|repeat split; reflexivity].
  - subst d. exists (mviews s), (ms_maps s), None. split; [|repeat split; reflexivity]. exists RdPanic. split; [apply reads_known, R|repeat split; reflexivity].
Qed.

(** Every call has the stated effect and keeps the invariant. *)
Lemma new_avl_ok P : kids_ok P (V := nat) new_avl.
Proof. apply kids_ok_new. Qed.

Theorem mstep_exact P (PF : prefix_free P) s c : minv P s -> m_legal P (mviews s) (ms_maps s) c ->
  mdoes (mviews s) (ms_maps s) c (mviews (fst (mstep s c))) (ms_maps (fst (mstep s c))) (snd (mstep s c)) /\ minv P (fst (mstep s c)).
Proof.
  intros I L. assert (I' := I). destruct I' as [I1 I2].
  destruct c as [|i o a|p buf o m|a|a|a|a|a|a k|a|a|a|a]; cbn [m_legal] in L; cbn [mstep mdoes].
  - cbn [fst snd ms_maps]. split; [repeat split; reflexivity|]. split; cbn [ms_nodes ms_maps].
    + intros b x E. destruct (I1 _ _ E) as (N1 & N2 & N3 & N4). repeat split; try assumption; try (now apply N4). cbn [ms_maps].
      destruct (mn_known x); [rewrite app_length; lia|exact Logic.I].
    + intros i l o a E H. destruct (Nat.lt_ge_cases i (length (ms_maps s))) as [L'|L'].
      * rewrite nth_error_app1 in E by exact L'. exact (I2 _ _ _ _ E H).
      * rewrite nth_error_app2 in E by exact L'. destruct (i - length (ms_maps s))%nat as [|j]; cbn in E; [inv E; destruct H|destruct j; discriminate].
  - rewrite mviews_length in L. destruct L as (L1 & L2). unfold m_map_valid, m_valid.
    apply Nat.ltb_lt in L1 as B1. apply Nat.ltb_lt in L2 as B2. rewrite B1, B2. cbn [andb fst snd ms_maps]. split; [split; [reflexivity|]; split; [apply set_nth_split, L1|reflexivity]|].
    split; cbn [ms_nodes ms_maps].
    + intros b x E. destruct (I1 _ _ E) as (N1 & N2 & N3 & N4). repeat split; try assumption; try (now apply N4). cbn [ms_maps].
      now rewrite set_nth_length.
    + intros i' l o' a' E H. destruct (Nat.eq_dec i i') as [->|Hi].
      * rewrite set_nth_same in E by exact L1. inv E. destruct (lt_nth _ _ L1) as (l0 & El). destruct H as [H|H]; [inv H; exact L2|].
        rewrite (nth_error_nth _ _ [] El) in H. exact (I2 _ _ _ _ El H).
      * rewrite set_nth_other in E by exact Hi. exact (I2 _ _ _ _ E H).
  - destruct L as (L1 & L2 & L3). rewrite mviews_length in L1.
    assert (B : m_valid s p && m_map_valid s m = true).
    { unfold m_valid, m_map_valid. destruct p, m; try (apply Nat.ltb_lt in L1; rewrite L1); try (apply Nat.ltb_lt in L2; rewrite L2); reflexivity. }
    rewrite B. destruct (make_node P PF s buf o p (Some new_avl) m true I L3 (new_avl_ok P) L2) as (ns' & maps' & r & M & H).
    unfold m_fresh in H. destruct (mnode_decode s _) as [x [[n l]| |]].
    + destruct (mlink s x l) as [s'| |]; cbn [fst snd].
      * destruct H as (-> & -> & -> & J). split; [|exact J]. exists (Some n). split; [exact M|]. rewrite mviews_length. reflexivity.
      * destruct H.
      * destruct H as (<- & <- & ->). split; [|exact I]. exists None. split; [exact M|reflexivity].
    + cbn zeta in H. destruct H as (<- & <- & -> & J). cbn [fst snd]. split; [|exact J]. exists (Some 0). split; [exact M|]. rewrite mviews_length. reflexivity.
    + destruct H as (<- & <- & ->). cbn [fst snd]. split; [|exact I]. exists None. split; [exact M|reflexivity].
  - destruct (m_exists _ _ L) as (y & Ey). rewrite Ey. destruct (I1 _ _ Ey) as (N1 & N2 & N3 & N4).
    destruct (make_node P PF s (mn_buf y) (mn_off y) None None (mn_known y) false I N2 Logic.I N3) as (ns' & maps' & r & M & H).
    unfold m_fresh in H. destruct (mnode_decode s _) as [x [[n l]| |]].
    + destruct (mlink s x l) as [s'| |]; cbn [fst snd].
      * destruct H as (-> & -> & -> & J). split; [|exact J]. exists (mview y), (Some n). split; [now apply is_mnode_view|]. split; [exact M|].
        rewrite mviews_length. reflexivity.
      * destruct H.
      * destruct H as (<- & <- & ->). split; [|exact I]. exists (mview y), None. split; [now apply is_mnode_view|]. split; [exact M|reflexivity].
    + destruct H as (<- & <- & ->). cbn [fst snd]. split; [|exact I]. exists (mview y), None. split; [now apply is_mnode_view|]. split; [exact M|reflexivity].
    + destruct H as (<- & <- & ->). cbn [fst snd]. split; [|exact I]. exists (mview y), None. split; [now apply is_mnode_view|]. split; [exact M|reflexivity].
  - destruct (m_exists _ _ L) as (y & Ey). unfold m_read, m_on. rewrite Ey. cbn [fst snd]. split; [|exact I]. split; [reflexivity|]. split; [reflexivity|].
    exists (mview y). split; [now apply is_mnode_view|]. cbn [mview am_decoded am_key]. destruct (mn_decoded y); reflexivity.
  - destruct (m_exists _ _ L) as (y & Ey). unfold m_read, m_on. rewrite Ey. cbn [fst snd]. split; [|exact I]. split; [reflexivity|]. split; [reflexivity|].
    exists (mview y). split; [now apply is_mnode_view|]. cbn [mview am_decoded am_val]. destruct (mn_decoded y); reflexivity.
  - destruct (m_exists _ _ L) as (y & Ey). unfold m_read, m_on. rewrite Ey. cbn [fst snd]. split; [|exact I]. split; [reflexivity|]. split; [reflexivity|].
    exists (mview y). split; [now apply is_mnode_view|]. cbn [mview am_decoded am_parent]. destruct (mn_decoded y); reflexivity.
  - destruct (m_exists _ _ L) as (y & Ey). destruct (I1 _ _ Ey) as (N1 & _). unfold m_read, m_on. rewrite Ey. cbn [fst snd].
    split; [|exact I]. split; [reflexivity|]. split; [reflexivity|].
    exists (mview y). split; [now apply is_mnode_view|]. cbn [mview am_decoded am_kids]. destruct (mn_decoded y); [|reflexivity].
    destruct (mn_kids y) as [l|]; [|reflexivity]. cbn [option_map]. destruct N1 as (_ & _ & _ & N1). rewrite N1. reflexivity.
  - destruct L as (L & Pk). destruct (m_exists _ _ L) as (y & Ey). destruct (I1 _ _ Ey) as (N1 & _). unfold m_read, m_on. rewrite Ey. cbn [fst snd].
    split; [|exact I]. split; [reflexivity|]. split; [reflexivity|].
    exists (mview y). split; [now apply is_mnode_view|]. cbn [mview am_decoded am_kids]. destruct (mn_decoded y); [|reflexivity].
    destruct (mn_kids y) as [l|]; [|reflexivity]. cbn [option_map].
    destruct (kids_get P PF l k N1 Pk) as ([[k' c]|] & -> & Hc); cbn [rbind]; [left; destruct Hc; eauto|right; auto].
  - destruct (m_exists _ _ L) as (y & Ey). unfold m_read, m_on. rewrite Ey. cbn [fst snd]. split; [|exact I]. split; [reflexivity|]. split; [reflexivity|].
    destruct (mn_decoded y); reflexivity.
  - destruct (m_exists _ _ L) as (y & Ey). unfold m_on. rewrite Ey. cbn [fst snd]. split; [|exact I]. split; [reflexivity|]. split; [reflexivity|].
    exists (mview y). split; [now apply is_mnode_view|]. reflexivity.
  - destruct (m_exists _ _ L) as (y & Ey). unfold m_on. rewrite Ey. cbn [fst snd]. split; [|exact I]. split; [reflexivity|]. split; [reflexivity|].
    exists (mview y). split; [now apply is_mnode_view|]. reflexivity.
  - destruct (m_exists _ _ L) as (y & Ey). unfold m_on. rewrite Ey. cbn [fst snd]. split; [|exact I]. split; [reflexivity|]. split; [reflexivity|].
    exists (mview y). split; [now apply is_mnode_view|]. reflexivity.
Qed.

Lemma m_reachable_inv P (PF : prefix_free P) s : m_reachable P s -> minv P s.
Proof.
  intros R. induction R as [|s c R IH L].
  - split; cbn; intros; [destruct a; discriminate|destruct i; discriminate].
  - apply mstep_exact; assumption.
Qed.
