(** * Editable copies of objects built in memory and of parsed record lists; records filled by their setters. *)
From Coq Require Import List NArith ZArith Bool Lia.
From Coq Require Import Strings.Byte.
From Verif Require Import Base BaseProofs EndianModel VarintModel VarintSpec KeyModel KeySpec KeyProofs
  ValueModel ValueSpec ValueProofs ValueAccess ValueCopy RecordProps.
Import ListNotations.
Local Open Scope Z_scope.

(** ** C118: CopyConstruct of objects built in memory *)

(** Every part was constructed, and no sub key is empty (Key.Add accepts no empty sub key, C34). *)
Definition built_key (k : ikey) : Prop :=
  match k with KEmpty => True | KMapped _ _ => False | KKey _ ks _ _ => Forall (fun s => gcontent s <> []) ks end.
Inductive built : value -> Prop :=
| built_prim d : built (VPrim d)
| built_arr e l : (forall v, In v l -> built v) -> built (VArr e l)
| built_recs e l : (forall r, In r l -> rbuilt r) -> built (VRecs e l)
with rbuilt : record -> Prop :=
| rbuilt_rec e k v s t a b : (forall k', k = Some k' -> built_key k') -> (forall v', v = Some v' -> built v') ->
    (forall s', s = Some s' -> built s') -> rbuilt (Rec e k v s t a b).
Scheme built_mind := Induction for built Sort Prop
with rbuilt_mind := Induction for rbuilt Sort Prop.
Combined Scheme built_combined from built_mind, rbuilt_mind.

Lemma built_made : (forall v, built v -> made v) /\ (forall r, rbuilt r -> rmade r).
Proof.
  apply built_combined; intros; constructor; auto. intros k' E. specialize (b0 k' E). destruct k'; [exact I|contradiction|exact I].
Qed.

Fixpoint cc_list (l : list value) : res (list value) :=
  match l with [] => Ok [] | x :: l' => let? y := value_copy_construct x in let? r := cc_list l' in Ok (y :: r) end.
Fixpoint cc_rlist (l : list record) : res (list record) :=
  match l with [] => Ok [] | x :: l' => let? y := record_copy_construct x in let? r := cc_rlist l' in Ok (y :: r) end.
Lemma cc_arr e l : value_copy_construct (VArr e l) = let? l' := cc_list l in Ok (VArr 1 l').
Proof. reflexivity. Qed.
Lemma cc_recs e l : value_copy_construct (VRecs e l) = let? l' := cc_rlist l in Ok (VRecs 1 l').
Proof. reflexivity. Qed.

Lemma built_key_copy k : built_key k -> exists k', ikey_copy k = Ok k' /\ ikey_copy_construct k = Ok k'.
Proof.
  destruct k as [|ks b|e ks b est]; cbn [built_key]; [eexists; split; reflexivity|contradiction|].
  intros F. unfold ikey_copy, ikey_copy_construct, new_key. cbn [ikey_keys]. destruct (add_all_ok false [] None 1 ks F) as (est1 & Q). rewrite Q. eauto.
Qed.
Lemma built_copies :
  (forall v, built v -> exists v', value_copy v = Ok v' /\ value_copy_construct v = Ok v') /\
  (forall r, rbuilt r -> exists r', record_copy r = Ok r' /\ record_copy_construct r = Ok r').
Proof.
  apply built_combined.
  - intros d. eexists. split; reflexivity.
  - intros e l _ IH. rewrite value_copy_arr, cc_arr. cut (exists l', copy_list l = Ok l' /\ cc_list l = Ok l').
    { intros (l' & -> & ->). eexists. split; reflexivity. }
    induction l as [|x l IHl]; [eexists; split; reflexivity|]. cbn [copy_list cc_list].
    destruct (IH x (or_introl eq_refl)) as (x' & -> & ->). destruct (IHl (fun y H => IH y (or_intror H))) as (l' & -> & ->). eexists. split; reflexivity.
  - intros e l _ IH. rewrite value_copy_recs, cc_recs. cut (exists l', copy_rlist l = Ok l' /\ cc_rlist l = Ok l').
    { intros (l' & -> & ->). eexists. split; reflexivity. }
    induction l as [|x l IHl]; [eexists; split; reflexivity|]. cbn [copy_rlist cc_rlist].
    destruct (IH x (or_introl eq_refl)) as (x' & -> & ->). destruct (IHl (fun y H => IH y (or_intror H))) as (l' & -> & ->). eexists. split; reflexivity.
  - intros e k v s t a b Hk _ IHv _ IHs. cbn [record_copy record_copy_construct].
    assert (forall o : option value, (forall v', o = Some v' -> exists v'', value_copy v' = Ok v'' /\ value_copy_construct v' = Ok v'') ->
      exists o', match o with None => Ok None | Some v => let? v' := value_copy v in Ok (Some v') end = Ok o' /\
                 match o with None => Ok None | Some v => let? v' := value_copy_construct v in Ok (Some v') end = Ok o') as O.
    { intros [w|] H; [|eexists; split; reflexivity]. destruct (H w eq_refl) as (w' & -> & ->). eexists. split; reflexivity. }
    destruct (O v IHv) as (v' & -> & ->). destruct (O s IHs) as (s' & -> & ->).
    destruct k as [k|]; [|cbn [rbind]; eexists; split; reflexivity].
    destruct (built_key_copy k (Hk k eq_refl)) as (k' & -> & ->). cbn [rbind]. eexists. split; reflexivity.
Qed.

(** CopyConstruct of what was built in memory succeeds, is what Copy returns, has the encoding of the original, and is
    empty when the original is. The sizes start afresh: an array or record list with elements, copied, estimates 1 byte. *)
Theorem C118_built : forall v, built v ->
  exists v', value_copy_construct v = Ok v' /\ value_copy v = Ok v' /\ value_encode v' = value_encode v /\
    value_is_nil v' = value_is_nil v /\
    match v with VArr _ _ | VRecs _ _ => value_est v' = 1 | _ => value_est v' = value_est v end.
Proof.
  intros v B. destruct (proj1 built_copies v B) as (v' & C & D). exists v'. split; [exact D|]. split; [exact C|].
  destruct (proj1 copy_encode v (proj1 built_made v B) v' C) as (E & N). split; [exact E|]. split; [exact N|].
  inversion B as [d|e l H|e l H]; subst v.
  - inv C. reflexivity.
  - rewrite value_copy_arr in C. destruct (copy_list l); cbn [rbind] in C; inv C. reflexivity.
  - rewrite value_copy_recs in C. destruct (copy_rlist l); cbn [rbind] in C; inv C. reflexivity.
Qed.
Print Assumptions C118_built.
Theorem C118_built_record : forall r, rbuilt r ->
  exists r', record_copy_construct r = Ok r' /\ record_copy r = Ok r' /\ record_encode r' = record_encode r /\
    match r with Rec _ _ _ _ ts a b => record_est r' = 4 + (match ts with Some _ => 8 | None => 0 end) + (match a, b with Some _, Some _ => 64 | _, _ => 0 end) | _ => False end.
Proof.
  intros r B. destruct (proj2 built_copies r B) as (r' & C & D). exists r'. split; [exact D|]. split; [exact C|].
  split; [exact (proj2 copy_encode r (proj2 built_made r B) r' C)|]. inversion B as [e k v s t a b Hk Hv Hs]; subst r. cbn [record_copy] in C.
  destruct (match k with None => Ok None | Some k => _ end) as [k'| |]; cbn [rbind] in C; try discriminate.
  destruct (match v with None => Ok None | Some k => _ end) as [v'| |]; cbn [rbind] in C; try discriminate.
  destruct (match s with None => Ok None | Some k => _ end) as [s'| |]; cbn [rbind] in C; try discriminate.
  inv C. reflexivity.
Qed.
Print Assumptions C118_built_record.

(** ** Parsed record lists *)

(** The records that can be read from [c] one after the other; [r] is left. *)
Inductive in_turn : list byte -> list mrec -> list byte -> Prop :=
| turn_nil c : in_turn c [] c
| turn_cons c m n ms r : new_mapped_record c = Ok (m, n) -> in_turn (skipn (length (mr_buf m)) c) ms r -> in_turn c (m :: ms) r.

Lemma mono_values cc cc' : (forall m v, cc m = Ok v -> cc' m = Ok v) ->
  forall n i m acc v, copy_values cc n i m acc = Ok v -> copy_values cc' n i m acc = Ok v.
Proof.
  intros H. induction n as [|n IH]; intros i m acc v E; [exact E|]. cbn [copy_values] in *. destruct (value_at m i) as [m' [c| |]]; cbn [rbind] in *; try discriminate.
  destruct c as [| |d]; try discriminate. destruct (cc d) as [w| |] eqn:W; cbn [rbind] in E; try discriminate. rewrite (H _ _ W). cbn [rbind]. auto.
Qed.
Lemma mono_record cc cc' : (forall m v, cc m = Ok v -> cc' m = Ok v) -> forall m r, mr_copy_with cc m = Ok r -> mr_copy_with cc' m = Ok r.
Proof.
  intros H [b k v s t g] r E. cbn [mr_copy_with] in *. destruct (assert_part (ikey_copy_construct k)); cbn [rbind] in *; try discriminate.
  destruct (cc v) as [v'| |] eqn:V; cbn [assert_part rbind] in E; try discriminate. rewrite (H _ _ V). cbn [assert_part rbind].
  destruct (cc s) as [s'| |] eqn:S; cbn [assert_part rbind] in E; try discriminate. rewrite (H _ _ S). exact E.
Qed.
Lemma mono_records cc cc' : (forall m v, cc m = Ok v -> cc' m = Ok v) ->
  forall n i m acc v, copy_records cc n i m acc = Ok v -> copy_records cc' n i m acc = Ok v.
Proof.
  intros H. induction n as [|n IH]; intros i m acc v E; [exact E|]. cbn [copy_records] in *. destruct (record_at m i) as [m' [c| |]]; cbn [rbind] in *; try discriminate.
  destruct c as [| |d]; try discriminate. destruct (mr_copy_with cc d) as [w| |] eqn:W; cbn [rbind] in E; try discriminate.
  rewrite (mono_record _ _ H _ _ W). cbn [rbind]. auto.
Qed.
Lemma mono_copy f : forall f' m v, (f <= f')%nat -> mv_copy_construct f m = Ok v -> mv_copy_construct f' m = Ok v.
Proof.
  induction f as [|f IH]; intros [|f'] m v L E; try discriminate; [lia|]. cbn [mv_copy_construct] in *.
  destruct (mv_body m); [exact E| |].
  - revert E. apply mono_values. intros. apply IH; [lia|assumption].
  - revert E. apply mono_records. intros. apply IH; [lia|assumption].
Qed.

Lemma std_shorter b m n : new_std_value b = Ok (m, n) -> (length (mv_buf m) <= length b)%nat /\ (length (mv_content m) < length (mv_buf m))%nat.
Proof.
  intros H. destruct (std_decode_inv _ _ _ H) as (l & c & body & suf & -> & L & -> & _). cbn [mv_buf mv_content]. rewrite app_length.
  split; [lia|]. inversion L. subst. cbn [length]. rewrite !app_length. lia.
Qed.
Lemma from_shorter (b r : bytes) p : go_from b p = Ok r -> (length r <= length b)%nat.
Proof.
  unfold go_from. match goal with |- context [if ?c then _ else _] => destruct c end; try discriminate; intros Q; inv Q; rewrite skipn_length; lia.
Qed.
Lemma record_parts c m n : new_mapped_record c = Ok (m, n) ->
  match m with MRec _ _ v s _ _ => (length (mv_buf v) <= length c)%nat /\ (length (mv_buf s) <= length c)%nat end.
Proof.
  unfold new_mapped_record. destruct (zlen c <? 1); [discriminate|]. unfold record_decode.
  destruct (go_index c 0) as [b0| |]; cbn [rbind]; try discriminate.
  destruct (N.testbit (b2n b0) 6); cbn [rbind]; [|discriminate].
  destruct (go_from c 1) as [r1| |]; cbn [rbind]; try discriminate.
  destruct (new_mapped_key (Some r1)) as [[k nk]| |]; cbn [rbind]; try discriminate.
  destruct (ikey_buf k) as [kb| |]; cbn [rbind]; try discriminate.
  destruct (_ <? _); [discriminate|]. destruct (_ <? _); [discriminate|].
  destruct (N.testbit (b2n b0) 5); cbn [rbind]; [|discriminate].
  destruct (go_from c _) as [r2| |] eqn:G2; cbn [rbind]; try discriminate.
  destruct (new_std_value r2) as [[v nv]| |] eqn:V; cbn [rbind]; try discriminate.
  destruct (_ <? _); [discriminate|]. destruct (_ <? _); [discriminate|].
  destruct (N.testbit (b2n b0) 4); cbn [rbind]; [|discriminate].
  destruct (go_from c (_ + zlen (mv_buf v))) as [r3| |] eqn:G3; cbn [rbind]; try discriminate.
  destruct (new_std_value r3) as [[s ns]| |] eqn:S; cbn [rbind]; try discriminate.
  destruct (_ <? _); [discriminate|].
  destruct (decode_record_tail _ _ _) as [[[ts sg] p]| |]; cbn [rbind]; try discriminate.
  destruct (go_upto c p) as [b'| |]; cbn [rbind]; try discriminate. intros Q. inv Q.
  apply from_shorter in G2, G3. apply std_shorter in V, S. lia.
Qed.

Lemma load_done content done : forall rest todo pos,
  load_records content (map RCell done ++ rest) (length done + todo) pos =
  let (cs, r) := load_records content rest todo (pos + zlen (concat (map mr_buf done))) in (map RCell done ++ cs, r).
Proof.
  induction done as [|m done IH]; intros rest todo pos.
  - cbn [map app length Nat.add concat]. rewrite zlen_nil, Z.add_0_r. now destruct (load_records _ _ _ _).
  - cbn [map app length Nat.add load_records concat]. rewrite IH, zlen_app, Z.add_assoc. now destruct (load_records _ _ _ _).
Qed.
Lemma turn_app c a : forall b r, in_turn c (a ++ b) r -> in_turn (skipn (length (concat (map mr_buf a))) c) b r.
Proof.
  revert c. induction a as [|m a IH]; intros c b r T; [exact T|]. cbn [app] in T. inversion T; subst. apply IH in H4.
  cbn [map concat]. rewrite app_length. now rewrite <- skipn_add.
Qed.

Lemma at_load b content done m ms r : in_turn content (done ++ m :: ms) r ->
  record_at (MVal b content (BRec (map RCell done ++ repeat REmpty (length (m :: ms))))) (N.of_nat (length done)) =
  (MVal b content (BRec (map RCell (done ++ [m]) ++ repeat REmpty (length ms))), Ok (RCell m)).
Proof.
  intros T. pose proof (turn_app _ _ _ _ T) as T'. inversion T' as [|c m0 n ms0 r0 P T2]; subst.
  cbn [record_at length repeat]. rewrite Nat2N.id. rewrite nth_error_app2 by (rewrite map_length; lia). rewrite map_length, Nat.sub_diag. cbn [nth_error].
  replace (S (length done)) with (length done + 1)%nat by lia. rewrite load_done. cbn [load_records].
  assert (length (concat (map mr_buf done)) < length content)%nat as L.
  { destruct (Nat.lt_ge_cases (length (concat (map mr_buf done))) (length content)) as [L|L]; [exact L|]. rewrite skipn_all2 in P by exact L. discriminate. }
  rewrite Z.add_0_l. destruct (Z.ltb_spec (zlen content) (zlen (concat (map mr_buf done)))) as [C|C]; [unfold zlen in C; lia|].
  assert (go_from content (zlen (concat (map mr_buf done))) = Ok (skipn (length (concat (map mr_buf done))) content)) as ->.
  { unfold go_from, zlen in *. match goal with |- context [if ?c then _ else _] => destruct c eqn:E end; rewrite ?Nat2Z.id; try reflexivity; exfalso; revert E; clear - L; lia. }
  cbn [rbind]. rewrite P. cbn [rbind]. rewrite map_app, <- app_assoc. cbn [map app].
  assert (forall k p, load_records content (repeat REmpty k) 0 p = (repeat REmpty k, Ok tt)) as -> by (intros [|k] p; reflexivity). cbn [rbind].
  rewrite nth_error_app2 by (rewrite map_length; lia). rewrite map_length, Nat.sub_diag. reflexivity.
Qed.

Definition total_est (rs : list record) : Z := fold_right Z.add 0 (map record_est rs).
Lemma copy_records_fresh cc ms rs r : Forall2 (fun m v => mr_copy_with cc m = Ok v) ms rs -> forall b c done acc e,
  in_turn c (done ++ ms) r ->
  copy_records cc (length ms) (N.of_nat (length done)) (MVal b c (BRec (map RCell done ++ repeat REmpty (length ms)))) (VRecs e acc) =
  Ok (VRecs (e + total_est rs) (acc ++ rs)).
Proof.
  induction 1 as [|m v ms vs E F IH]; intros b c done acc e R.
  - cbn [copy_records length]. unfold total_est. cbn [map fold_right]. now rewrite app_nil_r, Z.add_0_r.
  - cbn [length copy_records]. pose proof (at_load b c done m ms r R) as A. cbn [length] in A. rewrite A. cbn [rbind]. rewrite E. cbn [rbind rl_append].
    replace (N.of_nat (length done) + 1)%N with (N.of_nat (length (done ++ [m]))) by (rewrite app_length; simpl; lia).
    rewrite (IH b c (done ++ [m])) by (rewrite <- app_assoc; exact R). unfold total_est. cbn [map fold_right]. now rewrite <- app_assoc, Z.add_assoc.
Qed.

(** If the records of a parsed list can be read one after the other and can be copied, the copy of the list has these copies
    in this order, and estimates one byte more than they do together. *)
Theorem C118_record_list : forall b m n cells ms rest rs,
  new_std_value b = Ok (m, n) -> mv_body m = BRec cells -> length cells = length ms -> in_turn (mv_content m) ms rest ->
  Forall2 (fun p r => record_copy_construct (RMapped p) = Ok r) ms rs ->
  value_copy_construct (VStd m) = Ok (VRecs (1 + total_est rs) rs).
Proof.
  intros b m n cells ms rest rs P B L T F. cbn [value_copy_construct]. unfold std_copy_construct. cbn [mv_copy_construct]. rewrite B.
  destruct (std_shorter _ _ _ P) as (_ & L2). destruct (std_decode_inv _ _ _ P) as (l & c & body & suf & -> & Ly & -> & _). cbn [mv_buf mv_content mv_body] in *.
  assert (cells = repeat REmpty (length cells)) as Q.
  { subst body. inversion Ly as [m0 sf lf c0 sa sr lc na nr H1 H2 H3 H4 H5 H6 H7 H8]. clear - H8. unfold rec_body, arr_body in H8. destruct sr; [destruct sa; discriminate|]. inversion H8. now rewrite repeat_length. }
  rewrite Q, repeat_length, L. unfold new_record_list.
  assert (Forall2 (fun p r => mr_copy_with (mv_copy_construct (length l)) p = Ok r) ms rs) as F'.
  { clear P B L Q Ly cells. revert L2. generalize (length l). intros N0 L2. revert rs F. induction T as [c|c p n0 ms r0 P T IH]; intros rs F; inversion F as [|p' r ms' rs' E F2]; subst; constructor.
    - apply record_parts in P. cbn [record_copy_construct] in E. destruct p as [pb k v s t g]. cbn [mr_copy_with] in *. cbn beta iota in P. unfold bytes in *.
      assert (S (length (mv_buf v)) <= N0)%nat as Lv by (clear - P L2; lia). assert (S (length (mv_buf s)) <= N0)%nat as Ls by (clear - P L2; lia).
      destruct (assert_part (ikey_copy_construct k)); cbn [rbind] in *; try discriminate. unfold std_copy_construct in E.
      destruct (mv_copy_construct (S (length (mv_buf v))) v) as [v'| |] eqn:V; cbn [assert_part rbind] in E; try discriminate.
      rewrite (mono_copy _ N0 _ _ Lv V). cbn [assert_part rbind].
      destruct (mv_copy_construct (S (length (mv_buf s))) s) as [s'| |] eqn:S'; cbn [assert_part rbind] in E; try discriminate.
      rewrite (mono_copy _ N0 _ _ Ls S'). exact E.
    - apply IH; [rewrite skipn_length; lia|assumption]. }
  rewrite B, Q, L. exact (copy_records_fresh _ _ _ _ F' l c [] [] 1 T).
Qed.
Print Assumptions C118_record_list.

(** A list of two records, each with an empty key, a value and a scheme. *)
Definition two_records : bytes := [x11; x02; x10] ++ [x70; x00; x01; x01; x41; x01; x01; x42] ++ [x70; x00; x01; x01; x43; x01; x01; x44].
Example C118_record_list_applies : exists m n ms rs, new_std_value two_records = Ok (m, n) /\ in_turn (mv_content m) ms [] /\
  Forall2 (fun p r => record_copy_construct (RMapped p) = Ok r) ms rs /\ length rs = 2%nat /\ value_copy_construct (VStd m) = Ok (VRecs (1 + total_est rs) rs).
Proof.
  eexists _, _, _, _. split; [vm_compute; reflexivity|].
  match goal with |- ?A /\ ?B /\ _ => assert (A /\ B) as (T & F) end.
  { split.
    - eapply turn_cons; [vm_compute; reflexivity|]. eapply turn_cons; [vm_compute; reflexivity|]. apply turn_nil.
    - constructor; [vm_compute; reflexivity|]. constructor; [vm_compute; reflexivity|]. constructor. }
  split; [exact T|]. split; [exact F|]. split; [reflexivity|]. eapply (C118_record_list two_records); [vm_compute; reflexivity|reflexivity| |exact T|exact F]. reflexivity.
Qed.
Example C118_built_applies : built (VArr 7 [VPrim (Some [x61]); VRecs 3 [set_value (set_key new_record (KKey false [Some [x6b]] None 3)) (VPrim None)]]).
Proof.
  constructor. intros v [<-|[<-|[]]]; [constructor|]. constructor. intros r [<-|[]]. cbn. constructor; [|intros v' [= <-]; constructor|discriminate].
  intros k [= <-]. constructor; [discriminate|constructor].
Qed.

(** ** Records filled by their setters

    C44 speaks of a record and its parts. The setters, in any order and as often as one likes, make the record whose parts
    are the ones set last. *)
Inductive setting := SKey (k : ikey) | SValue (v : value) | SScheme (v : value) | STime (t : option Z) | SSign (a b : option Z).
Definition apply_setting (r : record) (s : setting) : record :=
  match s with SKey k => set_key r k | SValue v => set_value r v | SScheme v => set_scheme r v | STime t => set_timestamp r t | SSign a b => set_signature r a b end.
Definition last_of {A} (f : setting -> option A) (old : A) (l : list setting) : A := fold_left (fun a s => match f s with Some x => x | None => a end) l old.
Definition key_set (s : setting) : option (option ikey) := match s with SKey k => Some (Some k) | _ => None end.
Definition value_set (s : setting) : option (option value) := match s with SValue v => Some (Some v) | _ => None end.
Definition scheme_set (s : setting) : option (option value) := match s with SScheme v => Some (Some v) | _ => None end.
Definition time_set (s : setting) : option (option Z) := match s with STime t => Some t | _ => None end.
Definition sign_set (s : setting) : option (option Z * option Z) := match s with SSign a b => Some (a, b) | _ => None end.
Definition est_of_key (k : option ikey) : Z := match k with Some k => ikey_est k | None => 0 end.
Definition est_of_value (v : option value) : Z := match v with Some v => value_est v | None => 0 end.
Theorem C44_setters : forall l,
  let k := last_of key_set None l in let v := last_of value_set None l in let s := last_of scheme_set None l in
  let t := last_of time_set None l in let g := last_of sign_set (None, None) l in
  fold_left apply_setting l new_record = Rec (est_of_key k, est_of_value v, est_of_value s) k v s t (fst g) (snd g).
Proof.
  intros l. cbv zeta. unfold new_record, last_of.
  cut (forall k v s t g, fold_left apply_setting l (Rec (est_of_key k, est_of_value v, est_of_value s) k v s t (fst g) (snd g)) =
    Rec (est_of_key (last_of key_set k l), est_of_value (last_of value_set v l), est_of_value (last_of scheme_set s l))
      (last_of key_set k l) (last_of value_set v l) (last_of scheme_set s l) (last_of time_set t l) (fst (last_of sign_set g l)) (snd (last_of sign_set g l))).
  { intros H. exact (H None None None None (None, None)). }
  unfold last_of. induction l as [|x l IH]; intros k v s t g; [reflexivity|]. cbn [fold_left].
  destruct x as [k'|v'|s'|t'|a b]; cbn [apply_setting set_key set_value set_scheme set_timestamp set_signature key_set value_set scheme_set time_set sign_set].
  - exact (IH (Some k') v s t g).
  - exact (IH k (Some v') s t g).
  - exact (IH k v (Some s') t g).
  - exact (IH k v s t' g).
  - exact (IH k v s t (a, b)).
Qed.
Print Assumptions C44_setters.
(** So their wire format is that of the parts set last. *)
Theorem C44_setters_wire : forall l tk tv ts tt b,
  key_says (last_of key_set None l) tk -> osays (last_of value_set None l) tv -> osays (last_of scheme_set None l) ts ->
  tail_says (last_of time_set None l) (fst (last_of sign_set (None, None) l)) (snd (last_of sign_set (None, None) l)) tt ->
  (record_encode (fold_left apply_setting l new_record) = Ok b <-> rwire (TRec tk tv ts tt) b).
Proof. intros l tk tv ts tt b K V S T. rewrite C44_setters. apply C44_wire_format. now constructor. Qed.
Print Assumptions C44_setters_wire.
Example C44_setters_applies : exists b, let l := [STime (Some 5); SScheme (VPrim (Some [x41])); SValue (VPrim None); SValue (VPrim (Some [x42])); SSign (Some 1) (Some 2)] in
  record_encode (fold_left apply_setting l new_record) = Ok b /\ rwire (TRec None (Some (TPrim [x42])) (Some (TPrim [x41])) (Some (5, Some (1, 2)))) b.
Proof.
  eexists. cbv zeta. match goal with |- ?A /\ ?B => assert (A <-> B) as W end.
  - apply C44_setters_wire; cbn; [constructor| | |constructor; lia]; (constructor; [constructor|intros Q; inversion Q]).
  - split; [vm_compute; reflexivity|]. apply W. vm_compute. reflexivity.
Qed.

(** ** Copies of parsed records *)
(** CopyConstruct of a parsed record is made of the copies of its parts; if a part has none it panics, also where the part returns an error. *)
Theorem C118_parsed_record_exact : forall b k v s t g,
  record_copy_construct (RMapped (MRec b k v s t g)) =
  match ikey_copy_construct k, value_copy_construct (VStd v), value_copy_construct (VStd s) with
  | Ok k', Ok v', Ok s' => Ok (Rec (0, 0, 0) (Some k') (Some v') (Some s') t (option_map fst g) (option_map snd g))
  | _, _, _ => Panic
  end.
Proof.
  intros b k v s t g. cbn [record_copy_construct value_copy_construct mr_copy_with].
  destruct (ikey_copy_construct k); destruct (std_copy_construct v); destruct (std_copy_construct s); reflexivity.
Qed.
Print Assumptions C118_parsed_record_exact.
(** The value of this record is an array of three whose second element cannot be read. *)
Example C118_parsed_record_exact_applies : exists b k v s t g n,
  new_mapped_record [x74; x00; x41; x03; x05; x01; x01; x41; xff; xff; x00; x00; x00; x00; x00; x00; x00; x00; x05] = Ok (MRec b k v s t g, n) /\
  value_copy_construct (VStd v) = Err /\ record_copy_construct (RMapped (MRec b k v s t g)) = Panic.
Proof. do 7 eexists. split; [vm_compute; reflexivity|]. split; vm_compute; reflexivity. Qed.
