(** * Proofs about the protocol of IEncodable. *)
From Coq Require Import List Bool Lia.
From Verif Require Import Base ProtoModel ProtoSpec.
Import ListNotations.

(** The objects after a program. *)
Fixpoint world (w : list obj) (es : list event) : list obj :=
  match es with [] => w | e :: es' => world (fst (step w e)) es' end.

Lemma answers_app : forall es w fs, answers w (es ++ fs) = answers w es ++ answers (world w es) fs.
Proof.
  induction es as [|e es IH]; intros w fs; [reflexivity|].
  cbn [app answers world]. destruct (step w e) as [w' a] eqn:E. cbn [fst]. rewrite IH. reflexivity.
Qed.
Lemma answers_length : forall es w, length (answers w es) = length es.
Proof. induction es as [|e es IH]; intros w; [reflexivity|]. cbn. destruct (step w e). cbn. now rewrite IH. Qed.
Lemma last_answer es e : nth_error (answers [] (es ++ [e])) (length es) = Some (snd (step (world [] es) e)).
Proof.
  rewrite answers_app, nth_error_app2; rewrite answers_length; [|lia].
  rewrite PeanoNat.Nat.sub_diag. cbn. destruct (step (world [] es) e). reflexivity.
Qed.

(** What an object and what is known of it have to do with each other. *)
Definition rel (x : obj) (f : face) : Prop :=
  o_cls x = f_cls f /\
  match o_cls x with
  | Primitive | Record_ | Scheme => o_encoded x = f_cache f
  | SimpleMappedValue | StandardMappedValue | MappedRecord | MappedScheme | MappedTrie => o_decoded x = f_parsed f
  | EmptyKey => f_parsed f = true
  | ValueArray | RecordList => o_encoded x = if o_nil x then false else f_cache f
  | MappedKey => o_nil x = negb (f_parsed f)
  | Trie => o_encoded x = false /\ f_cache f = false
  | Key | TrieNode => f_cache f = true -> o_encoded x = true
  | _ => True
  end.

Lemma rel_zero c : rel (zero_of c) (zero_face c).
Proof. destruct c; unfold rel; cbn; auto. Qed.
Lemma rel_make c d o x : make c d o = Ok x -> rel x (new_face (o_cls x)).
Proof. destruct c, o as [[]| |]; cbn; intros H; inv H; unfold rel; cbn; auto. Qed.
Lemma rel_copy x d o y : copy x d o = Ok y -> rel y (copied_face (o_cls y)).
Proof. unfold copy. destruct (o_cls x), o as [[]| |]; intros H; inv H; unfold rel; cbn; auto. Qed.
Lemma rel_construct x c o y : copy_construct x c o = Ok y -> rel y (copied_face (o_cls y)).
Proof.
  unfold copy_construct. destruct (o_cls x), o as [[]| |]; cbn; intros H; inv H; unfold rel; cbn; auto; destruct c; cbn; auto.
Qed.

Lemma rel_told x f k x' a l : rel x f -> answer_to x k = (x', a, l) -> rel x' (told f k a).
Proof.
  intros H. destruct k as [|o| |d o|d o|c0 o| |]; cbn [answer_to]; intros E; try (inv E; exact H).
  - destruct H as [C R]. destruct x as [c en de ni], f as [c' ca pa]. cbn in C. subst c'.
    destruct c, o as [[]| |], ni; cbn in E; inv E; unfold rel; cbn in *; auto.
  - destruct H as [C R]. destruct x as [c en de ni], f as [c' ca pa]. cbn in C. subst c'.
    destruct c, o as [[]| |]; cbn in E; inv E; unfold rel; cbn in *; auto.
  - destruct H as [C R]. destruct x as [c en de ni], f as [c' ca pa]. cbn in C. subst c'.
    destruct c; cbn in E; inv E; unfold rel; cbn in *; auto; intuition congruence.
Qed.

Lemma forall2_put (R : obj -> face -> Prop) : forall w v i x f, Forall2 R w v -> R x f -> Forall2 R (put w i x) (fput v i f).
Proof. induction w as [|y w IH]; intros v i x f H Hx; inv H; destruct i; cbn; constructor; auto. Qed.
Lemma forall2_nth (R : obj -> face -> Prop) : forall w v i, Forall2 R w v ->
  (forall x, nth_error w i = Some x -> exists f, nth_error v i = Some f /\ R x f) /\
  (nth_error w i = None -> nth_error v i = None) /\
  (forall f, nth_error v i = Some f -> exists x, nth_error w i = Some x /\ R x f).
Proof.
  induction w as [|y w IH]; intros v i H; inv H.
  - destruct i; cbn; repeat split; intros; discriminate.
  - destruct i as [|i]; cbn.
    + repeat split; intros; try discriminate; inv H; eauto.
    + apply IH. assumption.
Qed.

Lemma step_rel w v e : Forall2 rel w v -> Forall2 rel (fst (step w e)) (follow v e (snd (step w e))).
Proof.
  intros H. destruct e as [c d o|c|i k]; cbn [step].
  - cbn [fst snd follow]. destruct (make c d o) as [x| |] eqn:E; cbn [made rmap rbind]; rewrite ?app_nil_r; try assumption.
    apply Forall2_app; [assumption|]. constructor; [|constructor]. eapply rel_make; eassumption.
  - cbn [fst snd follow]. apply Forall2_app; [assumption|]. constructor; [|constructor]. apply rel_zero.
  - destruct (forall2_nth rel w v i H) as (F1 & F2 & _).
    destruct (nth_error w i) as [x|] eqn:N.
    + destruct (F1 x eq_refl) as (f & Nf & Rx).
      destruct (answer_to x k) as [[x' a] l] eqn:E. cbn [fst snd follow]. rewrite Nf.
      apply Forall2_app.
      * apply forall2_put; [assumption|]. eapply rel_told; eassumption.
      * assert (Hm : forall r, (forall y, r = Ok y -> rel y (copied_face (o_cls y))) ->
                     Forall2 rel (made r) match ACopy (rmap o_cls r) with ACopy (Ok c) => [copied_face c] | _ => [] end).
        { intros [y| |] Hr; cbn; [|constructor|constructor]. constructor; [|constructor]. apply Hr. reflexivity. }
        destruct k as [|o| |d o|d o|c0 o| |]; cbn [answer_to] in E.
        -- inv E. constructor.
        -- destruct (encode x o). inv E. constructor.
        -- inv E. constructor.
        -- destruct (decode x d o). inv E. constructor.
        -- inv E. apply Hm. intros y Hy. eapply rel_copy; eassumption.
        -- inv E. apply Hm. intros y Hy. eapply rel_construct; eassumption.
        -- inv E. constructor.
        -- destruct (update x). inv E. constructor.
    + cbn [fst snd follow]. assumption.
Qed.
Lemma world_rel : forall es w v, Forall2 rel w v -> Forall2 rel (world w es) (faces v es (answers w es)).
Proof.
  induction es as [|e es IH]; intros w v H; [assumption|].
  cbn [world answers]. pose proof (step_rel w v e H) as S1. destruct (step w e) as [w' a]. cbn [faces fst snd] in *.
  apply IH. assumption.
Qed.

(** The answer of a call, through the object. *)
Lemma asked es i k f a :
  nth_error (faces [] es (answers [] es)) i = Some f ->
  nth_error (answers [] (es ++ [On i k])) (length es) = Some (Some a) ->
  exists x, nth_error (world [] es) i = Some x /\ rel x f /\ a = snd (fst (answer_to x k)).
Proof.
  intros Nf Na. rewrite last_answer in Na.
  destruct (forall2_nth rel _ _ i (world_rel es [] [] (Forall2_nil _))) as (_ & _ & F3).
  destruct (F3 f Nf) as (x & Nx & R). exists x. split; [assumption|split; [assumption|]].
  cbn [step] in Na. rewrite Nx in Na. destruct (answer_to x k) as [[x' b] l]. cbn in *. congruence.
Qed.
Lemma answered es i k f :
  nth_error (faces [] es (answers [] es)) i = Some f ->
  exists x, nth_error (world [] es) i = Some x /\ rel x f /\
    nth_error (answers [] (es ++ [On i k])) (length es) = Some (Some (snd (fst (answer_to x k)))).
Proof.
  intros Nf. destruct (forall2_nth rel _ _ i (world_rel es [] [] (Forall2_nil _))) as (_ & _ & F3).
  destruct (F3 f Nf) as (x & Nx & R). exists x. split; [assumption|split; [assumption|]].
  rewrite last_answer. cbn [step]. rewrite Nx. destruct (answer_to x k) as [[x' b] l]. reflexivity.
Qed.

Lemma eqb_refl b : Bool.eqb b b = true.
Proof. destruct b; reflexivity. Qed.

(** Outside the table every clause is kept. *)
Lemma sound x f k cl : rel x f -> defect (f_cls f) cl = false -> keeps cl f k (snd (fst (answer_to x k))) = true.
Proof.
  intros [C R] D. destruct x as [c en de ni], f as [c' ca pa]. cbn in C. subst c'. cbn [f_cls] in D.
  destruct cl, k as [|o| |d o|d o|c0 o| |]; try reflexivity; destruct c; cbn in D; try discriminate D; cbn in R |- *;
    try match type of R with _ /\ _ => destruct R end; subst; try reflexivity; try apply eqb_refl;
    try (destruct o as [[]| |]; reflexivity);
    try (destruct ca; reflexivity);
    try (destruct o as [[]| |], ni; reflexivity);
    try (destruct o as [[]| |]; destruct c0; reflexivity).
Qed.

(** Lists and arrays that did not begin as zero values are not nil. *)
Definition no_zero_lists (es : list event) : bool :=
  forallb (fun e => match e with Zero ValueArray => false | Zero RecordList => false | _ => true end) es.
Definition whole (x : obj) : Prop := match o_cls x with ValueArray | RecordList => o_nil x = false | _ => True end.
Lemma whole_put : forall w i x, Forall whole w -> whole x -> Forall whole (put w i x).
Proof. induction w as [|y w IH]; intros i x H Hx; inv H; destruct i; cbn; constructor; auto. Qed.
Lemma whole_step w e : Forall whole w -> (match e with Zero ValueArray => false | Zero RecordList => false | _ => true end) = true ->
  Forall whole (fst (step w e)).
Proof.
  intros H Z. destruct e as [c d o|c|i k]; cbn [step].
  - cbn [fst]. apply Forall_app. split; [assumption|]. destruct c, o as [[]| |]; cbn; repeat constructor.
  - cbn [fst]. apply Forall_app. split; [assumption|]. destruct c; try discriminate Z; repeat constructor.
  - destruct (nth_error w i) as [x|] eqn:N; [|assumption].
    assert (Hx : whole x) by (eapply Forall_forall; [exact H|]; eapply nth_error_In; eassumption).
    destruct (answer_to x k) as [[x' a] l] eqn:E. cbn [fst]. apply Forall_app.
    assert (G : whole x' /\ Forall whole l).
    { clear - E Hx. unfold whole in Hx. destruct x as [c en de ni].
      destruct k as [|o| |d o|d o|c0 o| |]; cbn [answer_to] in E.
      - inv E. split; [exact Hx|constructor].
      - destruct c, o as [[]| |]; cbn in E, Hx; subst; inv E; (split; [exact Logic.I || reflexivity|constructor]).
      - inv E. split; [exact Hx|constructor].
      - destruct c, o as [[]| |]; cbn in E, Hx; subst; inv E; (split; [exact Logic.I || reflexivity|constructor]).
      - inv E. split; [exact Hx|]. destruct c, o as [[]| |]; cbn; repeat constructor.
      - inv E. split; [exact Hx|]. destruct c, o as [[]| |]; cbn; try (repeat constructor); destruct c0; cbn; reflexivity || exact Logic.I.
      - inv E. split; [exact Hx|constructor].
      - destruct c; cbn in E, Hx; subst; inv E; (split; [exact Logic.I || reflexivity|constructor]). }
    destruct G. split; [apply whole_put; assumption|assumption].
Qed.
Lemma whole_world : forall es w, Forall whole w -> no_zero_lists es = true -> Forall whole (world w es).
Proof.
  induction es as [|e es IH]; intros w H Z; [assumption|]. cbn in Z. apply andb_prop in Z. destruct Z as [Z1 Z2].
  cbn [world]. apply IH; [|assumption]. apply whole_step; assumption.
Qed.
Lemma sound_lists x f k cl : rel x f -> whole x -> (f_cls f = ValueArray \/ f_cls f = RecordList) ->
  keeps cl f k (snd (fst (answer_to x k))) = true.
Proof.
  intros [C R] W D. destruct x as [c en de ni], f as [c' ca pa]. cbn in C. subst c'. cbn [f_cls] in D.
  destruct D; subst c; cbn in R, W; subst ni en; destruct cl, k as [|o| |d o|d o|c0 o| |]; try reflexivity; cbn;
    try (destruct ca; reflexivity); destruct o as [[]| |]; reflexivity.
Qed.

(** Keys and trie nodes do not forget that they were encoded. *)
Lemma sticky_step w i x e : nth_error w i = Some x -> (o_cls x = Key \/ o_cls x = TrieNode) -> o_encoded x = true ->
  exists y, nth_error (fst (step w e)) i = Some y /\ (o_cls y = Key \/ o_cls y = TrieNode) /\ o_encoded y = true.
Proof.
  intros N C E.
  assert (L : (i < length w)%nat) by (apply nth_error_Some; congruence).
  destruct e as [c d o|c|j k]; cbn [step fst].
  - rewrite nth_error_app1 by assumption. eauto.
  - rewrite nth_error_app1 by assumption. eauto.
  - destruct (nth_error w j) as [z|] eqn:Nj; [|eauto].
    destruct (answer_to z k) as [[z' a] l] eqn:A. cbn [fst].
    assert (Lp : forall (w : list obj) j z', length (put w j z') = length w).
    { clear. induction w as [|y w IH]; intros [|j] z; cbn; auto. }
    rewrite nth_error_app1 by (rewrite Lp; assumption).
    assert (P : forall (w : list obj) j z', nth_error (put w j z') i = if Nat.eqb i j then option_map (fun _ => z') (nth_error w i) else nth_error w i).
    { clear. intros w. revert i. induction w as [|y w IH]; intros i [|j] z; destruct i as [|i]; cbn; auto.
      - destruct (Nat.eqb i j); reflexivity. }
    rewrite P. destruct (PeanoNat.Nat.eqb_spec i j) as [->|].
    + rewrite N in Nj |- *. inv Nj. cbn. exists z'. split; [reflexivity|].
      destruct z as [cz en de ni]. cbn in C, E. subst en.
      destruct k as [|o| |d o|d o|c0 o| |]; destruct C as [->| ->]; cbn in A; try (inv A; cbn; auto; fail);
        destruct o as [[]| |]; inv A; cbn; auto.
    + eauto.
Qed.
Lemma world_app : forall es w fs, world w (es ++ fs) = world (world w es) fs.
Proof. induction es as [|e es IH]; intros w fs; [reflexivity|]. cbn [app world]. apply IH. Qed.
Lemma sticky : forall fs w i x, nth_error w i = Some x -> (o_cls x = Key \/ o_cls x = TrieNode) -> o_encoded x = true ->
  exists y, nth_error (world w fs) i = Some y /\ (o_cls y = Key \/ o_cls y = TrieNode) /\ o_encoded y = true.
Proof.
  induction fs as [|e fs IH]; intros w i x N C E; [eauto|].
  destruct (sticky_step w i x e N C E) as (y & Ny & Cy & Ey). cbn [world]. eapply IH; eassumption.
Qed.

(** Trie nodes whose bytes are not those of dummy nodes. *)
Definition no_dummy (e : event) : bool :=
  match e with New _ d _ => negb d | On _ (Decode d _) => negb d | On _ (Copy d _) => negb d | _ => true end.
Definition real (x : obj) : Prop := o_cls x = MappedTrieNode -> o_decoded x = false.
Lemma real_put : forall w i x, Forall real w -> real x -> Forall real (put w i x).
Proof. induction w as [|y w IH]; intros i x H Hx; inv H; destruct i; cbn; constructor; auto. Qed.
Lemma real_step w e : Forall real w -> no_dummy e = true -> Forall real (fst (step w e)).
Proof.
  intros H Z. destruct e as [c d o|c|i k]; cbn [step].
  - cbn in Z. destruct d; [discriminate|]. cbn [fst]. apply Forall_app. split; [assumption|].
    destruct c, o as [[]| |]; cbn; repeat constructor; unfold real; cbn; congruence.
  - cbn [fst]. apply Forall_app. split; [assumption|]. repeat constructor; unfold real; cbn; congruence.
  - destruct (nth_error w i) as [x|] eqn:N; [|assumption].
    assert (Hx : real x) by (eapply Forall_forall; [exact H|]; eapply nth_error_In; eassumption).
    destruct (answer_to x k) as [[x' a] l] eqn:E. cbn [fst]. apply Forall_app.
    assert (G : real x' /\ Forall real l).
    { clear - E Hx Z. unfold real in Hx. destruct x as [c en de ni]. cbn in Hx.
      destruct k as [|o| |d o|d o|c0 o| |]; cbn [answer_to] in E; cbn in Z.
      - inv E. split; [exact Hx|constructor].
      - destruct c, o as [[]| |], ni; cbn in E; inv E; (split; [exact Hx|constructor]).
      - inv E. split; [exact Hx|constructor].
      - destruct d; [discriminate|].
        destruct c, o as [[]| |]; cbn in E; inv E; (split; [|constructor]); unfold real; cbn; try congruence; try exact Hx.
        intros _. rewrite Hx by reflexivity. reflexivity.
      - destruct d; [discriminate|]. inv E. split; [exact Hx|].
        destruct c, o as [[]| |]; cbn; repeat constructor; unfold real; cbn; congruence.
      - inv E. split; [exact Hx|]. destruct c, o as [[]| |]; cbn; repeat constructor; unfold real; cbn; try congruence;
          destruct c0; congruence.
      - inv E. split; [exact Hx|constructor].
      - destruct c; cbn in E; inv E; (split; [|constructor]); unfold real; cbn; try congruence; exact Hx. }
    destruct G. split; [apply real_put; assumption|assumption].
Qed.
Lemma real_world : forall es w, Forall real w -> forallb no_dummy es = true -> Forall real (world w es).
Proof.
  induction es as [|e es IH]; intros w H Z; [assumption|]. cbn [forallb] in Z. apply andb_prop in Z. destruct Z as [Z1 Z2].
  cbn [world]. apply IH; [|assumption]. apply real_step; assumption.
Qed.
