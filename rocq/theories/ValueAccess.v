(** * Proofs about ValueAt on live objects, round trips and copies. *)
From Coq Require Import List NArith ZArith Bool Lia.
From Coq Require Import Strings.Byte.
From Verif Require Import Base BaseProofs KeyModel ValueModel ValueSpec ValueProofs.
Import ListNotations.
Local Open Scope Z_scope.

(** ** The loading loop *)
Definition total (ms : list mval) : Z := fold_right (fun m a => zlen (mv_buf m) + a) 0 ms.
Lemma total_app a b : total (a ++ b) = total a + total b.
Proof. induction a as [|x a IH]; simpl; [reflexivity|]. rewrite IH. lia. Qed.

Lemma total_cons x xs : total (x :: xs) = zlen (mv_buf x) + total xs.
Proof. reflexivity. Qed.

Lemma load_loaded content xs : forall cs t pos,
  load_values content (map VCell xs ++ cs) (length xs + t) pos =
  (let (cs', r) := load_values content cs t (pos + total xs) in (map VCell xs ++ cs', r)).
Proof.
  induction xs as [|x xs IH]; intros cs t pos; cbn [map app length Nat.add].
  - cbn [total fold_right]. rewrite Z.add_0_r. now destruct (load_values content cs t pos).
  - cbn [load_values]. rewrite IH, total_cons, Z.add_assoc. now destruct (load_values content cs t _).
Qed.

Lemma new_std_split c m n : new_std_value c = Ok (m, n) ->
  c = mv_buf m ++ skipn (Z.to_nat n) c /\ n = zlen (mv_buf m).
Proof.
  intros H. destruct (std_decode_inv _ _ _ H) as (l & ct & body & suf & -> & L & -> & ->). cbn [mv_buf].
  split; [|reflexivity]. rewrite skipn_app_exact by (unfold zlen; lia). reflexivity.
Qed.

Lemma load_reads rest ms r : reads rest ms r -> forall pre cs t,
  load_values (pre ++ rest) (repeat VEmpty (length ms) ++ cs) (length ms + t) (zlen pre) =
  (let (cs', o) := load_values (pre ++ rest) cs t (zlen pre + total ms) in (map VCell ms ++ cs', o)).
Proof.
  induction 1 as [c|c m n ms r P R IH]; intros pre cs t; cbn [length repeat app map Nat.add].
  - cbn [total fold_right]. rewrite Z.add_0_r. now destruct (load_values (pre ++ c) cs t (zlen pre)).
  - cbn [load_values]. rewrite zlen_app. pose proof (zlen_nonneg c).
    destruct (Z.ltb_spec (zlen pre + zlen c) (zlen pre)); [lia|].
    rewrite go_from_app. cbn [rbind]. rewrite P. destruct (new_std_split _ _ _ P) as (Ec & En).
    assert (pre ++ c = (pre ++ mv_buf m) ++ skipn (Z.to_nat n) c) as -> by (rewrite <- app_assoc, <- Ec; reflexivity).
    rewrite <- zlen_app. rewrite IH, total_cons, (zlen_app pre (mv_buf m)), Z.add_assoc.
    now destruct (load_values _ cs t _).
Qed.

Lemma reads_split c ms r : reads c ms r -> exists p, c = p ++ r /\ zlen p = total ms.
Proof.
  induction 1 as [c|c m n ms r P R (p & E & L)].
  - exists []. auto.
  - destruct (new_std_split _ _ _ P) as (Ec & En). exists (mv_buf m ++ p). split.
    + rewrite Ec at 1. rewrite E at 1. now rewrite app_assoc.
    + rewrite zlen_app, L. reflexivity.
Qed.
Lemma reads_app c ms1 ms2 r : reads c (ms1 ++ ms2) r -> exists r1, reads c ms1 r1 /\ reads r1 ms2 r.
Proof.
  revert c. induction ms1 as [|m ms1 IH]; intros c H; cbn [app] in H.
  - exists c. split; [constructor|assumption].
  - inversion H as [|c' m' n ms r' P R]; subst. destruct (IH _ R) as (r1 & R1 & R2).
    exists r1. split; [econstructor; eassumption|assumption].
Qed.

(** Loading [ms2] after the elements [xs] (which occupy the bytes of [ms1]). *)
Lemma load_more content ms1 ms2 r xs cs t : reads content (ms1 ++ ms2) r -> total xs = total ms1 ->
  load_values content (map VCell xs ++ repeat VEmpty (length ms2) ++ cs) (length xs + (length ms2 + t)) 0 =
  (let (cs', o) := load_values content cs t (total (ms1 ++ ms2)) in (map VCell xs ++ map VCell ms2 ++ cs', o)).
Proof.
  intros R T. rewrite load_loaded. rewrite Z.add_0_l, T.
  destruct (reads_app _ _ _ _ R) as (r1 & R1 & R2). destruct (reads_split _ _ _ R1) as (p & -> & L).
  rewrite <- L. rewrite (load_reads _ _ _ R2). rewrite total_app, L.
  now destruct (load_values _ cs t _).
Qed.

Lemma load_stop content cs pos : load_values content cs 0 pos = (cs, Ok tt).
Proof. destruct cs; reflexivity. Qed.
Lemma load_bad content ms r cs t : reads content ms r -> new_std_value r = Err ->
  load_values content (VEmpty :: cs) (S t) (total ms) = (VBroken :: cs, Err).
Proof.
  intros R B. destruct (reads_split _ _ _ R) as (p & -> & L). rewrite <- L. cbn [load_values].
  rewrite zlen_app. pose proof (zlen_nonneg r). destruct (Z.ltb_spec (zlen p + zlen r) (zlen p)); [lia|].
  rewrite go_from_app. cbn [rbind]. rewrite B. reflexivity.
Qed.

(** ** Any sequence of ValueAt calls on a parsed array *)
Lemma nth_error_repeat_in {A} (x : A) n i : (i < n)%nat -> nth_error (repeat x n) i = Some x.
Proof. revert i. induction n as [|n IH]; intros [|i] H; try lia; simpl; auto. apply IH. lia. Qed.
Lemma nth_error_repeat_out {A} (x : A) n i : (n <= i)%nat -> nth_error (repeat x n) i = None.
Proof. intros H. apply nth_error_None. rewrite repeat_length. assumption. Qed.

(** One call on an array whose first elements are loaded. *)
Lemma value_at_cached b c xs cs i x : nth_error xs (N.to_nat i) = Some x ->
  value_at (MVal b c (BArr (map VCell xs ++ cs))) i = (MVal b c (BArr (map VCell xs ++ cs)), Ok (VCell x)).
Proof.
  intros E. cbn [value_at]. assert (N.to_nat i < length xs)%nat as H by (apply nth_error_Some; congruence).
  rewrite nth_error_app1 by (rewrite map_length; assumption). rewrite nth_error_map, E. reflexivity.
Qed.
Lemma value_at_beyond b c cells i : (length cells <= N.to_nat i)%nat ->
  value_at (MVal b c (BArr cells)) i = (MVal b c (BArr cells), Err).
Proof. intros H. cbn [value_at]. apply nth_error_None in H. now rewrite H. Qed.
Lemma nth_error_skip {A} (l m : list A) n : nth_error (l ++ m) (length l + n) = nth_error m n.
Proof. rewrite nth_error_app2 by lia. f_equal. lia. Qed.

Lemma value_at_load b c ms1 ms2 e r xs cs i : reads c (ms1 ++ ms2 ++ [e]) r -> total xs = total ms1 ->
  N.to_nat i = (length xs + length ms2)%nat ->
  value_at (MVal b c (BArr (map VCell xs ++ repeat VEmpty (S (length ms2)) ++ cs))) i =
  (MVal b c (BArr (map VCell (xs ++ ms2 ++ [e]) ++ cs)), Ok (VCell e)).
Proof.
  intros R T Ei. cbn [value_at]. rewrite Ei.
  rewrite <- (map_length VCell xs) at 1. rewrite nth_error_skip.
  rewrite nth_error_app1 by (rewrite repeat_length; lia). rewrite nth_error_repeat_in by lia.
  pose proof (load_more c ms1 (ms2 ++ [e]) r xs cs 0 R T) as L. rewrite load_stop in L.
  rewrite app_length in L. cbn [length] in L.
  replace (length ms2 + 1)%nat with (S (length ms2)) in L by lia.
  replace (length xs + (S (length ms2) + 0))%nat with (S (length xs + length ms2)) in L by lia.
  rewrite L. rewrite !map_app, <- !app_assoc. cbn [rbind]. f_equal.
  rewrite <- (map_length VCell xs), nth_error_skip. rewrite <- (map_length VCell ms2).
  replace (length (map VCell ms2)) with (length (map VCell ms2) + 0)%nat by lia. rewrite nth_error_skip. reflexivity.
Qed.

Lemma value_at_fail b c ms1 ms2 r xs rest i : reads c (ms1 ++ ms2) r -> new_std_value r = Err -> total xs = total ms1 ->
  (length xs + length ms2 <= N.to_nat i < length xs + length ms2 + S rest)%nat ->
  value_at (MVal b c (BArr (map VCell xs ++ repeat VEmpty (length ms2) ++ repeat VEmpty (S rest)))) i =
  (MVal b c (BArr (map VCell (xs ++ ms2) ++ VBroken :: repeat VEmpty rest)), Err).
Proof.
  intros R B T Ei. cbn [value_at].
  assert (exists k, N.to_nat i = length xs + (length ms2 + k) /\ k < S rest)%nat as (k & -> & Hk).
  { exists (N.to_nat i - length xs - length ms2)%nat. lia. }
  rewrite <- (map_length VCell xs) at 1. rewrite nth_error_skip.
  rewrite <- (repeat_length VEmpty (length ms2)) at 2. rewrite nth_error_skip, nth_error_repeat_in by assumption.
  pose proof (load_more c ms1 ms2 r xs (repeat VEmpty (S rest)) (S k) R T) as L.
  replace (S (length xs + (length ms2 + k)))%nat with (length xs + (length ms2 + S k))%nat by lia.
  rewrite L. cbn [repeat]. rewrite (load_bad c (ms1 ++ ms2) r _ k R B).
  rewrite map_app, <- app_assoc. reflexivity.
Qed.

Lemma value_at_broken b c xs rest i :
  (length xs <= N.to_nat i < length xs + S rest)%nat ->
  value_at (MVal b c (BArr (map VCell xs ++ VBroken :: repeat VEmpty rest))) i =
  (MVal b c (BArr (map VCell xs ++ VBroken :: repeat VEmpty rest)),
   if Nat.eqb (N.to_nat i) (length xs) then Ok VBroken else Panic).
Proof.
  intros Ei. cbn [value_at].
  assert (exists k, N.to_nat i = length xs + k /\ k < S rest)%nat as (k & -> & Hk).
  { exists (N.to_nat i - length xs)%nat. lia. }
  rewrite <- (map_length VCell xs) at 1. rewrite nth_error_skip. destruct k as [|k].
  - cbn [nth_error]. rewrite Nat.add_0_r, Nat.eqb_refl. reflexivity.
  - cbn [nth_error]. rewrite nth_error_repeat_in by lia.
    replace (S (length xs + S k)) with (length xs + (S (S k)))%nat by lia. rewrite load_loaded. cbn [load_values].
    destruct (Nat.eqb_spec (length xs + S k) (length xs)); [lia|]. reflexivity.
Qed.

Lemma repeat_split {A} (x : A) a b : repeat x (a + b) = repeat x a ++ repeat x b.
Proof. apply repeat_app. Qed.

Lemma run_expected ms r : forall idxs b c n j failed, reads c ms r ->
  length ms = n \/ (length ms < n)%nat /\ new_std_value r = Err ->
  (j <= length ms)%nat -> (failed = true -> j = length ms /\ (length ms < n)%nat) ->
  run_value_at (MVal b c (BArr (map VCell (firstn j ms) ++
    if failed then VBroken :: repeat VEmpty (n - length ms - 1) else repeat VEmpty (n - j)))) idxs =
  expected n ms failed idxs.
Proof.
  induction idxs as [|i idxs IH]; intros b c n j failed R Hn Hj Hf; [reflexivity|].
  cbn [run_value_at expected].
  assert (length (firstn j ms) = j) as Lj by now apply firstn_length_le.
  destruct (nth_error ms (N.to_nat i)) as [e|] eqn:E.
  - assert (N.to_nat i < length ms)%nat as Hi by (apply nth_error_Some; congruence).
    destruct (Nat.lt_ge_cases (N.to_nat i) j) as [C|C].
    + rewrite (value_at_cached b c (firstn j ms) _ i e).
      2:{ rewrite <- (firstn_skipn j ms) in E. rewrite nth_error_app1 in E by (rewrite Lj; assumption). exact E. }
      rewrite IH by assumption. reflexivity.
    + destruct failed; [destruct (Hf eq_refl); lia|]. clear Hf.
      apply nth_error_split in E. destruct E as (l1 & l2 & Em & Ll).
      assert (firstn j ms = firstn j l1) as F1.
      { rewrite Em, firstn_app. replace (j - length l1)%nat with 0%nat by lia. rewrite firstn_O, app_nil_r. reflexivity. }
      assert (length (skipn j l1) = N.to_nat i - j)%nat as Ls by (rewrite skipn_length; lia).
      replace (n - j)%nat with (S (length (skipn j l1)) + (n - S (N.to_nat i)))%nat by (rewrite Ls; lia).
      rewrite repeat_split.
      assert (reads c ((l1 ++ [e]) ++ l2) r) as R'. { rewrite <- app_assoc. cbn [app]. rewrite <- Em. exact R. }
      destruct (reads_app _ _ _ _ R') as (r1 & R1 & _).
      rewrite F1. rewrite (value_at_load b c (firstn j l1) (skipn j l1) e r1 (firstn j l1)).
      * rewrite app_assoc, firstn_skipn.
        assert (l1 ++ [e] = firstn (S (N.to_nat i)) ms) as ->.
        { rewrite Em. replace (S (N.to_nat i)) with (length (l1 ++ [e])) by (rewrite app_length; simpl; lia).
          change (e :: l2) with ([e] ++ l2). rewrite app_assoc. symmetry. apply firstn_app_exact. reflexivity. }
        f_equal. apply (IH b c n (S (N.to_nat i)) false); [assumption|assumption|lia|discriminate].
      * rewrite app_assoc, firstn_skipn. exact R1.
      * reflexivity.
      * rewrite Ls, <- F1, Lj. lia.
  - apply nth_error_None in E. destruct (Nat.leb_spec n (N.to_nat i)) as [C|C].
    + rewrite value_at_beyond.
      * rewrite IH by assumption. reflexivity.
      * rewrite app_length, map_length, Lj. destruct failed; cbn [length]; rewrite repeat_length; [|lia].
        destruct (Hf eq_refl). lia.
    + assert (length ms < n /\ new_std_value r = Err)%nat as (Hlt & B) by (destruct Hn as [Hn|Hn]; [lia|exact Hn]).
      destruct failed.
      * destruct (Hf eq_refl) as (-> & _). rewrite firstn_all. rewrite value_at_broken by lia.
        f_equal. pose proof (IH b c n (length ms) true R Hn Hj Hf) as Q. rewrite firstn_all in Q. exact Q.
      * clear Hf. assert (n - j = length (skipn j ms) + S (n - length ms - 1))%nat as -> by (rewrite skipn_length; lia).
        rewrite repeat_split.
        rewrite (value_at_fail b c (firstn j ms) (skipn j ms) r (firstn j ms)).
        -- rewrite firstn_skipn. f_equal. pose proof (IH b c n (length ms) true R Hn (Nat.le_refl _)) as Q.
           rewrite firstn_all in Q. apply Q. auto.
        -- rewrite firstn_skipn. exact R.
        -- exact B.
        -- reflexivity.
        -- rewrite Lj, skipn_length. lia.
Qed.

Lemma reads_max n : forall c, exists ms r, reads c ms r /\ (length ms = n \/ (length ms < n)%nat /\ new_std_value r = Err).
Proof.
  induction n as [|n IH]; intros c.
  - exists [], c. split; [constructor|auto].
  - destruct (new_std_value c) as [[m k]| |] eqn:P.
    + destruct (IH (skipn (Z.to_nat k) c)) as (ms & r & R & H). exists (m :: ms), r.
      split; [econstructor; eassumption|]. simpl. destruct H as [H|[H B]]; [left|right]; auto. split; [lia|assumption].
    + exists [], c. split; [constructor|]. right. simpl. split; [lia|assumption].
    + destruct (new_std_no_panic c P).
Qed.
Lemma reads_fun c ms r : reads c ms r -> forall ms' r', reads c ms' r' -> length ms = length ms' -> ms = ms' /\ r = r'.
Proof.
  induction 1 as [c|c m n ms r P R IH]; intros ms' r' R' L.
  - destruct ms'; [|discriminate]. inv R'. auto.
  - inversion R' as [|c' m' n' ms0 r0 P' R0]; subst; [discriminate|]. rewrite P in P'. inv P'.
    destruct (IH _ _ R0) as [-> ->]; auto.
Qed.

(** A fresh array has no element loaded. *)
Lemma fresh_cells c b ct cells n : new_std_value c = Ok (MVal b ct (BArr cells), n) -> cells = repeat VEmpty (length cells).
Proof.
  intros H. destruct (std_decode_inv _ _ _ H) as (l & c' & body & suf & _ & L & E & _). inversion E; subst. clear E.
  inversion L as [m sf lf c0 sa sr lc na nr Z0 Fa Fr Fl Em E1 E2 E3].
  destruct sr as [|p]; cbn [rec_body] in E3; [|discriminate].
  destruct sa as [|p]; cbn [arr_body] in E3; [discriminate|]. injection E3 as <-. now rewrite repeat_length.
Qed.

(** ** Nested accesses: a live object and the fresh one it came from *)
Inductive coherent : mval -> mval -> Prop :=
| co_prim b c : coherent (MVal b c BPrim) (MVal b c BPrim)
| co_recs b c cells : coherent (MVal b c (BRec cells)) (MVal b c (BRec cells))
| co_arr b c xs ms r : reads c ms r -> (forall e, In e ms -> well_formed e) ->
    coherents xs (firstn (length xs) ms) ->
    coherent (MVal b c (BArr (map VCell xs ++ repeat VEmpty (length ms - length xs)))) (MVal b c (BArr (repeat VEmpty (length ms))))
with coherents : list mval -> list mval -> Prop :=
| cos_nil : coherents [] []
| cos_cons x e xs es : coherent x e -> coherents xs es -> coherents (x :: xs) (e :: es).

Lemma coherent_face x e : coherent x e -> face x = face e.
Proof.
  intros [b c|b c cells|b c xs ms r R W C]; try reflexivity.
  unfold face, mv_size. cbn [mv_body]. rewrite app_length, map_length, !repeat_length.
  assert (length xs <= length ms)%nat as L.
  { assert (length xs = length (firstn (length xs) ms)) as E; [|rewrite firstn_length in E; lia].
    clear -C. remember (firstn (length xs) ms) as l eqn:El. clear El. induction C; simpl; auto. }
  replace (length xs + (length ms - length xs))%nat with (length ms) by lia. reflexivity.
Qed.
Lemma coherent_buf x e : coherent x e -> mv_buf x = mv_buf e.
Proof. intros []; reflexivity. Qed.
Lemma coherents_len xs es : coherents xs es -> length xs = length es.
Proof. induction 1; simpl; auto. Qed.
Lemma coherents_total xs es : coherents xs es -> total xs = total es.
Proof. induction 1 as [|x e xs es C Cs IH]; [reflexivity|]. rewrite !total_cons, IH, (coherent_buf _ _ C). reflexivity. Qed.
Lemma coherents_app xs es xs' es' : coherents xs es -> coherents xs' es' -> coherents (xs ++ xs') (es ++ es').
Proof. induction 1; intros; simpl; [assumption|]. constructor; auto. Qed.
Lemma coherents_nth xs es : coherents xs es -> forall i x, nth_error xs i = Some x -> exists e, nth_error es i = Some e /\ coherent x e.
Proof.
  induction 1 as [|x e xs es C Cs IH]; intros [|i] y E; try discriminate.
  - injection E as <-. exists e. auto.
  - exact (IH i y E).
Qed.
Lemma coherents_set xs es : coherents xs es -> forall i e y, nth_error es i = Some e -> coherent y e -> coherents (set_nth xs i y) es.
Proof.
  induction 1 as [|x e xs es C Cs IH]; intros [|i] e' y E Y; try discriminate.
  - injection E as <-. simpl. constructor; auto.
  - simpl. constructor; [assumption|]. eapply IH; eauto.
Qed.

Lemma fresh_coherent c m n : new_std_value c = Ok (m, n) -> well_formed m -> coherent m m.
Proof.
  intros P W. destruct W as [b ct|b ct cells|b ct cells ms r R L W].
  - constructor.
  - constructor.
  - rewrite (fresh_cells _ _ _ _ _ P), <- L.
    assert (repeat VEmpty (length ms) = map VCell [] ++ repeat VEmpty (length ms - length (@nil mval))) as E
      by (cbn [map length app]; now rewrite Nat.sub_0_r).
    rewrite E at 1. econstructor; [exact R|exact W|]. simpl. constructor.
Qed.
Lemma reads_in c ms r : reads c ms r -> forall e, In e ms -> exists c' n, new_std_value c' = Ok (e, n).
Proof. induction 1 as [c|c m n ms r P R IH]; intros e []; subst; eauto. Qed.
Lemma reads_coherents c ms r : reads c ms r -> (forall e, In e ms -> well_formed e) -> coherents ms ms.
Proof.
  induction 1 as [c|c m n ms r P R IH]; intros W; constructor.
  - apply (fresh_coherent c m n P). apply W. left. reflexivity.
  - apply IH. intros e H. apply W. right. assumption.
Qed.
Lemma coherents_sub l ms : coherents ms ms -> (exists a b, ms = a ++ l ++ b) -> coherents l l.
Proof.
  intros C (a & b & ->). revert C. induction a as [|x a IH]; cbn [app]; intros C.
  - revert b C. induction l as [|y l IHl]; intros b C; [constructor|]. cbn [app] in C. inv C. constructor; [assumption|]. eauto.
  - inv C. auto.
Qed.

Lemma set_nth_app {A} (l m : list A) i x : (i < length l)%nat -> set_nth (l ++ m) i x = set_nth l i x ++ m.
Proof. revert i. induction l as [|y l IH]; intros [|i] H; simpl in *; try lia; [reflexivity|]. rewrite IH by lia. reflexivity. Qed.
Lemma set_nth_map {A B} (f : A -> B) l i x : set_nth (map f l) i (f x) = map f (set_nth l i x).
Proof. revert i. induction l as [|y l IH]; intros [|i]; simpl; [reflexivity..|]. now rewrite IH. Qed.
Lemma set_nth_length {A} (l : list A) i x : length (set_nth l i x) = length l.
Proof. revert i. induction l as [|y l IH]; intros [|i]; simpl; auto. Qed.

(** A call on a live well-formed object returns the same element as on the fresh one. *)
Lemma value_at_coherent x e i : coherent x e ->
  (exists b c xs ms, e = MVal b c (BArr (repeat VEmpty (length ms))) /\
     exists fe y r, nth_error ms (N.to_nat i) = Some fe /\ snd (value_at e i) = Ok (VCell fe) /\
       reads c ms r /\ (forall m, In m ms -> well_formed m) /\
       value_at x i = (MVal b c (BArr (map VCell xs ++ repeat VEmpty (length ms - length xs))), Ok (VCell y)) /\
       coherents xs (firstn (length xs) ms) /\ nth_error xs (N.to_nat i) = Some y /\ coherent y fe) \/
  (value_at x i = (x, Err) /\ value_at e i = (e, Err)).
Proof.
  intros C. destruct C as [b c|b c cells|b c xs ms r R W C]; [right; auto..|].
  pose proof (coherents_len _ _ C) as Lx. rewrite firstn_length in Lx.
  destruct (nth_error ms (N.to_nat i)) as [fe|] eqn:E.
  2:{ right. apply nth_error_None in E. split; apply value_at_beyond.
      - rewrite app_length, map_length, repeat_length. lia.
      - rewrite repeat_length. lia. }
  left. assert (N.to_nat i < length ms)%nat as Hi by (apply nth_error_Some; congruence).
  assert (snd (value_at (MVal b c (BArr (repeat VEmpty (length ms)))) i) = Ok (VCell fe)) as Fr.
  { pose proof (run_expected ms r [i] b c (length ms) 0 false R (or_introl eq_refl) (Nat.le_0_l _)) as Q.
    cbn [firstn map app run_value_at expected] in Q. rewrite Nat.sub_0_r, E in Q.
    destruct (value_at _ i) as [m' o]. cbn [snd]. injection (Q ltac:(discriminate)) as ->. reflexivity. }
  destruct (Nat.lt_ge_cases (N.to_nat i) (length xs)) as [Cs|Cs].
  - destruct (nth_error xs (N.to_nat i)) as [y|] eqn:Ey; [|apply nth_error_None in Ey; lia].
    destruct (coherents_nth _ _ C _ _ Ey) as (e' & En & Cy).
    assert (e' = fe) as ->.
    { rewrite <- (firstn_skipn (length xs) ms) in E. rewrite nth_error_app1 in E by (rewrite firstn_length; lia). congruence. }
    exists b, c, xs, ms. split; [reflexivity|]. exists fe, y, r.
    repeat (split; [first [assumption|reflexivity|apply value_at_cached; assumption]|]). assumption.
  - pose proof E as Em. apply nth_error_split in Em. destruct Em as (l1 & l2 & Em & Ll).
    assert (firstn (length xs) ms = firstn (length xs) l1) as F1.
    { rewrite Em, firstn_app. replace (length xs - length l1)%nat with 0%nat by lia. rewrite firstn_O, app_nil_r. reflexivity. }
    set (ms2 := skipn (length xs) l1).
    assert (length ms2 = N.to_nat i - length xs)%nat as Ls by (unfold ms2; rewrite skipn_length; lia).
    assert (reads c ((l1 ++ [fe]) ++ l2) r) as R'. { rewrite <- app_assoc. cbn [app]. rewrite <- Em. exact R. }
    destruct (reads_app _ _ _ _ R') as (r1 & R1 & _).
    exists b, c, (xs ++ ms2 ++ [fe]), ms. split; [reflexivity|]. exists fe, fe, r.
    assert (length (xs ++ ms2 ++ [fe]) = S (N.to_nat i)) as Lx' by (rewrite !app_length; simpl; lia).
    assert (coherents ms ms) as Cm by (eapply reads_coherents; eassumption).
    split; [assumption|]. split; [assumption|]. split; [assumption|]. split; [assumption|]. split.
    { replace (length ms - length xs)%nat with (S (length ms2) + (length ms - S (N.to_nat i)))%nat by (rewrite Ls; lia).
      rewrite repeat_split. rewrite (value_at_load b c (firstn (length xs) l1) ms2 fe r1 xs).
      - rewrite Lx'. reflexivity.
      - unfold ms2. rewrite app_assoc, firstn_skipn. exact R1.
      - rewrite <- F1. apply coherents_total. assumption.
      - rewrite Ls. lia. }
    split.
    { assert (firstn (length (xs ++ ms2 ++ [fe])) ms = firstn (length xs) ms ++ ms2 ++ [fe]) as ->.
      { rewrite Lx', F1. unfold ms2. rewrite app_assoc, firstn_skipn. rewrite Em.
        replace (S (N.to_nat i)) with (length (l1 ++ [fe])) by (rewrite app_length; simpl; lia).
        change (fe :: l2) with ([fe] ++ l2). rewrite (app_assoc l1). apply firstn_app_exact. reflexivity. }
      apply coherents_app; [assumption|]. apply (coherents_sub _ ms Cm). exists (firstn (length xs) l1), l2.
      rewrite Em. unfold ms2. rewrite <- app_assoc, app_assoc, firstn_skipn. reflexivity. }
    split.
    { replace (N.to_nat i) with (length xs + (length ms2 + 0))%nat by lia. rewrite !nth_error_skip. reflexivity. }
    assert (coherents [fe] [fe]) as Cf by (apply (coherents_sub [fe] ms Cm); exists l1, l2; exact Em).
    inv Cf. assumption.
Qed.

Lemma live_at_coherent path : forall x e, coherent x e ->
  coherent (fst (live_at x path)) e /\ snd (live_at x path) = rmap face (fresh_at e path).
Proof.
  induction path as [|i path IH]; intros x e C.
  - cbn [live_at fst snd fresh_at]. unfold rmap. cbn [rbind]. rewrite (coherent_face _ _ C). auto.
  - cbn [live_at fresh_at].
    destruct (value_at_coherent x e i C) as [(b & c & xs & ms & -> & fe & y & r & En & Fr & R & W & Vx & Cx & Ey & Cy)|(Vx & Ve)].
    + rewrite Fr, Vx. destruct (live_at y path) as [y' o] eqn:Ly.
      destruct (IH y fe Cy) as (C1 & C2). rewrite Ly in C1, C2. cbn [fst snd] in *. split; [|assumption].
      assert (N.to_nat i < length xs)%nat as Hi by (apply nth_error_Some; congruence).
      cbn [put_element]. rewrite set_nth_app by (rewrite map_length; assumption). rewrite set_nth_map.
      rewrite <- (set_nth_length xs (N.to_nat i) y'). econstructor; [exact R|exact W|]. rewrite set_nth_length.
      eapply coherents_set; [exact Cx| |exact C1].
      rewrite <- (firstn_skipn (length xs) ms) in En. rewrite nth_error_app1 in En; [exact En|].
      pose proof (coherents_len _ _ Cx). lia.
    + rewrite Vx, Ve. cbn [fst snd]. auto.
Qed.

Lemma live_run_coherent paths : forall x e, coherent x e -> live_run x paths = map (fun p => rmap face (fresh_at e p)) paths.
Proof.
  induction paths as [|p ps IH]; intros x e C; [reflexivity|]. cbn [live_run map].
  destruct (live_at_coherent p x e C) as (C1 & C2). destruct (live_at x p) as [x' o]. cbn [fst snd] in *.
  rewrite C2. f_equal. apply IH. assumption.
Qed.

(** ** Parsing the wire format *)
Lemma prim_layout m d lc lf : count_field (N.of_nat (length d)) lc lf -> b2n m = lc -> layout (m :: lf ++ d) d BPrim.
Proof.
  intros F Em. apply (layout_intro m [] lf d 0 0 lc 0 0); try constructor; auto. now apply count_raw.
Qed.
Lemma arr_layout m (ts : list tree) c sc sf lc lf : ts <> [] -> count_field (N.of_nat (length ts)) sc sf ->
  count_field (N.of_nat (length c)) lc lf -> b2n m = (64 * sc + lc)%N ->
  layout (m :: sf ++ lf ++ c) c (BArr (repeat VEmpty (length ts))).
Proof.
  intros Hn F1 F2 Em.
  assert (length ts <> 0%nat) as Hl by (destruct ts; [contradiction|discriminate]).
  pose proof (count_nonzero _ _ _ F1 ltac:(lia)).
  assert (BArr (repeat VEmpty (length ts)) = rec_body (arr_body sc (N.of_nat (length ts))) 0 0) as ->.
  { destruct sc; [lia|]. cbn [rec_body arr_body]. now rewrite Nat2N.id. }
  apply layout_intro with (lc := lc); auto.
  - destruct sc; [lia|]. now apply count_raw.
  - destruct sc; [lia|]. constructor.
  - now apply count_raw.
  - lia.
Qed.
Lemma recs_layout m (ts : list rtree) c sc sf lc lf : ts <> [] -> count_field (N.of_nat (length ts)) sc sf ->
  count_field (N.of_nat (length c)) lc lf -> b2n m = (16 * sc + lc)%N ->
  layout (m :: sf ++ lf ++ c) c (BRec (repeat REmpty (length ts))).
Proof.
  intros Hn F1 F2 Em.
  assert (length ts <> 0%nat) as Hl by (destruct ts; [contradiction|discriminate]).
  pose proof (count_nonzero _ _ _ F1 ltac:(lia)).
  assert (BRec (repeat REmpty (length ts)) = rec_body (arr_body 0 0) sc (N.of_nat (length ts))) as ->.
  { destruct sc; [lia|]. cbn [rec_body]. now rewrite Nat2N.id. }
  apply layout_intro with (lc := lc); auto.
  - constructor.
  - now apply count_raw.
  - now apply count_raw.
Qed.

(** Trees without record lists. *)
Inductive tplain : tree -> Prop :=
| tplain_prim d : tplain (TPrim d)
| tplain_arr l : (forall t, In t l -> tplain t) -> tplain (TArr l).

Lemma says_plain : (forall v t, says v t -> plain v -> tplain t) /\
  (forall l ts, says_all l ts -> (forall v, In v l -> plain v) -> forall t, In t ts -> tplain t) /\
  (forall r t, rsays r t -> True) /\ (forall l ts, rsays_all l ts -> True) /\ (forall o t, osays o t -> True).
Proof.
  apply says_combined; auto.
  - intros d _. constructor.
  - intros e l ts Hl S IH P. inv P. constructor. auto.
  - intros e l ts Hl S IH P. inv P.
  - intros _ t [].
  - intros v t l ts S IH Ss IHs P t' [<-|H]; [apply IH, P; left; reflexivity|].
    apply IHs; [|assumption]. intros v' H'. apply P. right. assumption.
Qed.

Definition parsed_tree (l : bytes) (t : tree) : Prop :=
  exists m, (forall suf, new_std_value (l ++ suf) = Ok (m, zlen l)) /\ mv_buf m = l /\ shows m t /\ well_formed m.

Lemma shows_fresh_array l c ms ts r : reads c ms r -> length ms = length ts -> Forall2 shows ms ts ->
  shows (MVal l c (BArr (repeat VEmpty (length ts)))) (TArr ts).
Proof.
  intros R L F. constructor; try reflexivity.
  - unfold mv_size. cbn [mv_body]. now rewrite repeat_length.
  - intros i t E.
    assert (exists e, nth_error ms i = Some e /\ shows e t) as (e & Ee & Se).
    { clear R L. revert i E. induction F as [|e t' ms ts S F IH]; intros [|i] E; try discriminate.
      - injection E as ->. exists e. auto.
      - exact (IH i E). }
    exists e. split; [|assumption].
    pose proof (run_expected ms r [N.of_nat i] l c (length ms) 0 false R (or_introl eq_refl) (Nat.le_0_l _)) as Q.
    cbn [firstn map app run_value_at expected] in Q. rewrite Nat.sub_0_r, Nat2N.id, Ee, L in Q.
    destruct (value_at _ (N.of_nat i)) as [m' o]. cbn [snd]. injection (Q ltac:(discriminate)) as ->. reflexivity.
Qed.

Lemma wire_parsed :
  (forall t l, wire t l -> tplain t -> parsed_tree l t) /\
  (forall ts c, wires ts c -> (forall t, In t ts -> tplain t) -> forall suf, exists ms,
     reads (c ++ suf) ms suf /\ Forall2 shows ms ts /\ (forall e, In e ms -> well_formed e)) /\
  (forall t l, rwire t l -> True) /\ (forall ts l, rwires ts l -> True) /\ (forall o l, owire o l -> True).
Proof.
  apply wire_combined; auto.
  - intros m d lc lf F Em _. pose proof (prim_layout m d lc lf F Em) as L.
    exists (MVal (m :: lf ++ d) d BPrim). split; [intros suf; now apply std_decode_layout|]. split; [reflexivity|].
    split; [constructor; reflexivity|constructor].
  - intros m ts c sc sf lc lf Hn Ws IH F1 F2 Em P.
    pose proof (arr_layout m ts c sc sf lc lf Hn F1 F2 Em) as L.
    assert (forall t, In t ts -> tplain t) as Hp by (inv P; assumption). destruct (IH Hp []) as (ms & R & F & W). rewrite app_nil_r in R.
    assert (length ms = length ts) as Lm by (clear -F; induction F; simpl; auto).
    exists (MVal (m :: sf ++ lf ++ c) c (BArr (repeat VEmpty (length ts)))).
    split; [intros suf; now apply std_decode_layout|]. split; [reflexivity|]. split.
    + eapply shows_fresh_array; eassumption.
    + econstructor; [exact R|rewrite repeat_length; exact Lm|exact W].
  - intros m ts c sc sf lc lf Hn Ws IH F1 F2 Em P. inv P.
  - intros _ suf. exists []. split; [constructor|]. split; [constructor|]. intros e [].
  - intros t ts a b W IH Ws IHs P suf. destruct (IH (P t (or_introl eq_refl))) as (m & Pm & Bm & Sm & Wm).
    destruct (IHs (fun t' H => P t' (or_intror H)) suf) as (ms & R & F & Wf).
    exists (m :: ms). split; [|split].
    + rewrite <- app_assoc. econstructor; [apply Pm|]. rewrite skipn_app_exact by (unfold zlen; lia). exact R.
    + constructor; assumption.
    + intros e [<-|H]; auto.
Qed.
