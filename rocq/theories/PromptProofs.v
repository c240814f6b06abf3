(** * Proofs for [PromptSpec]. *)
From Coq Require Import List Bool NArith Lia Arith.
From Coq Require Import Strings.Byte.
From Verif Require Import Base PromptModel PromptSpec.
Import ListNotations.

(** ** White space *)
Lemma byte_same : forall a b, b2n a = b2n b -> a = b.
Proof.
  intros a b H. unfold b2n in H. pose proof (Byte.of_to_N a) as A. rewrite H, Byte.of_to_N in A. now injection A.
Qed.
Lemma bytes_same : forall s t, map b2n s = map b2n t -> s = t.
Proof.
  induction s as [|a s IH]; intros [|b t] H; try discriminate H; [reflexivity|].
  cbn in H. injection H as H1 H2. now rewrite (byte_same _ _ H1), (IH _ H2).
Qed.
Lemma blank_codes : forall s, blank s <-> In s space_codes.
Proof.
  intros s. split.
  - intros (cp & W & E).
    assert (C : In cp [9;10;11;12;13;32;133;160;5760;8192;8193;8194;8195;8196;8197;8198;8199;8200;8201;8202;8232;8233;8239;8287;12288]%N).
    { unfold white in W. cbn. lia. }
    clear W. cbn [In] in C.
    repeat (destruct C as [C|C]; [subst cp; vm_compute in E;
      match type of E with _ = ?l => 
        match goal with |- In _ ?cs => 
          let r := eval vm_compute in (find (fun c => if list_eq_dec N.eq_dec (map b2n c) l then true else false) cs) in
          match r with Some ?c => assert (X : s = c) by (apply bytes_same; exact E); rewrite X; 
                                  unfold space_codes; cbn [In]; repeat (first [left; reflexivity | right]) end
        end end|]).
    destruct C.
  - intros H. unfold space_codes in H. cbn [In] in H.
    repeat (destruct H as [H|H]; [subst s; 
      match goal with |- blank ?c =>
        let l := eval vm_compute in (map b2n c) in
        match l with
        | [?a] => exists a
        | [?a; ?b] => let v := eval vm_compute in ((a - 192) * 64 + (b - 128))%N in exists v
        | [?a; ?b; ?d] => let v := eval vm_compute in ((a - 224) * 4096 + (b - 128) * 64 + (d - 128))%N in exists v
        end
      end; split; [unfold white; lia|vm_compute; reflexivity]|]).
    destruct H.
Qed.

(** ** Cutting prefixes *)
Lemma byte_eqb_refl' : forall b, byte_eqb b b = true.
Proof. intros b. unfold byte_eqb. now apply Byte.byte_dec_lb. Qed.
Lemma byte_eqb_true : forall a b, byte_eqb a b = true -> a = b.
Proof. intros a b H. now apply Byte.byte_dec_bl. Qed.
Lemma cut_some : forall p s r, cut p s = Some r <-> s = p ++ r.
Proof.
  induction p as [|a p IH]; intros s r; cbn.
  - split; [now intros [= ->]|now intros ->].
  - destruct s as [|b s]; [split; discriminate|]. destruct (byte_eqb a b) eqn:E.
    + apply byte_eqb_true in E. subst b. rewrite IH. split; [now intros ->|now intros [= ->]].
    + split; [discriminate|]. intros [= -> ->]. rewrite byte_eqb_refl' in E. discriminate E.
Qed.
Lemma cut_any_some : forall ps s r, cut_any ps s = Some r -> exists p, In p ps /\ s = p ++ r.
Proof.
  induction ps as [|p ps IH]; intros s r H; cbn in H; [discriminate H|]. destruct (cut p s) eqn:C.
  - injection H as ->. exists p. split; [now left|now apply cut_some].
  - destruct (IH _ _ H) as (q & Iq & E). exists q. split; [now right|assumption].
Qed.
Lemma cut_any_none : forall ps s, cut_any ps s = None -> forall p r, In p ps -> s <> p ++ r.
Proof.
  induction ps as [|q ps IH]; intros s H p r Ip E; cbn in *; [destruct Ip|]. destruct (cut q s) eqn:C; [discriminate H|].
  destruct Ip as [<-|Ip]; [|exact (IH _ H p r Ip E)]. apply cut_some in E. congruence.
Qed.

Inductive made (ps : list bytes) : bytes -> Prop :=
| made_nil : made ps []
| made_cons : forall w s, In w ps -> made ps s -> made ps (w ++ s).

Lemma cut_all_splits : forall ps f s, exists l, s = l ++ cut_all ps f s /\ made ps l.
Proof.
  intros ps. induction f as [|f IH]; intros s; cbn; [exists []; split; [reflexivity|constructor]|].
  destruct (cut_any ps s) as [s'|] eqn:C; [|exists []; split; [reflexivity|constructor]].
  destruct (cut_any_some _ _ _ C) as (p & Ip & ->). destruct (IH s') as (l & E & M).
  exists (p ++ l). split; [rewrite <- app_assoc; now f_equal|now constructor].
Qed.
Lemma cut_all_done : forall ps f s, Forall (fun p => p <> []) ps -> length s <= f ->
  forall p r, In p ps -> cut_all ps f s <> p ++ r.
Proof.
  intros ps f s N. revert s. induction f as [|f IH]; intros s L p r Ip; cbn.
  - assert (s = []) as -> by (destruct s; [reflexivity|cbn in L; lia]). rewrite Forall_forall in N. intros E.
    symmetry in E. apply app_eq_nil in E. now apply (N p Ip).
  - destruct (cut_any ps s) as [s'|] eqn:C; [|exact (cut_any_none _ _ C p r Ip)].
    destruct (cut_any_some _ _ _ C) as (q & Iq & ->). apply IH; [|assumption].
    rewrite Forall_forall in N. specialize (N q Iq). destruct q; [congruence|]. rewrite app_length in L. cbn in L. lia.
Qed.

(** Codes of which none begins with another. *)
Definition prefix_free (ps : list bytes) : Prop := forall p q r, In p ps -> In q ps -> p = q ++ r -> p = q.
Lemma one_prefix : forall ps p q a b, prefix_free ps -> In p ps -> In q ps -> p ++ a = q ++ b -> p = q /\ a = b.
Proof.
  intros ps p q a b F Ip Iq E.
  assert (P : p = q).
  { assert (X : (exists r, p = q ++ r) \/ (exists r, q = p ++ r)).
    { clear - E. revert q a b E. induction p as [|x p IH]; intros q a b E; [right; now exists q|].
      destruct q as [|y q]; [left; now exists (x :: p)|]. cbn in E. injection E as -> E.
      destruct (IH _ _ _ E) as [(r & ->)|(r & ->)]; [left|right]; now exists r. }
    destruct X as [(r & X)|(r & X)]; [exact (F _ _ _ Ip Iq X)|symmetry; exact (F _ _ _ Iq Ip X)]. }
  subst q. split; [reflexivity|]. now apply app_inv_head in E.
Qed.
Lemma cut_any_code : forall ps p s, prefix_free ps -> In p ps -> cut_any ps (p ++ s) = Some s.
Proof.
  intros ps p s F Ip. destruct (cut_any ps (p ++ s)) as [s'|] eqn:C.
  - destruct (cut_any_some _ _ _ C) as (q & Iq & E). destruct (one_prefix _ _ _ _ _ F Ip Iq E) as [_ <-]. reflexivity.
  - exfalso. exact (cut_any_none _ _ C p s Ip eq_refl).
Qed.
Lemma cut_all_none : forall ps f s, (forall p r, In p ps -> s <> p ++ r) -> cut_all ps f s = s.
Proof.
  intros ps f s H. destruct f; [reflexivity|]. cbn. destruct (cut_any ps s) as [s'|] eqn:C; [|reflexivity].
  destruct (cut_any_some _ _ _ C) as (q & Iq & E). destruct (H q s' Iq E).
Qed.
Lemma cut_all_made : forall ps l x f, prefix_free ps -> Forall (fun p => p <> []) ps -> made ps l ->
  (forall p r, In p ps -> x <> p ++ r) -> length (l ++ x) <= f -> cut_all ps f (l ++ x) = x.
Proof.
  intros ps l x f F N M. revert f. induction M as [|w l Iw M IH]; intros f X L; [now apply cut_all_none|].
  assert (W : w <> []) by (rewrite Forall_forall in N; now apply N).
  rewrite <- app_assoc in *. destruct f as [|f]; [destruct w; [congruence|cbn in L; lia]|]. cbn.
  rewrite cut_any_code by assumption. apply IH; [assumption|]. destruct w; [congruence|]. cbn in L. rewrite app_length in L. lia.
Qed.

Definition codes := space_codes.
Definition sedoc := map (@rev byte) space_codes.
Lemma nonempty_codes : Forall (fun p : bytes => p <> []) codes.
Proof. unfold codes, space_codes. repeat constructor; discriminate. Qed.
Lemma nonempty_sedoc : Forall (fun p : bytes => p <> []) sedoc.
Proof. unfold sedoc, space_codes. cbn [map rev app]. repeat constructor; discriminate. Qed.
Definition free_check (ps : list bytes) : bool :=
  forallb (fun p => forallb (fun q => match cut q p with Some [] => true | Some _ => false | None => true end) ps) ps.
Lemma free_check_sound : forall ps, free_check ps = true -> prefix_free ps.
Proof.
  intros ps H p q r Ip Iq E. unfold free_check in H. rewrite forallb_forall in H. specialize (H p Ip). cbv beta in H.
  rewrite forallb_forall in H. specialize (H q Iq). cbv beta in H. pose proof (proj2 (cut_some q p r) E) as C. rewrite C in H.
  destruct r; [now rewrite E, app_nil_r|discriminate H].
Qed.
Lemma free_codes : prefix_free codes.
Proof. apply free_check_sound. vm_compute. reflexivity. Qed.
Lemma free_sedoc : prefix_free sedoc.
Proof. apply free_check_sound. vm_compute. reflexivity. Qed.

Lemma made_blanks : forall l, made codes l <-> blanks l.
Proof.
  intros l. split; induction 1 as [|w s I1 _ IH]; try constructor; try assumption; now apply blank_codes.
Qed.
Lemma blanks_app : forall a b, blanks a -> blanks b -> blanks (a ++ b).
Proof. intros a b A B. induction A; [assumption|]. rewrite <- app_assoc. now constructor. Qed.
Lemma made_app : forall ps a b, made ps a -> made ps b -> made ps (a ++ b).
Proof. intros ps a b A B. induction A; [assumption|]. rewrite <- app_assoc. now constructor. Qed.
Lemma made_one : forall ps a, In a ps -> made ps a.
Proof. intros ps a H. rewrite <- (app_nil_r a). constructor; [assumption|constructor]. Qed.
Lemma sedoc_blanks : forall l, made sedoc l -> blanks (rev l).
Proof.
  intros l. induction 1 as [|w s Iw _ IH]; [constructor|]. rewrite rev_app_distr. apply blanks_app; [assumption|].
  unfold sedoc in Iw. apply in_map_iff in Iw. destruct Iw as (c & <- & Ic). rewrite rev_involutive, <- (app_nil_r c).
  constructor; [now apply blank_codes|constructor].
Qed.
Lemma blanks_sedoc : forall l, blanks l -> made sedoc (rev l).
Proof.
  intros l. induction 1 as [|w s Bw _ IH]; [constructor|]. rewrite rev_app_distr. apply made_app; [assumption|].
  apply made_one. unfold sedoc. apply in_map. now apply blank_codes.
Qed.

(** Blanks begin with a byte that continues no code. *)
Definition continues (b : byte) : bool := (128 <=? b2n b)%N && (b2n b <? 192)%N.
Lemma code_shape : forall c, In c space_codes -> exists b c', c = b :: c' /\ continues b = false /\ forallb continues c' = true.
Proof.
  intros c H. unfold space_codes in H. cbn [In] in H.
  repeat (destruct H as [<-|H]; [eexists; eexists; split; [reflexivity|split; vm_compute; reflexivity]|]). destruct H.
Qed.
Lemma no_new_prefix : forall t r, t <> [] -> blanks r -> (forall w u, blank w -> t <> w ++ u) ->
  forall p u, In p codes -> t ++ r <> p ++ u.
Proof.
  intros t r Nt Br Ht p u Ip E.
  assert (X : (exists x, t = p ++ x) \/ (exists x, p = t ++ x /\ r = x ++ u)).
  { clear - E. revert p u E. induction t as [|a t IH]; intros p u E; [right; exists p; split; [reflexivity|assumption]|].
    destruct p as [|b p]; [left; now exists (a :: t)|]. cbn in E. injection E as -> E.
    destruct (IH _ _ E) as [(x & ->)|(x & -> & ->)]; [left|right]; now exists x. }
  destruct X as [(x & X)|(x & Xp & Xr)].
  - refine (Ht p x _ X). now apply blank_codes.
  - destruct x as [|b x]; [rewrite app_nil_r in Xp; subst p; refine (Ht t [] _ (eq_sym (app_nil_r t))); now apply blank_codes|].
    destruct (code_shape p Ip) as (c & c' & -> & _ & C). destruct t as [|a t]; [congruence|]. cbn in Xp. injection Xp as -> ->.
    rewrite forallb_app in C. apply andb_prop in C. destruct C as [_ C]. cbn in C. apply andb_prop in C. destruct C as [C _].
    destruct Br as [|w s Bw _]; [discriminate Xr|]. apply blank_codes in Bw.
    destruct (code_shape w Bw) as (d & d' & -> & D & _). cbn in Xr. injection Xr as -> _. congruence.
Qed.

Lemma trim_space_trimmed : forall s, trimmed s (trim_space s).
Proof.
  intros s. unfold trim_space.
  destruct (cut_all_splits codes (length s) s) as (l & El & Ml). fold (trim_left s) in El.
  destruct (cut_all_splits sedoc (length (trim_left s)) (rev (trim_left s))) as (r & Er & Mr).
  assert (T : trim_left s = trim_right (trim_left s) ++ rev r).
  { rewrite <- (rev_involutive (trim_left s)) at 1. rewrite Er at 1. rewrite rev_app_distr. reflexivity. }
  split; [|split].
  - exists l, (rev r). split; [rewrite <- T; exact El|]. split; [now apply made_blanks|now apply sedoc_blanks].
  - intros w u Bw E. apply blank_codes in Bw.
    apply (cut_all_done codes (length s) s nonempty_codes (Nat.le_refl _) w (u ++ rev r) Bw).
    change (trim_left s = w ++ u ++ rev r). rewrite T, E, <- app_assoc. reflexivity.
  - intros w u Bw E. apply blank_codes in Bw.
    refine (cut_all_done sedoc (length (trim_left s)) (rev (trim_left s)) nonempty_sedoc _ (rev w) (rev u) _ _).
    + rewrite rev_length. apply Nat.le_refl.
    + unfold sedoc. now apply in_map.
    + rewrite <- rev_app_distr, <- E. unfold trim_right. now rewrite rev_involutive.
Qed.
Lemma trimmed_only : forall s t, trimmed s t -> t = trim_space s.
Proof.
  intros s t ((l & r & -> & Bl & Br) & Hl & Hr). unfold trim_space.
  destruct t as [|a t].
  - assert (B : blanks (l ++ [] ++ r)) by (cbn; now apply blanks_app).
    assert (T : trim_left (l ++ [] ++ r) = []).
    { unfold trim_left. rewrite <- (app_nil_r (l ++ [] ++ r)) at 2. apply cut_all_made.
      - exact free_codes. - exact nonempty_codes. - now apply made_blanks.
      - intros p u Ip E. symmetry in E. apply app_eq_nil in E. destruct E as [-> _].
        pose proof nonempty_codes as N. rewrite Forall_forall in N. now apply (N [] Ip).
      - rewrite app_nil_r. apply Nat.le_refl. }
    rewrite T. reflexivity.
  - assert (T : trim_left (l ++ (a :: t) ++ r) = (a :: t) ++ r).
    { unfold trim_left. apply cut_all_made; [exact free_codes|exact nonempty_codes|now apply made_blanks| |apply Nat.le_refl].
      apply no_new_prefix; [discriminate|assumption|assumption]. }
    rewrite T. unfold trim_right. rewrite rev_app_distr.
    rewrite (cut_all_made sedoc (rev r) (rev (a :: t))).
    + now rewrite rev_involutive.
    + exact free_sedoc.
    + exact nonempty_sedoc.
    + now apply blanks_sedoc.
    + intros p u Ip E. unfold sedoc in Ip. apply in_map_iff in Ip. destruct Ip as (c & <- & Ic).
      refine (Hr c (rev u) _ _); [now apply blank_codes|].
      rewrite <- (rev_involutive (a :: t)), E, rev_app_distr, rev_involutive. reflexivity.
    + rewrite <- rev_app_distr, rev_length. apply Nat.le_refl.
Qed.
Lemma trimmed_newline : forall s t, trimmed s t -> trimmed (s ++ [newline]) t.
Proof.
  intros s t ((l & r & -> & Bl & Br) & H). split; [|assumption]. exists l, (r ++ [newline]).
  split; [now rewrite !app_assoc|]. split; [assumption|]. apply blanks_app; [assumption|].
  apply made_blanks, made_one. unfold codes, space_codes. right. now left.
Qed.

(** ** Reading *)
Definition has_newline (c : bytes) : bool := existsb (fun b => N.eqb (b2n b) 10) c.
Lemma is_newline : forall b, byte_eqb b newline = N.eqb (b2n b) 10.
Proof. intros b. destruct b; reflexivity. Qed.
Lemma to_newline_none : forall c, has_newline c = false -> to_newline c = None /\ forall s, line (c ++ s) = c ++ line s /\ after_line (c ++ s) = after_line s.
Proof.
  induction c as [|b c IH]; intros H; [split; [reflexivity|intros s; split; reflexivity]|]. cbn in H. apply orb_false_elim in H.
  destruct H as [Hb Hc]. destruct (IH Hc) as [I1 I2]. split.
  - cbn. rewrite is_newline, Hb, I1. reflexivity.
  - intros s. cbn. rewrite Hb. destruct (I2 s) as [J1 J2]. split; [now rewrite J1|assumption].
Qed.
Lemma to_newline_some : forall c, has_newline c = true ->
  to_newline c = Some (line c ++ [newline]) /\ forall s, line (c ++ s) = line c /\ after_line (c ++ s) = after_line c ++ s.
Proof.
  induction c as [|b c IH]; intros H; [discriminate H|]. cbn in *. rewrite is_newline.
  destruct (N.eqb (b2n b) 10) eqn:E.
  - split; [|intros s; split; reflexivity]. rewrite <- is_newline in E. apply byte_eqb_true in E. now subst b.
  - cbn in H. destruct (IH H) as [I1 I2]. rewrite I1. split; [reflexivity|]. intros s. destruct (I2 s) as [J1 J2].
    split; [now rewrite J1|assumption].
Qed.
Lemma read_string_spec : forall i,
  snd (read_string i) = skipn (used i) i /\
  (fst (read_string i) = line (concat (firstn (used i) i)) \/ fst (read_string i) = line (concat (firstn (used i) i)) ++ [newline]).
Proof.
  induction i as [|c i IH]; [split; [reflexivity|now left]|].
  destruct c as [|b c]; [split; [reflexivity|now left]|].
  cbn [read_string used]. fold (has_newline (b :: c)). destruct (has_newline (b :: c)) eqn:H.
  - destruct (to_newline_some _ H) as [-> L]. split; [reflexivity|]. right. cbn [firstn concat fst]. now rewrite (proj1 (L [])).
  - destruct (to_newline_none _ H) as [-> L]. destruct (read_string i) as [t r]. cbn [fst snd firstn skipn concat] in *.
    destruct IH as [IH1 IH2]. split; [assumption|]. rewrite (proj1 (L _)). destruct IH2 as [->| ->]; [now left|right].
    now rewrite <- app_assoc.
Qed.
Lemma prompt_spec : forall p i,
  let '(out, a, r) := prompt_text p i in
  out = p ++ [x20; x3a; x20] /\ trimmed (line (concat (firstn (used i) i))) a /\ r = skipn (used i) i.
Proof.
  intros p i. unfold prompt_text. pose proof (read_string_spec i) as [E1 E2]. destruct (read_string i) as [t r].
  cbn [fst snd] in *. split; [reflexivity|]. split; [|assumption]. destruct E2 as [->| ->]; [apply trim_space_trimmed|].
  rewrite <- (trimmed_only _ _ (trimmed_newline _ _ (trim_space_trimmed _))). apply trim_space_trimmed.
Qed.

Lemma used_lines : forall i, Forall (fun c : bytes => c <> []) i ->
  line (concat i) = line (concat (firstn (used i) i)) /\
  after_line (concat i) = after_line (concat (firstn (used i) i)) ++ concat (skipn (used i) i).
Proof.
  induction 1 as [|c i Nc N IH]; [split; reflexivity|]. destruct c as [|b c]; [congruence|].
  cbn [used]. fold (has_newline (b :: c)). destruct (has_newline (b :: c)) eqn:H.
  - destruct (to_newline_some _ H) as [_ L]. cbn [firstn skipn concat]. rewrite app_nil_r. exact (L _).
  - destruct (to_newline_none _ H) as [_ L]. cbn [firstn skipn concat]. destruct IH as [I1 I2].
    rewrite (proj1 (L _)), (proj2 (L _)), (proj1 (L (concat (firstn _ _)))), (proj2 (L (concat (firstn _ _)))).
    split; [f_equal; exact I1|assumption].
Qed.
Lemma line_wise_nonempty : forall i, line_wise i -> Forall (fun c : bytes => c <> []) i.
Proof. intros i H. eapply Forall_impl; [|exact H]. now intros c [N _]. Qed.
Lemma after_last : forall c : bytes, (forall u v, c = u ++ v -> v <> [] -> ~ In 10%N (map b2n u)) -> after_line c = [].
Proof.
  induction c as [|b c IH]; intros H; [reflexivity|]. cbn. destruct (N.eqb (b2n b) 10) eqn:E.
  - apply N.eqb_eq in E. destruct c as [|a c]; [reflexivity|]. destruct (H [b] (a :: c) eq_refl); [discriminate|]. now left.
  - apply IH. intros u v -> Nv I1. apply (H (b :: u) v eq_refl Nv). now right.
Qed.
Lemma line_wise_last : forall i, line_wise i -> after_line (concat (firstn (used i) i)) = [].
Proof.
  induction 1 as [|c i [Nc Hc] N IH]; [reflexivity|]. destruct c as [|b c]; [congruence|].
  cbn [used]. fold (has_newline (b :: c)). destruct (has_newline (b :: c)) eqn:H.
  - cbn [firstn concat]. rewrite app_nil_r. now apply after_last.
  - cbn [firstn concat]. rewrite (proj2 (proj2 (to_newline_none _ H) _)). exact IH.
Qed.
Lemma skipn_Forall : forall (P : bytes -> Prop) n l, Forall P l -> Forall P (skipn n l).
Proof. intros P. induction n; intros l H; [exact H|]. destruct H; [constructor|]. now apply IHn. Qed.
Lemma iter_inside : forall (A : Type) (f : A -> A) n x, Nat.iter n f (f x) = Nat.iter (S n) f x.
Proof. intros A f n x. induction n as [|n IH]; [reflexivity|]. change (f (Nat.iter n f (f x)) = f (Nat.iter (S n) f x)). now rewrite IH. Qed.
Lemma answers_lines : forall ps i, line_wise i ->
  Forall2 trimmed (lines (length ps) (concat i)) (fst (answers ps i)) /\
  concat (snd (answers ps i)) = Nat.iter (length ps) after_line (concat i) /\ line_wise (snd (answers ps i)).
Proof.
  induction ps as [|p ps IH]; intros i L; [split; [constructor|split; [reflexivity|assumption]]|].
  cbn [answers length lines]. pose proof (prompt_spec p i) as Q. destruct (prompt_text p i) as [[o a] r].
  destruct Q as (_ & Ta & ->). pose proof (used_lines i (line_wise_nonempty i L)) as [U1 U2].
  rewrite (line_wise_last i L) in U2. cbn in U2.
  assert (L' : line_wise (skipn (used i) i)) by now apply skipn_Forall.
  destruct (IH _ L') as (A & B & C). destruct (answers ps (skipn (used i) i)) as [l r']. cbn [fst snd] in *.
  rewrite <- U2 in A, B. split; [constructor; [now rewrite U1|assumption]|]. split; [|assumption].
  rewrite B. apply iter_inside.
Qed.
