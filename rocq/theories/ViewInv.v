(** * Objects that look into a window nobody writes to keep saying what was parsed *)
From Coq Require Import List NArith ZArith Lia Bool.
From Coq Require Import Strings.Byte.
From Verif Require Import Base BaseProofs VarintModel VarintSpec VarintProofs KeyModel ValueModel ValueSpec ValueProofs ViewModel ViewSpec ViewProofs.
Import ListNotations.
Local Open Scope nat_scope.

(** ** Parsing again what was parsed *)
Lemma value_again b m n : new_std_value b = Ok (m, n) -> new_std_value (mv_buf m) = Ok (m, zlen (mv_buf m)).
Proof.
  intros H. destruct (std_decode_inv _ _ _ H) as (l & c & body & suf & -> & L & -> & ->). cbn [mv_buf].
  rewrite <- (app_nil_r l) at 1. apply std_decode_layout. exact L.
Qed.
Lemma simple_again b x c n : new_simple_value b = Ok (VSimple x c, n) -> new_simple_value x = Ok (VSimple x c, n).
Proof.
  unfold new_simple_value. destruct (decode_varchar b) as [[data e]| |] eqn:D; cbn [rbind]; try discriminate.
  destruct (go_upto b e) as [b'| |] eqn:G; cbn [rbind]; try discriminate. intros [= -> -> ->].
  destruct (varchar_inside _ _ _ D) as [(-> & -> & ->) | (pre & rest & -> & U & ->)].
  { cbn in G. injection G as <-. reflexivity. }
  rewrite app_assoc, go_upto_app in G. injection G as <-.
  rewrite (decode_varchar_header _ _ _ U) in D. rewrite (decode_varchar_header _ _ _ U).
  destruct (2 ^ 63 <=? zlen pre + Z.of_N (N.of_nat (length c)))%Z; [discriminate|].
  destruct (Z.ltb_spec (zlen c) (Z.of_N (N.of_nat (length c)))) as [A|A]; [unfold zlen in A; lia|].
  rewrite Nnat.Nat2N.id, firstn_all. cbn [rbind].
  replace (zlen pre + Z.of_N (N.of_nat (length c)))%Z with (zlen (pre ++ c)) by (rewrite zlen_app; unfold zlen; lia).
  rewrite <- (app_nil_r (pre ++ c)) at 1. rewrite go_upto_app. reflexivity.
Qed.
Lemma simple_is_simple b v n : new_simple_value b = Ok (v, n) -> exists x c, v = VSimple x c.
Proof.
  unfold new_simple_value. destruct (decode_varchar b) as [[data e]| |]; cbn [rbind]; try discriminate.
  destruct (go_upto b e); cbn [rbind]; try discriminate. intros [= <- <-]. eauto.
Qed.

(** ** Lists of objects *)
Lemma nth_upd {A} (l : list A) i x j : nth_error (upd l i x) j = if Nat.eqb i j then (if Nat.ltb i (length l) then Some x else None) else nth_error l j.
Proof.
  revert i j. induction l as [|y l IH]; intros i j.
  { destruct i, j; cbn; try reflexivity. destruct (i =? j); reflexivity. }
  destruct i, j; cbn [upd nth_error Nat.eqb]; try reflexivity. rewrite IH. cbn [length].
  destruct (i =? j); [|reflexivity]. change (S i <? S (length l)) with (i <? length l). reflexivity.
Qed.
Lemma upd_length {A} (l : list A) i x : length (upd l i x) = length l.
Proof. revert i. induction l as [|y l IH]; intros [|i]; cbn; try reflexivity. rewrite IH. reflexivity. Qed.
Lemma nth_upd_d {A} (l : list A) i x j d : nth j (upd l i x) d = if Nat.eqb i j then (if Nat.ltb i (length l) then x else d) else nth j l d.
Proof.
  revert i j. induction l as [|y l IH]; intros i j.
  { destruct i, j; cbn; try reflexivity. destruct (i =? j); reflexivity. }
  destruct i, j; cbn [upd nth Nat.eqb]; try reflexivity. rewrite IH. cbn [length].
  destruct (i =? j); [|reflexivity]. change (S i <? S (length l)) with (i <? length l). reflexivity.
Qed.
Lemma nth_error_snoc {A} (l : list A) tl d x : nth_error l d = Some x -> nth_error (l ++ tl) d = Some x.
Proof. intros H. rewrite nth_error_app1; [exact H|]. apply nth_error_Some. congruence. Qed.

(** Memory that keeps the bytes of [R]. *)
Definition keeps (R : win) (M M' : memory) : Prop :=
  length M <= length M' /\ length (nth (w_blk R) M' []) = length (nth (w_blk R) M []) /\
  forall i, w_off R <= i < w_off R + w_len R -> nth_error (nth (w_blk R) M' []) i = nth_error (nth (w_blk R) M []) i.
Lemma keeps_refl R M : keeps R M M.
Proof. repeat split; lia. Qed.
Lemma list_ext {A} (l l' : list A) : (forall i, nth_error l i = nth_error l' i) -> l = l'.
Proof.
  revert l'. induction l as [|x l IH]; intros [|y l'] H; try reflexivity.
  - specialize (H 0). discriminate.
  - specialize (H 0). discriminate.
  - f_equal; [specialize (H 0); cbn in H; congruence|]. apply IH. intros i. apply (H (S i)).
Qed.
Lemma nth_error_firstn {A} (l : list A) n i : nth_error (firstn n l) i = if Nat.ltb i n then nth_error l i else None.
Proof.
  revert l i. induction n as [|n IH]; intros l i; cbn [firstn].
  { destruct i; reflexivity. }
  destruct l as [|x l]. { destruct (i <? S n), i; reflexivity. }
  destruct i as [|i]; cbn [nth_error]; [reflexivity|]. rewrite IH. reflexivity.
Qed.
Lemma nth_error_skipn {A} (l : list A) n i : nth_error (skipn n l) i = nth_error l (n + i).
Proof.
  revert l. induction n as [|n IH]; intros l; cbn [skipn]; [reflexivity|].
  destruct l as [|x l]; [destruct i; reflexivity|]. apply IH.
Qed.
Lemma keeps_rdw R M M' w : keeps R M M' -> inside w R -> rdw M' w = rdw M w.
Proof.
  intros (_ & _ & K) (A & B & C). unfold rdw. rewrite A. apply list_ext. intros i. rewrite !nth_error_firstn, !nth_error_skipn.
  destruct (Nat.ltb_spec i (w_len w)); [|reflexivity]. apply K. lia.
Qed.
Lemma keeps_valid R M M' : keeps R M M' -> valid M R -> valid M' R.
Proof. intros (A & B & _) (C & D). unfold valid. rewrite B. split; lia. Qed.
Lemma keeps_app R M tl : valid M R -> keeps R M (M ++ tl).
Proof.
  intros (_ & V). unfold keeps. rewrite app_length, app_nth1 by exact V. repeat split; lia.
Qed.
Lemma keeps_write R M b i x : (b <> w_blk R \/ i < w_off R \/ w_off R + w_len R <= i) ->
  keeps R M (upd M b (upd (nth b M []) i x)).
Proof.
  intros H. unfold keeps. rewrite upd_length. rewrite nth_upd_d.
  destruct (Nat.eqb_spec b (w_blk R)) as [->|N]; [|repeat split; lia].
  destruct (Nat.ltb_spec (w_blk R) (length M)) as [L|L].
  - split; [lia|]. split; [apply upd_length|]. intros j Hj. rewrite nth_upd.
    destruct (Nat.eqb_spec i j) as [->|_]; [lia|reflexivity].
  - rewrite (nth_overflow M [] L). repeat split; lia.
Qed.

Section Inv.
  Context (R : win).

  Definition cell_ok (E : nat -> option reading) (k : kind) (c : list byte) (i : nat) (x : cell) : Prop :=
    match x with
    | CEmpty => True
    | CBroken => nth_in k c i = None
    | CRef d => exists e, nth_in k c i = Some e /\ E d = Some e
    end.
  Definition cells_ok (E : nat -> option reading) (k : kind) (c : list byte) (cells : list cell) : Prop :=
    forall i x, nth_error cells i = Some x -> cell_ok E k c i x.
  Definition body_ok (E : nat -> option reading) (c : list byte) (body : pbody) : Prop :=
    match body with PPrim => True | PArr cs => cells_ok E KValue c cs | PRecs cs => cells_ok E KRecord c cs end.

  Definition holds (s : st) (E : nat -> option reading) (d : nat) (e : reading) : Prop :=
    match e with
    | RVal m => exists bw cw body, nth_error (s_objs s) d = Some (PVal bw cw body) /\ inside bw R /\ inside cw R /\
        rdw (s_mem s) bw = mv_buf m /\ rdw (s_mem s) cw = mv_content m /\ body_of (mv_body m) body /\
        body_ok E (mv_content m) body /\ exists b n, new_std_value b = Ok (m, n)
    | RSimple x c => exists bw cw, nth_error (s_objs s) d = Some (PSimple bw cw) /\ inside bw R /\ inside cw R /\
        rdw (s_mem s) bw = x /\ rdw (s_mem s) cw = c /\ exists b n, new_simple_value b = Ok (VSimple x c, n)
    | RKey k => exists ks kw n, nth_error (s_objs s) d = Some (PKey ks kw) /\ inside kw R /\ Forall (fun x => inside x R) ks /\
        k = KMapped (map (fun x => Some (rdw (s_mem s) x)) ks) (rdw (s_mem s) kw) /\
        new_mapped_key (Some (rdw (s_mem s) kw)) = Ok (k, n)
    | RRec r => exists bw k v c ts sig kd vd cd, r = MRec (rdw (s_mem s) bw) k v c ts sig /\
        nth_error (s_objs s) d = Some (PRec bw kd vd cd ts sig) /\ inside bw R /\
        E kd = Some (RKey k) /\ E vd = Some (RVal v) /\ E cd = Some (RVal c)
    end.
  Definition Inv (s : st) (E : nat -> option reading) : Prop :=
    valid (s_mem s) R /\ forall d e, E d = Some e -> holds s E d e.
  Definition ext (E E' : nat -> option reading) : Prop := forall d e, E d = Some e -> E' d = Some e.

  Lemma ext_refl E : ext E E.
  Proof. intros d e H. exact H. Qed.
  Lemma ext_trans E1 E2 E3 : ext E1 E2 -> ext E2 E3 -> ext E1 E3.
  Proof. intros A B d e H. apply B, A, H. Qed.

  Lemma cells_ext E E' k c cells : ext E E' -> cells_ok E k c cells -> cells_ok E' k c cells.
  Proof.
    intros X H i x Hx. specialize (H i x Hx). destruct x; cbn [cell_ok] in *; try assumption.
    destruct H as (e & A & B). exists e. split; [exact A|]. apply X, B.
  Qed.
  Lemma body_ext E E' c b : ext E E' -> body_ok E c b -> body_ok E' c b.
  Proof. intros X. destruct b; cbn [body_ok]; try tauto; apply cells_ext; exact X. Qed.
  Lemma holds_ext s E E' d e : ext E E' -> holds s E d e -> holds s E' d e.
  Proof.
    intros X H. destruct e; cbn [holds] in *; try assumption.
    - destruct H as (bw & cw & body & A & B & C & D & F & G & I & J). exists bw, cw, body. splits; try assumption.
      eapply body_ext; eassumption.
    - destruct H as (bw & k & v & c & ts & sig & kd & vd & cd & A & B & C & D & F & G).
      exists bw, k, v, c, ts, sig, kd, vd, cd. splits; try assumption; apply X; assumption.
  Qed.
  Lemma fresh_ok E c b : fresh b -> body_ok E c b.
  Proof.
    destruct b; cbn [fresh body_ok]; intros F; try exact I; intros i x Hx; apply nth_error_In in Hx; rewrite (F x Hx); exact I.
  Qed.

  (** The state grows. *)
  Lemma holds_grow s s' E d e : keeps R (s_mem s) (s_mem s') ->
    (forall a o, nth_error (s_objs s) a = Some o -> nth_error (s_objs s') a = Some o) -> holds s E d e -> holds s' E d e.
  Proof.
    intros K O H. destruct e; cbn [holds] in *.
    - destruct H as (bw & cw & body & A & B & C & D & F & G & I & J). exists bw, cw, body.
      rewrite (keeps_rdw _ _ _ _ K B), (keeps_rdw _ _ _ _ K C). splits; try assumption. apply O, A.
    - destruct H as (bw & cw & A & B & C & D & F & G). exists bw, cw.
      rewrite (keeps_rdw _ _ _ _ K B), (keeps_rdw _ _ _ _ K C). splits; try assumption. apply O, A.
    - destruct H as (ks & kw & n & A & B & C & D & F). exists ks, kw, n.
      rewrite (keeps_rdw _ _ _ _ K B). splits; try assumption; [apply O, A|]. rewrite D. f_equal.
      apply map_ext_in. intros x Hx. rewrite Forall_forall in C. rewrite (keeps_rdw _ _ _ _ K (C x Hx)). reflexivity.
    - destruct H as (bw & k & v & c & ts & sig & kd & vd & cd & A & B & C & D & F & G).
      exists bw, k, v, c, ts, sig, kd, vd, cd. rewrite (keeps_rdw _ _ _ _ K C). splits; try assumption. apply O, B.
  Qed.
  Lemma inv_grow s s' E : keeps R (s_mem s) (s_mem s') ->
    (forall a o, nth_error (s_objs s) a = Some o -> nth_error (s_objs s') a = Some o) -> Inv s E -> Inv s' E.
  Proof.
    intros K O (V & H). split; [eapply keeps_valid; eassumption|]. intros d e Hd. eapply holds_grow; eauto.
  Qed.
  Lemma inv_dom s E d e : Inv s E -> E d = Some e -> d < length (s_objs s).
  Proof.
    intros (_ & H) Hd. specialize (H d e Hd). apply nth_error_Some.
    destruct e; cbn [holds] in H.
    - destruct H as (bw & cw & body & A & _). congruence.
    - destruct H as (bw & cw & A & _). congruence.
    - destruct H as (ks & kw & n & A & _). congruence.
    - destruct H as (bw & k & v & c & ts & sig & kd & vd & cd & _ & A & _). congruence.
  Qed.

  (** A new object that says [e]. *)
  Definition add (E : nat -> option reading) (d : nat) (e : reading) : nat -> option reading :=
    fun x => if Nat.eqb x d then Some e else E x.
  Lemma add_ext s E e : Inv s E -> forall d, length (s_objs s) <= d -> ext E (add E d e).
  Proof.
    intros I d L x y H. unfold add. destruct (Nat.eqb_spec x d) as [->|_]; [|exact H].
    pose proof (inv_dom _ _ _ _ I H). lia.
  Qed.
  Lemma add_same E d e : add E d e d = Some e.
  Proof. unfold add. rewrite Nat.eqb_refl. reflexivity. Qed.
  Lemma inv_add s E d e : (forall x y, E x = Some y -> x < d) -> Inv s E -> holds s (add E d e) d e -> Inv s (add E d e).
  Proof.
    intros B (V & H) Hd. split; [exact V|]. intros x y Hx. unfold add in Hx. destruct (Nat.eqb_spec x d) as [->|N].
    - injection Hx as <-. exact Hd.
    - eapply holds_ext; [|apply H; exact Hx]. intros a b Hab. unfold add. destruct (Nat.eqb_spec a d) as [->|_]; [|exact Hab].
      specialize (B _ _ Hab). lia.
  Qed.

  (** What a parse inside [R] brings. *)
  Definition good_parse (parse : st -> win -> st * res nat) (k : kind) : Prop :=
    forall s E w s1 r, Inv s E -> inside w R -> parse s w = (s1, r) ->
      s_mem s1 = s_mem s /\ (exists tl, s_objs s1 = s_objs s ++ tl) /\
      match r with
      | Ok a => exists e E2, reads k (rdw (s_mem s) w) = Some e /\ ext E E2 /\ Inv s1 E2 /\ E2 a = Some e
      | _ => s1 = s /\ reads k (rdw (s_mem s) w) = None
      end.

  Lemma inv_snoc s E tl : Inv s E -> Inv (St (s_mem s) (s_objs s ++ tl)) E.
  Proof. intros I. apply (inv_grow s); [apply keeps_refl| |exact I]. intros a o. apply nth_error_snoc. Qed.

  Lemma nth_last {A} (l : list A) x : nth_error (l ++ [x]) (length l) = Some x.
  Proof using Type. clear. rewrite nth_error_app2, Nat.sub_diag by lia. reflexivity. Qed.

  Lemma good_value : good_parse new_value KValue.
  Proof.
    intros s E w s1 r I Iw H. pose proof (valid_inside _ _ _ (proj1 I) Iw) as V.
    unfold new_value, alloc in H. pose proof (parse_value_spec (s_mem s) w V) as P. unfold reads.
    destruct (parse_value (s_mem s) w) as [o| |]; injection H as <- <-.
    2,3: split; [reflexivity|]; split; [exists []; rewrite app_nil_r; reflexivity|]; split; [reflexivity|]; rewrite P; reflexivity.
    cbn [s_mem s_objs]. split; [reflexivity|]. split; [eexists; reflexivity|].
    destruct P as (m & n & P1 & P2 & (bw & cw & b & -> & F)). rewrite P1. exists (RVal m), (add E (length (s_objs s)) (RVal m)).
    split; [reflexivity|]. split; [eapply add_ext; [exact I|lia]|]. split; [|apply add_same].
    apply inv_add. { intros x y Hx. eapply inv_dom; eassumption. } { apply inv_snoc, I. }
    destruct (val_shows_in _ _ _ _ _ P2 Iw) as (bw' & cw' & body & [= <- <- <-] & A & B & C & D & G).
    cbn [holds s_objs s_mem]. exists bw, cw, b. splits; try assumption.
    - apply nth_last.
    - apply fresh_ok, F.
    - eauto.
  Qed.

  Lemma good_simple : good_parse new_simple KSimple.
  Proof.
    intros s E w s1 r I Iw H. pose proof (valid_inside _ _ _ (proj1 I) Iw) as V.
    unfold new_simple, alloc in H. pose proof (parse_simple_spec (s_mem s) w V) as P. unfold reads.
    destruct (parse_simple (s_mem s) w) as [o| |]; injection H as <- <-.
    2,3: split; [reflexivity|]; split; [exists []; rewrite app_nil_r; reflexivity|]; split; [reflexivity|]; rewrite P; reflexivity.
    cbn [s_mem s_objs]. split; [reflexivity|]. split; [eexists; reflexivity|].
    destruct P as (bw & cw & n & -> & P1 & P2 & P3 & _). rewrite P1.
    set (e := RSimple (rdw (s_mem s) bw) (rdw (s_mem s) cw)).
    exists e, (add E (length (s_objs s)) e).
    split; [reflexivity|]. split; [eapply add_ext; [exact I|lia]|]. split; [|apply add_same].
    apply inv_add. { intros x y Hx. eapply inv_dom; eassumption. } { apply inv_snoc, I. }
    cbn [holds e s_objs s_mem]. exists bw, cw. splits; try reflexivity.
    - apply nth_last.
    - eapply inside_trans; eassumption.
    - eapply inside_trans; eassumption.
    - eauto.
  Qed.

  Lemma good_key : good_parse new_key_at KKey.
  Proof.
    intros s E w s1 r I Iw H. pose proof (valid_inside _ _ _ (proj1 I) Iw) as V.
    unfold new_key_at, alloc in H. pose proof (parse_key_spec (s_mem s) w V) as P. unfold reads. unfold bytes in *.
    destruct (parse_key (s_mem s) w) as [o| |]; injection H as <- <-.
    2,3: split; [reflexivity|]; split; [exists []; rewrite app_nil_r; reflexivity|]; split; [reflexivity|]; rewrite P; reflexivity.
    cbn [s_mem s_objs]. split; [reflexivity|]. split; [eexists; reflexivity|].
    destruct P as (k & n & P1 & ((ks & kw & Eo & Ek & P2 & P3) & _) & (ks' & E')). rewrite E' in Eo. injection Eo as -> ->. subst o.
    rewrite P1. exists (RKey k), (add E (length (s_objs s)) (RKey k)).
    split; [reflexivity|]. split; [eapply add_ext; [exact I|lia]|]. split; [|apply add_same].
    apply inv_add. { intros x y Hx. eapply inv_dom; eassumption. } { apply inv_snoc, I. }
    cbn [holds s_objs s_mem]. exists ks, kw, n. splits; try assumption.
    - apply nth_last.
    - rewrite Forall_forall in *. intros x Hx. eapply inside_trans; eauto.
  Qed.

  Lemma nth_four {A} (l : list A) a b c d :
    nth_error (l ++ [a; b; c; d]) (length l) = Some a /\ nth_error (l ++ [a; b; c; d]) (length l + 1) = Some b /\
    nth_error (l ++ [a; b; c; d]) (length l + 2) = Some c /\ nth_error (l ++ [a; b; c; d]) (length l + 3) = Some d.
  Proof using Type.
    clear. rewrite !nth_error_app2 by lia. rewrite Nat.sub_diag, !Nat.add_comm with (n := length l), !Nat.add_sub. auto.
  Qed.

  Lemma good_record : good_parse new_record_at KRecord.
  Proof.
    intros s E w s1 r I Iw H. pose proof (valid_inside _ _ _ (proj1 I) Iw) as V.
    unfold new_record_at in H. pose proof (parse_record_spec (s_mem s) w V) as P. unfold reads.
    destruct (parse_record (s_mem s) w) as [[[[ko vo] co] ro]| |]; injection H as <- <-.
    2,3: split; [reflexivity|]; split; [exists []; rewrite app_nil_r; reflexivity|]; split; [reflexivity|]; rewrite P; reflexivity.
    cbn [s_mem s_objs]. split; [reflexivity|]. split; [eexists; reflexivity|].
    destruct P as (bw & ts & sig & k & v & c & kw & vw & cw & n & P1 & P2 & P3 & P4 & Ik & Iv & Ic & _ & _ & _ & _ & Sk & Sv & Sc & Fv & Fc).
    rewrite P1. set (a := length (s_objs s)) in *. set (s1 := St (s_mem s) (s_objs s ++ [ro a; ko; vo; co])).
    set (e := RRec (MRec (rdw (s_mem s) bw) k v c ts sig)).
    assert (N : nth_error (s_objs s1) a = Some (ro a) /\ nth_error (s_objs s1) (a + 1) = Some ko /\
                nth_error (s_objs s1) (a + 2) = Some vo /\ nth_error (s_objs s1) (a + 3) = Some co).
    { apply nth_four. }
    destruct N as (N0 & N1 & N2 & N3).
    assert (I0 : Inv s1 E) by (apply inv_snoc, I).
    assert (B0 : forall x y, E x = Some y -> x < a) by (intros x y Hx; eapply inv_dom; eassumption).
    set (E1 := add E (a + 1) (RKey k)). set (E2 := add E1 (a + 2) (RVal v)). set (E3 := add E2 (a + 3) (RVal c)).
    set (E4 := add E3 a e).
    assert (X1 : ext E E1). { intros x y Hx. unfold E1, add. destruct (Nat.eqb_spec x (a + 1)); [|exact Hx]. specialize (B0 _ _ Hx). lia. }
    assert (B1 : forall x y, E1 x = Some y -> x < a + 2).
    { intros x y Hx. unfold E1, add in Hx. destruct (Nat.eqb_spec x (a + 1)); [lia|]. specialize (B0 _ _ Hx). lia. }
    assert (X2 : ext E1 E2). { intros x y Hx. unfold E2, add. destruct (Nat.eqb_spec x (a + 2)); [|exact Hx]. specialize (B1 _ _ Hx). lia. }
    assert (B2 : forall x y, E2 x = Some y -> x < a + 3).
    { intros x y Hx. unfold E2, add in Hx. destruct (Nat.eqb_spec x (a + 2)); [lia|]. specialize (B1 _ _ Hx). lia. }
    assert (X3 : ext E2 E3). { intros x y Hx. unfold E3, add. destruct (Nat.eqb_spec x (a + 3)); [|exact Hx]. specialize (B2 _ _ Hx). lia. }
    assert (Na : E3 a = None).
    { unfold E3, E2, E1, add. destruct (Nat.eqb_spec a (a + 3)); [lia|]. destruct (Nat.eqb_spec a (a + 2)); [lia|].
      destruct (Nat.eqb_spec a (a + 1)); [lia|]. destruct (E a) as [y|] eqn:Ea; [|reflexivity]. specialize (B0 _ _ Ea). lia. }
    assert (X4 : ext E3 E4). { intros x y Hx. unfold E4, add. destruct (Nat.eqb_spec x a); [|exact Hx]. congruence. }
    assert (I1 : Inv s1 E1).
    { apply inv_add; [intros x y Hx; specialize (B0 _ _ Hx); lia|exact I0|].
      destruct Sk as ((ks & kw' & Eo & Ek & Sk2 & Sk3) & (ks' & Eo') & (kn & Sk4)). cbn [holds].
      rewrite Eo' in Eo. injection Eo as <- <-. exists ks', kw, kn. cbn [s1 s_mem]. splits; try assumption.
      - rewrite N1, Eo'. reflexivity.
      - exact (inside_trans _ _ _ Ik Iw).
      - rewrite Forall_forall in *. intros x Hx. eapply inside_trans; [apply Sk3, Hx|]. exact (inside_trans _ _ _ Ik Iw). }
    assert (HV : forall E' x y d, inside x w -> val_shows (s_mem s) x y d -> (exists b1 b2 b, y = PVal b1 b2 b /\ fresh b) ->
              forall p, nth_error (s_objs s1) p = Some y -> holds s1 E' p (RVal d)).
    { intros E' x y d Ix Sx (b1 & b2 & b & -> & F) p Hp.
      pose proof (val_shows_in _ _ _ _ _ Sx (inside_trans _ _ _ Ix Iw)) as (bw' & cw' & body & [= <- <- <-] & A & B & C & D & G).
      cbn [holds s1 s_mem]. exists b1, b2, b. splits; try assumption. { apply fresh_ok, F. }
      destruct Sx as (_ & q & Q). eauto. }
    assert (I2 : Inv s1 E2). { apply inv_add; [exact B1|exact I1|]. eapply HV; [exact Iv|exact Sv|exact Fv|exact N2]. }
    assert (I3 : Inv s1 E3). { apply inv_add; [exact B2|exact I2|]. eapply HV; [exact Ic|exact Sc|exact Fc|exact N3]. }
    assert (G1 : E4 (a + 1) = Some (RKey k)). { apply X4, X3, X2, add_same. }
    assert (G2 : E4 (a + 2) = Some (RVal v)). { apply X4, X3, add_same. }
    assert (G3 : E4 (a + 3) = Some (RVal c)). { apply X4, add_same. }
    exists e, E4. split; [reflexivity|]. split. { intros x y Hx. apply X4, X3, X2, X1, Hx. }
    split; [|apply add_same]. split; [apply I3|]. intros x y Hx. unfold E4, add in Hx.
    destruct (Nat.eqb_spec x a) as [->|Nx].
    - injection Hx as <-. cbn [holds e s1 s_mem]. exists bw, k, v, c, ts, sig, (a + 1), (a + 2), (a + 3).
      splits; try assumption; try reflexivity.
      + rewrite <- P2. exact N0.
      + eapply inside_trans; eassumption.
    - eapply holds_ext; [exact X4|]. apply I3, Hx.
  Qed.

  (** ** Elements *)
  Lemma elem_len_spec s E a e k : Inv s E -> E a = Some e -> (exists b, reads k b = Some e) -> k = KValue \/ k = KRecord ->
    elem_len s a = Z.of_nat (extent e).
  Proof.
    intros (V & H) Ha (b & Hb) Hk. specialize (H a e Ha). unfold elem_len.
    destruct Hk as [-> | ->]; cbn [reads] in Hb.
    - destruct (new_std_value b) as [[m n]| |]; try discriminate. injection Hb as <-. cbn [holds extent] in *.
      destruct H as (bw & cw & body & -> & A & _ & B & _). rewrite <- B, rdw_length; [reflexivity|]. eapply valid_inside; eassumption.
    - destruct (new_mapped_record b) as [[m n]| |]; try discriminate. injection Hb as <-. cbn [holds extent] in *.
      destruct H as (bw & x & v & c & ts & sig & kd & vd & cd & -> & -> & A & _). cbn [mr_buf].
      rewrite rdw_length; [reflexivity|]. eapply valid_inside; eassumption.
  Qed.
  Lemma nth_in_reads k c i e : nth_in k c i = Some e -> exists b, reads k b = Some e.
  Proof.
    revert c. induction i as [|i IH]; intros c; cbn [nth_in]; destruct (reads k c) as [x|] eqn:Q; try discriminate.
    - intros [= <-]. eauto.
    - apply IH.
  Qed.
  Lemma nth_in_none k c i j : nth_in k c i = None -> i <= j -> nth_in k c j = None.
  Proof.
    revert c j. induction i as [|i IH]; intros c j; cbn [nth_in]; destruct (reads k c) as [x|] eqn:Q; try discriminate.
    - intros _ _. destruct j; cbn [nth_in]; rewrite Q; reflexivity.
    - intros H L. destruct j as [|j]; [lia|]. cbn [nth_in]. rewrite Q. apply IH; [exact H|lia].
    - intros _ _. destruct j; cbn [nth_in]; rewrite Q; reflexivity.
  Qed.
  Lemma extent_fits k b e : reads k b = Some e -> k = KValue \/ k = KRecord -> extent e <= length b.
  Proof.
    intros H [-> | ->]; cbn [reads] in H.
    - destruct (new_std_value b) as [[m n]| |] eqn:D; try discriminate. injection H as <-. cbn [extent].
      destruct (std_decode_inv _ _ _ D) as (l & c & body & suf & -> & _ & -> & _). cbn [mv_buf]. rewrite app_length. lia.
    - assert (V : valid [b] (Win 0 0 (length b))) by (split; cbn; lia).
      assert (Eb : rdw [b] (Win 0 0 (length b)) = b) by apply firstn_all.
      pose proof (parse_record_spec [b] _ V) as P. rewrite Eb in P.
      destruct (parse_record [b] (Win 0 0 (length b))) as [[[[ko vo] co] ro]| |].
      2,3: rewrite P in H; discriminate.
      destruct P as (bw & ts & sig & k & v & c & kw & vw & cw & n & P1 & _ & P3 & _).
      rewrite P1 in H. injection H as <-. cbn [extent mr_buf]. rewrite (rdw_length [b] bw (valid_inside _ _ _ V P3)).
      destruct P3 as (_ & _ & P3). cbn [w_off w_len] in P3. lia.
  Qed.

  Lemma load_ok parse k : good_parse parse k -> k = KValue \/ k = KRecord ->
    forall todo s E cw p cells s2 cells2 r, Inv s E -> inside cw R -> p <= w_len cw ->
    cells_ok E k (skipn p (rdw (s_mem s) cw)) cells ->
    load_cells parse s cw cells todo (Z.of_nat p) = (s2, cells2, r) ->
    exists E2, ext E E2 /\ Inv s2 E2 /\ s_mem s2 = s_mem s /\ (exists tl, s_objs s2 = s_objs s ++ tl) /\
      cells_ok E2 k (skipn p (rdw (s_mem s) cw)) cells2 /\ length cells2 = length cells /\
      (r = Ok tt -> forall j, j < todo -> exists d, nth_error cells2 j = Some (CRef d)) /\
      (todo <= length cells -> r <> Ok tt -> exists j, j < todo /\ nth_in k (skipn p (rdw (s_mem s) cw)) j = None).
  Proof.
    intros G Hk. induction todo as [|n IH]; intros s E cw p cells s2 cells2 r I Ic L C H; cbn [load_cells] in H.
    { injection H as <- <- <-. exists E. splits; try assumption; try reflexivity.
      - apply ext_refl.
      - exists []. rewrite app_nil_r. reflexivity.
      - intros _ j Hj. lia.
      - intros _ N. congruence. }
    destruct cells as [|x cs].
    { injection H as <- <- <-. exists E. splits; try assumption; try reflexivity.
      - apply ext_refl.
      - exists []. rewrite app_nil_r. reflexivity.
      - discriminate.
      - cbn [length]. intros. lia. }
    pose proof (C 0 x eq_refl) as C0.
    assert (V : valid (s_mem s) cw) by (eapply valid_inside; [apply I|exact Ic]).
    destruct x as [| |a].
    - (* empty *)
      destruct (Z.ltb_spec (Z.of_nat (w_len cw)) (Z.of_nat p)) as [B|_]; [lia|].
      pose proof (win_from_spec (s_mem s) cw (Z.of_nat p) V) as W. destruct (win_from cw (Z.of_nat p)) as [rest| |] eqn:Ew.
      2: contradiction.
      2:{ unfold go_from in W. rewrite (rdw_zlen _ _ V) in W. destruct (Z.leb_spec 0 (Z.of_nat p)); [|lia].
          destruct (Z.leb_spec (Z.of_nat p) (Z.of_nat (w_len cw))); [discriminate|lia]. }
      destruct W as (W1 & W2 & W3 & W4).
      assert (Er : rdw (s_mem s) rest = skipn p (rdw (s_mem s) cw)).
      { unfold go_from in W1. rewrite (rdw_zlen _ _ V) in W1. destruct (Z.leb_spec 0 (Z.of_nat p)); [|lia].
        destruct (Z.leb_spec (Z.of_nat p) (Z.of_nat (w_len cw))); [|lia]. rewrite Nat2Z.id in W1. cbn [andb] in W1. congruence. }
      destruct (parse s rest) as [s1 q] eqn:Ep.
      destruct (G s E rest s1 q I (inside_trans _ _ _ W2 Ic) Ep) as (M1 & (tl & O1) & Q). rewrite Er in Q.
      destruct q as [a| |].
      + destruct Q as (e & E1 & Q1 & Q2 & Q3 & Q4).
        assert (Le : elem_len s1 a = Z.of_nat (extent e)).
        { eapply elem_len_spec; [exact Q3|exact Q4| |exact Hk]. eauto. }
        rewrite Le, <- Nat2Z.inj_add in H.
        destruct (load_cells parse s1 cw cs n (Z.of_nat (p + extent e))) as [[s3 cs3] r3] eqn:E3. injection H as <- <- <-.
        assert (Fe : extent e <= length (skipn p (rdw (s_mem s) cw))) by (eapply extent_fits; eassumption).
        rewrite skipn_length, (rdw_length _ _ V) in Fe.
        destruct (IH s1 E1 cw (p + extent e) cs s3 cs3 r3) as (E2 & X1 & X2 & X3 & (tl2 & X4) & X5 & X6 & X7 & X8).
        * exact Q3.
        * exact Ic.
        * lia.
        * rewrite M1. intros i y Hy. specialize (C (S i) y Hy). rewrite <- skipn_add.
          destruct y; cbn [cell_ok nth_in] in *; try exact Logic.I; rewrite Q1 in C; [exact C|].
          destruct C as (z & Z1 & Z2). exists z. split; [exact Z1|]. apply Q2, Z2.
        * exact E3.
        * rewrite M1 in X3, X5, X8. exists E2. splits.
          -- eapply ext_trans; eassumption.
          -- exact X2.
          -- exact X3.
          -- exists (tl ++ tl2). rewrite X4, O1, app_assoc. reflexivity.
          -- intros i y Hy. destruct i as [|i]; cbn [nth_error] in Hy.
             ++ injection Hy as <-. cbn [cell_ok nth_in]. rewrite Q1. exists e. split; [reflexivity|]. apply X1, Q4.
             ++ specialize (X5 i y Hy). rewrite <- skipn_add in X5. destruct y; cbn [cell_ok nth_in] in *; try exact Logic.I; rewrite Q1; exact X5.
          -- cbn [length]. rewrite X6. reflexivity.
          -- intros Hr j Hj. destruct j as [|j]; cbn [nth_error]; [eauto|]. apply X7; [exact Hr|lia].
          -- cbn [length]. intros Hl Hr. destruct (X8 ltac:(lia) Hr) as (j & J1 & J2). exists (S j). split; [lia|].
             cbn [nth_in]. rewrite Q1. rewrite <- skipn_add in J2. exact J2.
      + destruct Q as (-> & Q). injection H as <- <- <-. exists E. splits; try assumption; try reflexivity.
        * apply ext_refl.
        * exists []. rewrite app_nil_r. reflexivity.
        * intros i y Hy. destruct i as [|i]; cbn [nth_error] in Hy; [|exact (C (S i) y Hy)]. injection Hy as <-.
          cbn [cell_ok nth_in]. rewrite Q. reflexivity.
        * discriminate.
        * intros _ _. exists 0. split; [lia|]. cbn [nth_in]. rewrite Q. reflexivity.
      + destruct Q as (-> & Q). injection H as <- <- <-. exists E. splits; try assumption; try reflexivity.
        * apply ext_refl.
        * exists []. rewrite app_nil_r. reflexivity.
        * discriminate.
        * intros _ _. exists 0. split; [lia|]. cbn [nth_in]. rewrite Q. reflexivity.
    - (* broken *)
      injection H as <- <- <-. exists E. splits; try assumption; try reflexivity.
      + apply ext_refl.
      + exists []. rewrite app_nil_r. reflexivity.
      + discriminate.
      + intros _ _. exists 0. split; [lia|exact C0].
    - (* there *)
      destruct C0 as (e & C1 & C2). cbn [nth_in] in C1. destruct (reads k (skipn p (rdw (s_mem s) cw))) as [e'|] eqn:Q1; [|discriminate].
      injection C1 as ->.
      assert (Le : elem_len s a = Z.of_nat (extent e)).
      { eapply elem_len_spec; [exact I|exact C2| |exact Hk]. eauto. }
      rewrite Le, <- Nat2Z.inj_add in H.
      destruct (load_cells parse s cw cs n (Z.of_nat (p + extent e))) as [[s3 cs3] r3] eqn:E3. injection H as <- <- <-.
      assert (Fe : extent e <= length (skipn p (rdw (s_mem s) cw))) by (eapply extent_fits; eassumption).
      rewrite skipn_length, (rdw_length _ _ V) in Fe.
      destruct (IH s E cw (p + extent e) cs s3 cs3 r3) as (E2 & X1 & X2 & X3 & X4 & X5 & X6 & X7 & X8).
      + exact I.
      + exact Ic.
      + lia.
      + intros i y Hy. specialize (C (S i) y Hy). rewrite <- skipn_add.
        destruct y; cbn [cell_ok nth_in] in *; try exact Logic.I; rewrite Q1 in C; exact C.
      + exact E3.
      + exists E2. splits; try assumption.
        * intros i y Hy. destruct i as [|i]; cbn [nth_error] in Hy.
          -- injection Hy as <-. cbn [cell_ok nth_in]. rewrite Q1. exists e. split; [reflexivity|]. apply X1, C2.
          -- specialize (X5 i y Hy). rewrite <- skipn_add in X5. destruct y; cbn [cell_ok nth_in] in *; try exact Logic.I; rewrite Q1; exact X5.
        * cbn [length]. rewrite X6. reflexivity.
        * intros Hr j Hj. destruct j as [|j]; cbn [nth_error]; [eauto|]. apply X7; [exact Hr|lia].
        * cbn [length]. intros Hl Hr. destruct (X8 ltac:(lia) Hr) as (j & J1 & J2). exists (S j). split; [lia|].
          cbn [nth_in]. rewrite Q1. rewrite <- skipn_add in J2. exact J2.
  Qed.
End Inv.
