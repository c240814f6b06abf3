(** * Lemmas about schemes in shared memory. *)
From Coq Require Import List NArith ZArith Bool Lia.
From Coq Require Import Strings.Byte.
From Verif Require Import Base BaseProofs VarintModel VarintProofs KeyModel SchemeModel SchemeProofs SchemeObjModel SchemeObjSpec.
Import ListNotations.
Local Open Scope Z_scope.

Lemma replace_length {A} (l : list A) i x : length (replace l i x) = length l.
Proof. revert i. induction l as [|y l IH]; intros [|i]; cbn; auto. Qed.
Lemma replace_same {A} (l : list A) : forall i x, (i < length l)%nat -> nth_error (replace l i x) i = Some x.
Proof. induction l as [|y l IH]; intros [|i] x H; cbn in *; try lia; [reflexivity|]. apply IH. lia. Qed.
Lemma replace_other {A} (l : list A) : forall i j x, i <> j -> nth_error (replace l i x) j = nth_error l j.
Proof. induction l as [|y l IH]; intros [|i] [|j] x H; cbn; try reflexivity; try congruence. apply IH. congruence. Qed.
Lemma replace_nth {A} (l : list A) i j x d : i <> j -> nth j (replace l i x) d = nth j l d.
Proof.
  intros N. destruct (nth_error l j) as [y|] eqn:E.
  - rewrite (nth_error_nth _ _ d E). apply nth_error_nth. now rewrite replace_other.
  - apply nth_error_None in E. rewrite !nth_overflow; auto. now rewrite replace_length.
Qed.
Lemma replace_nth_same {A} (l : list A) i x d : (i < length l)%nat -> nth i (replace l i x) d = x.
Proof. intros H. apply nth_error_nth. now apply replace_same. Qed.

(** ** Everything held exists *)
Definition sound_obj (s : state) (o : sobj) : Prop :=
  slice_exists s (f_buf o) = true /\ slice_exists s (f_domain o) = true /\ slice_exists s (f_tablet o) = true /\
  match f_buckets o with Some i => (i < length (lists s))%nat | None => True end.
Definition sound (s : state) : Prop :=
  (forall a o, object s a = Some o -> sound_obj s o) /\ (forall l, In l (lists s) -> forall x, In x l -> slice_exists s x = true).
(** Memory only grows, blocks keep their lengths. *)
Definition room (s s' : state) : Prop :=
  (length (blocks s) <= length (blocks s'))%nat /\
  forall k, (k < length (blocks s))%nat -> length (nth k (blocks s') []) = length (nth k (blocks s) []).
Lemma room_refl s : room s s.
Proof. split; auto. Qed.
Lemma room_exists s s' x : room s s' -> slice_exists s x = true -> slice_exists s' x = true.
Proof.
  intros (L & R) H. destruct x as [x|]; [|reflexivity]. cbn in *. apply andb_prop in H. destruct H as (A & B).
  apply Nat.ltb_lt in A. rewrite (R _ A), B. apply andb_true_intro. split; [apply Nat.ltb_lt; lia|reflexivity].
Qed.
Lemma room_obj s s' o : room s s' -> (length (lists s) <= length (lists s'))%nat -> sound_obj s o -> sound_obj s' o.
Proof.
  intros R L (A & B & C & D). repeat split; try (eapply room_exists; eassumption). destruct (f_buckets o); [lia|exact I].
Qed.
Lemma room_app s b ls os : room s (State (blocks s ++ b) ls os).
Proof.
  split; cbn [blocks]; [rewrite app_length; lia|]. intros k H. now rewrite app_nth1.
Qed.
Lemma room_same s ls os : room s (State (blocks s) ls os).
Proof. split; auto. Qed.

(** ** Reading through a decoded slice *)
Lemma varchar_range r d l : decode_varchar r = Ok (d, l) -> zlen d <= l <= zlen r /\ firstn (length d) (skipn (Z.to_nat l - length d) r) = d.
Proof.
  intros H. destruct (varchar_inside _ _ _ H) as [(-> & -> & ->)|(pre & rest & -> & _ & ->)]; [cbn; split; [lia|reflexivity]|].
  rewrite !zlen_app. pose proof (zlen_nonneg pre). pose proof (zlen_nonneg rest). split; [lia|].
  replace (Z.to_nat (zlen pre + zlen d) - length d)%nat with (length pre) by (unfold zlen; lia).
  rewrite skipn_app, skipn_all, Nat.sub_diag. cbn [skipn app]. rewrite firstn_app, Nat.sub_diag, firstn_all. cbn [firstn]. apply app_nil_r.
Qed.
Lemma content_length s b c : slice_exists s (Some b) = true -> bytes_in s (Some b) = Some c -> length c = len b.
Proof.
  cbn. intros E [= <-]. apply andb_prop in E. destruct E as (_ & B). apply Nat.leb_le in B. rewrite firstn_length, skipn_length. lia.
Qed.
Lemma read_slice_spec s b c pos : slice_exists s (Some b) = true -> bytes_in s (Some b) = Some c ->
  match (let? r := go_from c pos in decode_varchar r) with
  | Ok (d, l) => exists x, read_slice b c pos = Ok (x, pos + l) /\ bytes_in s (Some x) = Some d /\ slice_exists s (Some x) = true
  | Err => read_slice b c pos = Err
  | Panic => read_slice b c pos = Panic
  end.
Proof.
  intros Ex C. unfold read_slice. destruct (go_from c pos) as [r| |] eqn:G; cbn [rbind]; try reflexivity.
  destruct (decode_varchar r) as [[d l]| |] eqn:D; cbn [rbind]; try reflexivity.
  destruct (varchar_range _ _ _ D) as (L & F). pose proof (content_length _ _ _ Ex C) as Lc.
  unfold go_from in G. destruct (Z.leb_spec 0 pos) as [P0|P0]; [|discriminate]. destruct (Z.leb_spec pos (zlen c)) as [P1|P1]; [|discriminate].
  cbn in G. inv G. eexists. split; [reflexivity|].
  assert (Lr : zlen (skipn (Z.to_nat pos) c) = zlen c - pos) by (unfold zlen in *; rewrite skipn_length; lia). rewrite Lr in L.
  assert (Ld : 0 <= zlen d) by apply zlen_nonneg. unfold zlen in *.
  set (st := (start b + Z.to_nat (pos + l) - length d)%nat).
  assert (St : st = (start b + Z.to_nat pos + (Z.to_nat l - length d))%nat) by (unfold st; lia).
  assert (En : (st + length d <= start b + len b)%nat) by lia.
  split.
  - cbn [bytes_in in_block start len]. f_equal. cbn [bytes_in] in C. injection C as C. rewrite <- F at 2. rewrite <- C. rewrite St.
    rewrite !skipn_firstn_comm, firstn_firstn, !skipn_add. f_equal; [|f_equal; lia]. lia.
  - cbn in Ex |- *. apply andb_prop in Ex. destruct Ex as (E1 & E2). rewrite E1. apply Nat.leb_le in E2. apply Nat.leb_le. lia.
Qed.
Lemma read_buckets_spec s b c n : slice_exists s (Some b) = true -> bytes_in s (Some b) = Some c -> forall pos done bs r,
  read_buckets b c done n pos = (bs, r) -> (forall x, In x done -> slice_exists s x = true) ->
  (forall x, In x bs -> slice_exists s x = true) /\ map (bytes_in s) bs = map (bytes_in s) done ++ buckets_read n c pos /\
  match decode_subkeys n c pos with
  | Ok (ks, p) => r = Ok p /\ map (bytes_in s) bs = map (bytes_in s) done ++ ks
  | Err => r = Err
  | Panic => r = Panic
  end.
Proof.
  intros Ex C. induction n as [|n IH]; intros pos done bs r H Hd; cbn [read_buckets decode_subkeys] in *.
  - inv H. split; [exact Hd|]. cbn [buckets_read]. now rewrite app_nil_r.
  - cbn [buckets_read]. assert (RN : forall m, map (bytes_in s) (repeat None m) = repeat None m) by (induction m as [|m IHm]; cbn; [reflexivity|f_equal; exact IHm]).
    assert (MN : map (bytes_in s) (done ++ repeat None (S n)) = map (bytes_in s) done ++ repeat None (S n)) by (rewrite map_app; f_equal; apply RN).
    pose proof (read_slice_spec s b c pos Ex C) as R.
    assert (HN : forall x, In x (done ++ None :: repeat None n) -> slice_exists s x = true).
    { intros x Hx. apply in_app_or in Hx. destruct Hx as [Hx|[<- |Hx]]; [auto|reflexivity|]. apply repeat_spec in Hx. now subst x. }
    destruct (go_from c pos) as [rr| |]; cbn [rbind] in R |- *; [|rewrite R in H; inv H; split; [exact HN|split; [exact MN|reflexivity]]..].
    destruct (decode_varchar rr) as [[d l]| |]; cbn [rbind]; [|rewrite R in H; inv H; split; [exact HN|split; [exact MN|reflexivity]]..].
    destruct R as (x & R & B & E). rewrite R in H.
    destruct (IH (pos + l) (done ++ [Some x]) bs r H) as (S & V & K).
    { intros y Hy. apply in_app_or in Hy. destruct Hy as [Hy|[<- |[]]]; auto. }
    split; [exact S|]. split; [rewrite V, map_app, <- app_assoc; cbn [map app]; now rewrite B|]. destruct (decode_subkeys n c (pos + l)) as [[ks p]| |]; cbn [rbind]; try exact K. destruct K as (-> & K).
    split; [reflexivity|]. rewrite K, map_app, <- app_assoc. cbn [map app]. now rewrite B.
Qed.

(** ** Decode *)
Definition kept (s s' : state) (a : nat) : Prop :=
  blocks s' = blocks s /\ (exists more, lists s' = lists s ++ more) /\ length (objects s') = length (objects s) /\
  forall b, b <> a -> object s' b = object s b.
Local Ltac ends GO :=
  split; [apply GO|]; split; [reflexivity|]; split; [reflexivity|]; split; [split; [assumption|cbn; repeat split; auto]|]; split; [reflexivity|];
  split; [unfold fields; cbn [f_domain f_tablet f_buckets s_domain s_tablet s_buckets]; f_equal; first [reflexivity|assumption]|reflexivity].
Lemma decode_spec s a o s' r : sound s -> object s a = Some o -> decode s a o = (s', r) ->
  kept s s' a /\ (forall l, In l (lists s') -> forall x, In x l -> slice_exists s x = true) /\
  exists o', object s' a = Some o' /\ f_kind o' = f_kind o /\ f_buf o' = f_buf o /\ sound_obj s' o' /\
    f_flag o' = match f_kind o, r with KMappedScheme, Ok _ => true | _, _ => f_flag o end /\
    fields s' o' = match f_kind o with KMappedScheme => after_decode (fields s o) (gcontent (bytes_in s (f_buf o))) | KScheme => fields s o end /\
    match f_kind o, decode_scheme (gcontent (bytes_in s (f_buf o))) with
    | KScheme, _ => r = Err /\ s' = s
    | KMappedScheme, Ok (f, n) => r = Ok n /\ fields s' o' = f
    | KMappedScheme, Err => r = Err
    | KMappedScheme, Panic => r = Panic
    end.
Proof.
  intros S G D. pose proof S as (So & Sl). pose proof (So _ _ G) as (Eb & Ed & Et & Ek).
  assert (La : (a < length (objects s))%nat) by (apply nth_error_Some; unfold object in G; congruence).
  assert (KR : kept s s a) by (repeat split; auto; exists []; now rewrite app_nil_r).
  assert (KO : forall o', kept s (set_object s a o') a).
  { intros o'. repeat split; cbn; [exists []; now rewrite app_nil_r|apply replace_length|]. intros b N. unfold object. cbn. now rewrite replace_other by auto. }
  assert (GO : forall o', object (set_object s a o') a = Some o') by (intros o'; unfold object; cbn; now apply replace_same).
  unfold decode in D. destruct (f_kind o) eqn:K.
  2: { inv D. split; [exact KR|]. split; [exact Sl|]. exists o. repeat split; auto. }
  destruct (f_buf o) as [b|] eqn:B.
  2: { inv D. split; [exact KR|]. split; [exact Sl|]. exists o. cbn [bytes_in gcontent]. repeat split; auto; now rewrite B. }
  destruct (bytes_in s (Some b)) as [c|] eqn:C; [|discriminate]. cbn [gcontent] in *.
  destruct c as [|b0 rest].
  { inv D. split; [exact KR|]. split; [exact Sl|]. exists o. repeat split; auto; now rewrite B. }
  rewrite decode_scheme_eq. pose proof (read_slice_spec s b _ 1 Eb C) as R1.
  assert (G1 : go_from (b0 :: rest) 1 = Ok rest) by (change (go_from (b0 :: rest) 1) with (go_from ([b0] ++ rest) (zlen [b0])); apply go_from_app).
  cbn [after_decode]. rewrite G1 in R1 |- *. cbn [rbind] in R1 |- *.
  destruct (decode_varchar rest) as [[d l1]| |]; cbn [rbind] in R1 |- *.
  2: { rewrite R1 in D. inv D. split; [apply KO|]. split; [exact Sl|]. eexists. ends GO. }
  2: { rewrite R1 in D. inv D. split; [exact KR|]. split; [exact Sl|]. exists o. repeat split; auto; now rewrite B. }
  destruct R1 as (xd & R1 & Bd & Xd). rewrite R1 in D. pose proof (read_slice_spec s b _ (1 + l1) Eb C) as R2.
  destruct (go_from (b0 :: rest) (1 + l1)) as [r2| |]; cbn [rbind] in R2 |- *.
  2: { rewrite R2 in D. inv D. split; [apply KO|]. split; [exact Sl|]. eexists. ends GO. }
  2: { rewrite R2 in D. inv D. split; [apply KO|]. split; [exact Sl|]. eexists. ends GO. }
  destruct (decode_varchar r2) as [[t l2]| |]; cbn [rbind] in R2 |- *.
  2: { rewrite R2 in D. inv D. split; [apply KO|]. split; [exact Sl|]. eexists. ends GO. }
  2: { rewrite R2 in D. inv D. split; [apply KO|]. split; [exact Sl|]. eexists. ends GO. }
  destruct R2 as (xt & R2 & Bt & Xt). rewrite R2 in D.
  destruct (go_from (b0 :: rest) (1 + l1 + l2)) as [r3| |]; cbn [rbind] in D |- *.
  2: { inv D. split; [apply KO|]. split; [exact Sl|]. eexists. ends GO. }
  2: { inv D. split; [apply KO|]. split; [exact Sl|]. eexists. ends GO. }
  destruct (decode_uvarint64 r3) as [[n l3]| |]; cbn [rbind] in D |- *.
  2: { inv D. split; [apply KO|]. split; [exact Sl|]. eexists. ends GO. }
  2: { inv D. split; [apply KO|]. split; [exact Sl|]. eexists. ends GO. }
  destruct (make_slices_ok n).
  2: { inv D. split; [apply KO|]. split; [exact Sl|]. eexists. ends GO. }
  destruct (read_buckets b (b0 :: rest) [] (N.to_nat n) (1 + l1 + l2 + l3)) as [bs r'] eqn:Q.
  destruct (read_buckets_spec s b _ (N.to_nat n) Eb C _ _ _ _ Q) as (Sb & V & M); [intros x []|]. inv D.
  split.
  { repeat split; cbn; [exists [bs]; reflexivity|apply replace_length|]. intros b' N. unfold object. cbn. now rewrite replace_other by auto. }
  split; [intros l Hl; cbn in Hl; apply in_app_or in Hl; destruct Hl as [Hl|[<- |[]]]; [now apply Sl|exact Sb]|].
  eexists. split; [unfold object; cbn; now apply replace_same|]. cbn [f_kind f_buf f_flag]. split; [reflexivity|]. split; [reflexivity|].
  split; [split; [exact Eb|split; [exact Xd|split; [exact Xt|cbn; rewrite app_length; cbn; lia]]]|]. split; [destruct r; reflexivity|].
  split.
  { unfold fields. cbn [f_domain f_tablet f_buckets].
    change (bytes_in (State (blocks s) (lists s ++ [bs]) _)) with (bytes_in s). rewrite Bd, Bt. f_equal. cbn [slices_in lists option_map].
    rewrite app_nth2, Nat.sub_diag by lia. cbn [nth]. cbn [map app] in V. f_equal. exact V. }
  destruct (decode_subkeys (N.to_nat n) (b0 :: rest) (1 + l1 + l2 + l3)) as [[ks p]| |]; cbn [rbind]; try exact M.
  destruct M as (-> & M). split; [reflexivity|]. unfold fields. cbn [f_domain f_tablet f_buckets].
  change (bytes_in (State (blocks s) (lists s ++ [bs]) _)) with (bytes_in s). rewrite Bd, Bt. f_equal. cbn [slices_in lists option_map].
  rewrite app_nth2, Nat.sub_diag by lia. cbn [nth]. cbn [map app] in M. f_equal. exact M.
Qed.

(** ** One call *)
Definition own (a : nat) (c : call) : bool := match c with CallDecode b | CallEncode b => Nat.eqb b a | _ => false end.
Lemma call_spec s c s' : sound s -> after_call s c = Some s' ->
  sound s' /\ room s s' /\ (length (lists s) <= length (lists s'))%nat /\ (length (objects s) <= length (objects s'))%nat /\
  (forall b o, object s b = Some o -> own b c = false -> object s' b = Some o) /\
  (forall k, (k < length (blocks s))%nat -> (forall i x, c <> WriteByte k i x) -> nth k (blocks s') [] = nth k (blocks s) []) /\
  (forall k, (k < length (lists s))%nat -> (forall i x, c <> WriteBucket k i x) -> nth k (lists s') [] = nth k (lists s) []).
Proof.
  intros S H. pose proof S as (So & Sl). destruct c; cbn [after_call] in H.
  - inv H. pose proof (room_app s [b] (lists s) (objects s)) as R. repeat split; auto; try apply R; cbn [blocks lists objects]; try lia.
    + eapply room_exists; [exact R|]. apply (So a o H).
    + eapply room_exists; [exact R|]. apply (So a o H).
    + eapply room_exists; [exact R|]. apply (So a o H).
    + apply (So a o H).
    + intros l Hl x Hx. eapply room_exists; [exact R|]. now apply (Sl l).
    + intros k Hk _. now rewrite app_nth1.
  - destruct (nth_error (blocks s) k) as [b|] eqn:E; [|discriminate]. destruct (Nat.ltb_spec i (length b)) as [Li|]; [|discriminate]. inv H.
    assert (R : room s (State (replace (blocks s) k (replace b i x)) (lists s) (objects s))).
    { split; cbn; [rewrite replace_length; lia|]. intros k' Hk'. destruct (Nat.eq_dec k k') as [<- |N]; [|now rewrite replace_nth].
      rewrite replace_nth_same by exact Hk'. rewrite replace_length. pose proof (nth_error_nth _ _ [] E) as Y. unfold bytes in *. now rewrite Y. }
    repeat split; auto; try apply R; cbn [blocks lists objects]; try lia.
    + eapply room_exists; [exact R|]. apply (So a o H).
    + eapply room_exists; [exact R|]. apply (So a o H).
    + eapply room_exists; [exact R|]. apply (So a o H).
    + apply (So a o H).
    + intros l Hl y Hy. eapply room_exists; [exact R|]. now apply (Sl l).
    + intros k' Hk' N. apply replace_nth. intros <-. now apply (N i x).
  - destruct (nth_error (lists s) k) as [l|] eqn:E; [|discriminate]. destruct (Nat.ltb_spec i (length l)) as [Li|]; [|discriminate].
    destruct (slice_exists s x) eqn:Ex; [|discriminate]. cbn in H. inv H.
    assert (R := room_same s (replace (lists s) k (replace l i x)) (objects s)).
    repeat split; auto; try apply R; cbn [blocks lists objects]; try rewrite replace_length; try lia.
    + apply (So a o H).
    + apply (So a o H).
    + apply (So a o H).
    + apply (So a o H).
    + intros l' Hl' y Hy. apply (In_nth _ _ []) in Hl'. destruct Hl' as (n & Hn & <-). rewrite replace_length in Hn.
      destruct (Nat.eq_dec k n) as [<- |N].
      * rewrite replace_nth_same in Hy by exact Hn. apply (In_nth _ _ None) in Hy. destruct Hy as (m & Hm & <-). rewrite replace_length in Hm.
        destruct (Nat.eq_dec i m) as [<- |N']; [rewrite replace_nth_same by exact Hm; exact Ex|]. rewrite replace_nth by exact N'.
        apply (Sl l); [eapply nth_error_In; eauto|now apply nth_In].
      * rewrite replace_nth in Hy by exact N. apply (Sl (nth n (lists s) [])); [now apply nth_In|exact Hy].
    + intros k' Hk' N. apply replace_nth. intros <-. now apply (N i x).
  - destruct (slice_exists s b) eqn:Eb; [|discriminate]. inv H.
    assert (R := room_same s (lists s) (objects s ++ [SObj KMappedScheme false b None None None])).
    assert (X : forall a o, object (State (blocks s) (lists s) (objects s ++ [SObj KMappedScheme false b None None None])) a = Some o ->
      object s a = Some o \/ o = SObj KMappedScheme false b None None None).
    { intros a o. unfold object. cbn. destruct (Nat.lt_ge_cases a (length (objects s))) as [L|L]; [rewrite nth_error_app1 by exact L; auto|].
      rewrite nth_error_app2 by exact L. destruct (a - length (objects s))%nat as [|[|]]; intros Q; inv Q. auto. }
    repeat split; auto; try apply R; cbn [blocks lists objects]; try rewrite app_length; try lia;
      try (destruct (X _ _ H) as [Y| ->]; [apply (So _ _ Y)|first [exact Eb|reflexivity|exact I]]).
    intros b' o Hb _. unfold object in *. cbn. rewrite nth_error_app1; [exact Hb|]. apply nth_error_Some. congruence.
  - inv H. set (n := SObj KScheme false None None None None).
    assert (R := room_same s (lists s) (objects s ++ [n])).
    assert (X : forall a o, object (State (blocks s) (lists s) (objects s ++ [n])) a = Some o -> object s a = Some o \/ o = n).
    { intros a o. unfold object. cbn. destruct (Nat.lt_ge_cases a (length (objects s))) as [L|L]; [rewrite nth_error_app1 by exact L; auto|].
      rewrite nth_error_app2 by exact L. destruct (a - length (objects s))%nat as [|[|]]; intros Q; inv Q. auto. }
    repeat split; auto; try apply R; cbn [blocks lists objects]; try rewrite app_length; try lia;
      try (destruct (X _ _ H) as [Y| ->]; [apply (So _ _ Y)|first [reflexivity|exact I]]).
    intros b' o Hb _. unfold object in *. cbn. rewrite nth_error_app1; [exact Hb|]. apply nth_error_Some. congruence.
  - destruct (object s a) as [o|] eqn:G; [|discriminate]. destruct (decode s a o) as [s1 r] eqn:D. cbn in H. inv H.
    destruct (decode_spec _ _ _ _ _ S G D) as ((K1 & (more & K2) & K3 & K4) & L & o' & G' & _ & _ & So' & _).
    assert (R : room s s') by (split; rewrite K1; auto).
    split; [split|].
    + intros b ob Hb. destruct (Nat.eq_dec b a) as [-> |N]; [congruence|]. rewrite K4 in Hb by exact N.
      eapply room_obj; [exact R|rewrite K2, app_length; lia|eauto].
    + intros l Hl x Hx. eapply room_exists; [exact R|]. eapply L; eauto.
    + split; [exact R|]. split; [rewrite K2, app_length; lia|]. split; [lia|]. split; [|split].
      * intros b ob Hb N. cbn in N. apply Nat.eqb_neq in N. rewrite K4 by auto. exact Hb.
      * intros k _ _. now rewrite K1.
      * intros k Hk _. rewrite K2. now rewrite app_nth1.
  - destruct (object s a) as [o|] eqn:G; [|discriminate].
    assert (La : (a < length (objects s))%nat) by (apply nth_error_Some; unfold object in G; congruence).
    unfold encode in H. destruct (f_kind o) eqn:K; cbn [fst] in H.
    { inv H. split; [exact S|]. split; [apply room_refl|]. repeat split; auto. }
    destruct (encode_scheme (fields s o)) as [b| |] eqn:E; cbn [fst] in H; inv H;
      [|split; [exact S|]; split; [apply room_refl|]; repeat split; auto..].
    match goal with |- sound ?x /\ _ => assert (R : room s x) by apply room_app end.
    split; [split|].
    + intros b' ob Hb. destruct (Nat.eq_dec b' a) as [-> |N].
      * unfold object in Hb. cbn in Hb. rewrite replace_same in Hb by exact La. inv Hb. pose proof (So _ _ G) as (A1 & A2 & A3 & A4).
        split; cbn [f_buf f_domain f_tablet f_buckets]; [|repeat split; try (eapply room_exists; eassumption); exact A4].
        cbn. apply andb_true_intro. rewrite app_length. cbn. split; [apply Nat.ltb_lt; lia|]. rewrite app_nth2, Nat.sub_diag by lia. cbn. apply Nat.leb_refl.
      * unfold object in Hb. cbn in Hb. rewrite replace_other in Hb by auto. eapply room_obj; [exact R|apply Nat.le_refl|]. eapply So; exact Hb.
    + intros l Hl x Hx. eapply room_exists; [exact R|]. eapply Sl; eauto.
    + split; [exact R|]. cbn [blocks lists objects]. rewrite replace_length. split; [lia|]. split; [lia|]. split; [|split].
      * intros b' ob Hb N. cbn in N. apply Nat.eqb_neq in N. unfold object. cbn. now rewrite replace_other.
      * intros k Hk _. now rewrite app_nth1.
      * auto.
  - destruct (object s a) as [o|] eqn:G; [|discriminate]. inv H. pose proof (So _ _ G) as (A1 & A2 & A3 & A4).
    unfold copy_of. destruct (f_buckets o) as [i|] eqn:F; cbn [slices_in].
    + set (n := SObj KScheme false None (f_domain o) (f_tablet o) (Some (length (lists s)))).
      match goal with |- sound ?x /\ _ => assert (R : room s x) by apply room_same end.
      split; [split|].
      * intros b ob Hb. unfold object in Hb. cbn in Hb.
        destruct (Nat.lt_ge_cases b (length (objects s))) as [L|L].
        -- rewrite nth_error_app1 in Hb by exact L. eapply room_obj; [exact R|cbn; rewrite app_length; lia|eapply So; exact Hb].
        -- rewrite nth_error_app2 in Hb by exact L. destruct (b - length (objects s))%nat as [|[|]]; inv Hb.
           repeat split; auto. cbn. rewrite app_length. cbn. lia.
      * intros l Hl x Hx. cbn in Hl. apply in_app_or in Hl. destruct Hl as [Hl|[<- |[]]]; [now apply (Sl l)|]. apply (Sl (nth i (lists s) [])); [now apply nth_In|exact Hx].
      * split; [exact R|]. cbn [blocks lists objects]. rewrite !app_length. split; [lia|]. split; [lia|]. split; [|split].
        -- intros b' ob Hb _. unfold object in *. cbn. rewrite nth_error_app1; [exact Hb|]. apply nth_error_Some. congruence.
        -- auto.
        -- intros k Hk _. now rewrite app_nth1.
    + set (n := SObj KScheme false None (f_domain o) (f_tablet o) None).
      match goal with |- sound ?x /\ _ => assert (R : room s x) by apply room_same end.
      split; [split|].
      * intros b ob Hb. unfold object in Hb. cbn in Hb.
        destruct (Nat.lt_ge_cases b (length (objects s))) as [L|L].
        -- rewrite nth_error_app1 in Hb by exact L. eapply room_obj; [exact R|cbn; lia|eapply So; exact Hb].
        -- rewrite nth_error_app2 in Hb by exact L. destruct (b - length (objects s))%nat as [|[|]]; inv Hb. repeat split; auto.
      * exact Sl.
      * split; [exact R|]. cbn [blocks lists objects]. rewrite !app_length. split; [lia|]. split; [lia|]. split; [|split]; auto.
        intros b' ob Hb _. unfold object in *. cbn. rewrite nth_error_app1; [exact Hb|]. apply nth_error_Some. congruence.
Qed.
Lemma no_schemes_sound : sound no_schemes.
Proof. split; [intros [|a] o H; discriminate|intros l []]. Qed.
Lemma calls_sound cs : forall s s', sound s -> after_calls s cs = Some s' -> sound s'.
Proof.
  induction cs as [|c cs IH]; intros s s' S H; cbn in H; [now inv H|]. destruct (after_call s c) as [s1|] eqn:E; [|discriminate].
  eapply IH; [|exact H]. eapply call_spec; eauto.
Qed.

(** ** What a call leaves alone *)
Lemma firstn_replace {A} n : forall (b : list A) i y, (n <= i)%nat -> firstn n (replace b i y) = firstn n b.
Proof. induction n as [|n IH]; intros [|x b] [|i] y H; cbn; try reflexivity; try lia. f_equal. apply IH. lia. Qed.
Lemma window_replace {A} (b : list A) : forall st n i y, (i < st \/ st + n <= i)%nat -> firstn n (skipn st (replace b i y)) = firstn n (skipn st b).
Proof.
  induction b as [|x b IH]; intros [|st] n i y H; cbn [skipn]; try (destruct i; reflexivity).
  - apply firstn_replace. lia.
  - destruct i as [|i]; [reflexivity|]. cbn [replace skipn]. apply IH. lia.
Qed.
Lemma bytes_kept s c s' x : sound s -> after_call s c = Some s' -> slice_exists s x = true ->
  (forall k i y, c = WriteByte k i y -> ~ covers x k i) -> bytes_in s' x = bytes_in s x.
Proof.
  intros S H E N. destruct x as [x|]; [|reflexivity]. pose proof (call_spec _ _ _ S H) as (_ & _ & _ & _ & _ & B & _).
  cbn in E. apply andb_prop in E. destruct E as (E & _). apply Nat.ltb_lt in E. cbn [bytes_in]. f_equal.
  assert (K : (exists i y, c = WriteByte (in_block x) i y) \/ forall i y, c <> WriteByte (in_block x) i y).
  { destruct c; try (right; congruence). destruct (Nat.eq_dec k (in_block x)) as [-> |M]; [left; eauto|right; congruence]. }
  destruct K as [(i & y & ->)|K]; [|now rewrite (B _ E K)]. specialize (N _ _ _ eq_refl). cbn [after_call] in H. cbn in N.
  destruct (nth_error (blocks s) (in_block x)) as [b|] eqn:Q; [|discriminate]. destruct (Nat.ltb i (length b)); [|discriminate]. inv H. cbn [blocks].
  rewrite replace_nth_same by exact E. pose proof (nth_error_nth _ _ [] Q) as Y. unfold bytes in *. rewrite Y. apply window_replace. lia.
Qed.
Lemma list_exists s o i : sound s -> f_buckets o = Some i -> forall x, In x (nth i (lists s) []) -> slice_exists s x = true.
Proof.
  intros (_ & L) _ x H. destruct (Nat.lt_ge_cases i (length (lists s))) as [I|I]; [apply (L (nth i (lists s) [])); [now apply nth_In|exact H]|].
  rewrite nth_overflow in H by exact I. destruct H.
Qed.
Lemma fields_kept s c s' o : sound s -> after_call s c = Some s' -> sound_obj s o ->
  (forall k i y, c = WriteByte k i y -> forall x, In x (held_slices s o) -> ~ covers x k i) ->
  (forall k i y, c = WriteBucket k i y -> f_buckets o <> Some k) -> fields s' o = fields s o.
Proof.
  intros S H (Eb & Ed & Et & Ek) N M. unfold held_slices in N.
  assert (Hd : bytes_in s' (f_domain o) = bytes_in s (f_domain o)) by (eapply bytes_kept; eauto; intros k i y C; eapply N; [exact C|left; reflexivity]).
  assert (Ht : bytes_in s' (f_tablet o) = bytes_in s (f_tablet o)) by (eapply bytes_kept; eauto; intros k i y C; eapply N; [exact C|right; left; reflexivity]).
  unfold fields. rewrite Hd, Ht. f_equal. destruct (f_buckets o) as [i|] eqn:F; [|reflexivity]. cbn [slices_in option_map]. f_equal.
  pose proof (call_spec _ _ _ S H) as (_ & _ & _ & _ & _ & _ & L). rewrite (L i Ek) by (intros j y C; now apply (M _ _ _ C)).
  apply map_ext_in. intros x Hx. eapply bytes_kept; eauto; [eapply list_exists; eauto|]. intros k j y C. eapply N; [exact C|]. right. right. exact Hx.
Qed.
Lemma fields_same s a b : f_domain a = f_domain b -> f_tablet a = f_tablet b -> f_buckets a = f_buckets b -> fields s a = fields s b.
Proof. unfold fields. now intros -> -> ->. Qed.
Lemma encode_object s a o : object s a = Some o -> exists o', object (fst (encode s a o)) a = Some o' /\
  f_kind o' = f_kind o /\ f_domain o' = f_domain o /\ f_tablet o' = f_tablet o /\ f_buckets o' = f_buckets o.
Proof.
  intros G. assert (La : (a < length (objects s))%nat) by (apply nth_error_Some; unfold object in G; congruence).
  unfold encode. destruct (f_kind o) eqn:K; [exists o; repeat split; auto|].
  destruct (encode_scheme (fields s o)); [|exists o; repeat split; auto..]. cbn [fst].
  eexists. split; [unfold object; cbn; now apply replace_same|]. repeat split; auto.
Qed.
Lemma undisturbed_call s c s' a : sound s -> after_call s c = Some s' -> ~ disturbs s a c -> (a < length (objects s))%nat ->
  shown s' a = shown s a.
Proof.
  intros S H N L. unfold shown. unfold disturbs in N. destruct (object s a) as [o|] eqn:G; [|apply nth_error_None in G; lia]. cbn [option_map].
  pose proof (call_spec _ _ _ S H) as (_ & _ & _ & _ & O & _ & _). pose proof S as (So & _). specialize (So _ _ G).
  assert (FK : fields s' o = fields s o).
  { eapply fields_kept; eauto; intros k i y ->; [intros x Hx C; apply N; eauto|exact N]. }
  destruct (own a c) eqn:W; [|rewrite (O _ _ G W); cbn; now f_equal].
  destruct c; cbn in W; try discriminate; apply Nat.eqb_eq in W; subst a0; [exfalso; apply N; reflexivity|].
  cbn in H. rewrite G in H. inv H. destruct (encode_object _ _ _ G) as (o' & G' & _ & A & B & C). rewrite G'. cbn. f_equal.
  rewrite <- FK. now apply fields_same.
Qed.
Lemma undisturbed_calls cs : forall s s' a, sound s -> after_calls s cs = Some s' -> undisturbed s a cs -> (a < length (objects s))%nat ->
  shown s' a = shown s a.
Proof.
  induction cs as [|c cs IH]; intros s s' a S H U L; cbn in H, U; [now inv H|]. destruct (after_call s c) as [s1|] eqn:E; [|discriminate].
  destruct U as (U & U'). pose proof (call_spec _ _ _ S E) as (S1 & _ & _ & L1 & _).
  rewrite (IH s1 s' a S1 H U') by lia. eapply undisturbed_call; eauto.
Qed.

(** ** No two schemes hold the same slice of buckets *)
Definition apart (s : state) : Prop := forall a b oa ob i, object s a = Some oa -> object s b = Some ob ->
  f_buckets oa = Some i -> f_buckets ob = Some i -> a = b.
Lemma objects_app s n a o : nth_error (objects s ++ [n]) a = Some o -> object s a = Some o \/ (a = length (objects s) /\ o = n).
Proof.
  destruct (Nat.lt_ge_cases a (length (objects s))) as [L|L]; [rewrite nth_error_app1 by exact L; auto|].
  rewrite nth_error_app2 by exact L. destruct (a - length (objects s))%nat as [|[|]] eqn:Q; intros H; inv H. right. split; [lia|reflexivity].
Qed.
Lemma decode_buckets s a o s' r o' : sound s -> object s a = Some o -> decode s a o = (s', r) -> object s' a = Some o' ->
  f_buckets o' = f_buckets o \/ f_buckets o' = Some (length (lists s)).
Proof.
  intros S G D G'. assert (La : (a < length (objects s))%nat) by (apply nth_error_Some; unfold object in G; congruence).
  assert (GO : forall n, object (set_object s a n) a = Some o' -> o' = n) by (intros n; unfold object; cbn; rewrite replace_same by exact La; congruence).
  unfold decode in D. destruct (f_kind o); [|inv D; left; congruence].
  destruct (f_buf o) as [b|]; [|inv D; left; congruence]. destruct (gcontent (bytes_in s (Some b))) as [|b0 rest]; [inv D; left; congruence|].
  destruct (read_slice b (b0 :: rest) 1) as [[d p1]| |]; [|inv D; left; try (apply GO in G'; subst o'; reflexivity); congruence..].
  destruct (read_slice b (b0 :: rest) p1) as [[t p2]| |]; [|inv D; left; apply GO in G'; subst o'; reflexivity..].
  destruct (let? r := go_from (b0 :: rest) p2 in decode_uvarint64 r) as [[n l]| |]; [|inv D; left; apply GO in G'; subst o'; reflexivity..].
  destruct (make_slices_ok n); [|inv D; left; apply GO in G'; subst o'; reflexivity].
  destruct (read_buckets b (b0 :: rest) [] (N.to_nat n) (p2 + l)) as [bs r']. inv D. right. unfold object in G'. cbn in G'. rewrite replace_same in G' by exact La. now inv G'.
Qed.
Lemma apart_call s c s' : sound s -> apart s -> after_call s c = Some s' -> apart s'.
Proof.
  intros S A H a b oa ob i Ga Gb Fa Fb. pose proof S as (So & _).
  assert (Old : forall x o j, object s x = Some o -> f_buckets o = Some j -> (j < length (lists s))%nat).
  { intros x o j G F. destruct (So _ _ G) as (_ & _ & _ & K). now rewrite F in K. }
  destruct c; cbn [after_call] in H.
  - inv H. eauto.
  - destruct (nth_error (blocks s) k); [|discriminate]. destruct (Nat.ltb i0 (length b0)); [|discriminate]. inv H. eauto.
  - destruct (nth_error (lists s) k); [|discriminate]. destruct (Nat.ltb i0 (length l) && slice_exists s x)%bool; [|discriminate]. inv H. eauto.
  - destruct (slice_exists s b0); [|discriminate]. inv H. apply objects_app in Ga. apply objects_app in Gb.
    destruct Ga as [Ga|(-> & ->)]; [|discriminate]. destruct Gb as [Gb|(-> & ->)]; [|discriminate]. eauto.
  - inv H. apply objects_app in Ga. apply objects_app in Gb.
    destruct Ga as [Ga|(-> & ->)]; [|discriminate]. destruct Gb as [Gb|(-> & ->)]; [|discriminate]. eauto.
  - destruct (object s a0) as [o|] eqn:G; [|discriminate]. destruct (decode s a0 o) as [s1 r] eqn:D. cbn in H. inv H.
    destruct (decode_spec _ _ _ _ _ S G D) as ((_ & _ & _ & K) & _).
    destruct (Nat.eq_dec a a0) as [-> |Na], (Nat.eq_dec b a0) as [-> |Nb]; auto.
    + rewrite K in Gb by exact Nb. destruct (decode_buckets _ _ _ _ _ _ S G D Ga) as [Q|Q]; rewrite Q in Fa; [eauto|].
      inv Fa. specialize (Old _ _ _ Gb Fb). lia.
    + rewrite K in Ga by exact Na. destruct (decode_buckets _ _ _ _ _ _ S G D Gb) as [Q|Q]; rewrite Q in Fb; [eauto|].
      inv Fb. specialize (Old _ _ _ Ga Fa). lia.
    + rewrite K in Ga, Gb by auto. eauto.
  - destruct (object s a0) as [o|] eqn:G; [|discriminate].
    assert (X : forall x ox, object s' x = Some ox -> exists ox', object s x = Some ox' /\ f_buckets ox = f_buckets ox').
    { intros x ox Gx. destruct (encode_object _ _ _ G) as (o' & G' & _ & _ & _ & B). inv H. destruct (Nat.eq_dec x a0) as [-> |N].
      - exists o. split; [exact G|]. congruence.
      - exists ox. split; [|reflexivity]. rewrite <- Gx. unfold encode. destruct (f_kind o); [reflexivity|].
        destruct (encode_scheme (fields s o)); try reflexivity. unfold object. cbn. now rewrite replace_other by auto. }
    destruct (X _ _ Ga) as (oa' & Ga' & Qa), (X _ _ Gb) as (ob' & Gb' & Qb). apply (A a b oa' ob' i); [exact Ga'|exact Gb'|congruence|congruence].
  - destruct (object s a0) as [o|] eqn:G; [|discriminate]. inv H. unfold copy_of in *.
    destruct (slices_in s (f_buckets o)) as [l|]; apply objects_app in Ga; apply objects_app in Gb;
      destruct Ga as [Ga|(-> & ->)], Gb as [Gb|(-> & ->)]; try discriminate; eauto; cbn [f_buckets] in *.
    + inv Fb. specialize (Old _ _ _ Ga Fa). lia.
    + inv Fa. specialize (Old _ _ _ Gb Fb). lia.
Qed.
Lemma reachable_good s : reachable s -> sound s /\ apart s.
Proof.
  intros (cs & H).
  assert (X : forall cs s s', sound s -> apart s -> after_calls s cs = Some s' -> sound s' /\ apart s').
  { clear. induction cs as [|c cs IH]; intros s s' S A H; cbn in H; [inv H; auto|]. destruct (after_call s c) as [s1|] eqn:E; [|discriminate].
    eapply IH; [| |exact H]; [eapply call_spec; eauto|eapply apart_call; eauto]. }
  eapply X; [apply no_schemes_sound| |exact H]. intros [|a] b oa ob i Ga; discriminate.
Qed.
