(** * Copies of values. *)
From Coq Require Import List NArith ZArith Bool Lia.
From Coq Require Import Strings.Byte.
From Verif Require Import Base BaseProofs EndianModel VarintModel VarintSpec VarintProofs KeyModel KeySpec KeyProofs
  ValueModel ValueSpec ValueProofs ValueAccess.
Import ListNotations.
Local Open Scope Z_scope.

(** ** Copy-constructing parsed values *)
Lemma copy_values_coherent cc : (forall x y e, coherent x e -> coherent y e -> cc x = cc y) ->
  forall n idx x y e acc, coherent x e -> coherent y e -> copy_values cc n idx x acc = copy_values cc n idx y acc.
Proof.
  intros Hcc. induction n as [|n IH]; intros idx x y e acc Cx Cy; [reflexivity|]. cbn [copy_values].
  destruct (value_at_coherent x e idx Cx) as [(b & c & xs & ms & Ee & fe & z & r & En & Fr & R & W & Vx & Cxs & Ez & Cz)|(Vx & Ve)];
  destruct (value_at_coherent y e idx Cy) as [(b' & c' & xs' & ms' & Ee' & fe' & z' & r' & En' & Fr' & R' & W' & Vx' & Cxs' & Ez' & Cz')|(Vx' & Ve')].
  - rewrite Vx, Vx'. cbn [rbind]. assert (fe' = fe) as -> by congruence.
    rewrite (Hcc z z' fe Cz Cz'). destruct (cc z'); cbn [rbind]; [|reflexivity..].
    apply (IH _ _ _ e).
    + rewrite Ee. econstructor; eassumption.
    + rewrite Ee'. econstructor; eassumption.
  - rewrite Ve' in Fr. discriminate.
  - rewrite Ve in Fr'. discriminate.
  - rewrite Vx, Vx'. reflexivity.
Qed.
Lemma copy_coherent fuel : forall x y e, coherent x e -> coherent y e -> mv_copy_construct fuel x = mv_copy_construct fuel y.
Proof.
  induction fuel as [|fuel IH]; intros x y e Cx Cy; [reflexivity|]. cbn [mv_copy_construct].
  pose proof (coherent_face _ _ Cx) as Fx. pose proof (coherent_face _ _ Cy) as Fy. rewrite <- Fy in Fx.
  destruct Cx as [b c|b c cells|b c xs ms r R W C].
  - inversion Cy. reflexivity.
  - inversion Cy. reflexivity.
  - assert (exists cells', mv_body y = BArr cells') as (cells' & Ey) by (inversion Cy; eexists; reflexivity).
    rewrite Ey. cbn [mv_body]. unfold face, mv_size in Fx. rewrite Ey in Fx. cbn [mv_body] in Fx.
    assert (length (map VCell xs ++ repeat VEmpty (length ms - length xs)) = length cells') as <- by (inversion Fx; lia).
    eapply copy_values_coherent; [exact IH| |exact Cy]. econstructor; eassumption.
Qed.

Lemma copy_values_fresh cc ms vs r : Forall2 (fun m v => cc m = Ok v) ms vs -> forall b c done acc e,
  reads c (done ++ ms) r ->
  copy_values cc (length ms) (N.of_nat (length done)) (MVal b c (BArr (map VCell done ++ repeat VEmpty (length ms)))) (VArr e acc) =
  Ok (VArr (fold_left (fun e v => e + value_est v) vs e) (acc ++ vs)).
Proof.
  induction 1 as [|m v ms vs E F IH]; intros b c done acc e R.
  - cbn [copy_values length fold_left]. now rewrite app_nil_r.
  - cbn [length copy_values]. change (repeat VEmpty (S (length ms))) with (repeat VEmpty (S (length (@nil mval))) ++ repeat VEmpty (length ms)).
    assert (reads c ((done ++ [m]) ++ ms) r) as R' by (rewrite <- app_assoc; exact R).
    destruct (reads_app _ _ _ _ R') as (r1 & R1 & _).
    rewrite (value_at_load b c done [] m r1 done (repeat VEmpty (length ms)) (N.of_nat (length done)) R1 eq_refl)
      by (rewrite Nat2N.id; simpl; lia).
    cbn [rbind app]. rewrite E. cbn [rbind va_append fold_left].
    replace (N.of_nat (length done) + 1)%N with (N.of_nat (length (done ++ [m]))) by (rewrite app_length; simpl; lia).
    rewrite (IH b c (done ++ [m])) by exact R'. now rewrite <- app_assoc.
Qed.

Lemma copy_wire :
  (forall t l, wire t l -> tplain t -> exists m v, (forall suf, new_std_value (l ++ suf) = Ok (m, zlen l)) /\
     says v t /\ plain v /\ forall fuel, (length l < fuel)%nat -> mv_copy_construct fuel m = Ok v) /\
  (forall ts c, wires ts c -> (forall t, In t ts -> tplain t) -> exists ms vs, (forall suf, reads (c ++ suf) ms suf) /\
     says_all vs ts /\ (forall v, In v vs -> plain v) /\
     forall fuel, (length c < fuel)%nat -> Forall2 (fun m v => mv_copy_construct fuel m = Ok v) ms vs) /\
  (forall t l, rwire t l -> True) /\ (forall ts l, rwires ts l -> True) /\ (forall o l, owire o l -> True).
Proof.
  apply wire_combined; auto.
  - intros m d lc lf F Em _. pose proof (prim_layout m d lc lf F Em) as L.
    exists (MVal (m :: lf ++ d) d BPrim), (VPrim (Some d)). split; [intros suf; now apply std_decode_layout|].
    split; [constructor|]. split; [constructor|]. intros [|fuel] H; [lia|]. reflexivity.
  - intros m ts c sc sf lc lf Hn Ws IH F1 F2 Em P.
    pose proof (arr_layout m ts c sc sf lc lf Hn F1 F2 Em) as L.
    assert (forall t, In t ts -> tplain t) as Hp by (inv P; assumption).
    destruct (IH Hp) as (ms & vs & R & S & Pl & C).
    assert (length vs = length ts) as Lv by (clear -S; induction S; simpl; auto).
    assert (length ms = length vs) as Lm by (specialize (C (Datatypes.S (length c)) ltac:(lia)); clear -C; induction C; simpl; auto).
    exists (MVal (m :: sf ++ lf ++ c) c (BArr (repeat VEmpty (length ts)))),
      (VArr (fold_left (fun e v => e + value_est v) vs 1) vs).
    split; [intros suf; now apply std_decode_layout|]. split.
    { constructor; [|assumption]. intros ->. destruct ts; [contradiction|discriminate]. }
    split; [now constructor|]. intros [|fuel] H; [lia|]. cbn [mv_copy_construct mv_body]. rewrite repeat_length.
    rewrite <- Lv, <- Lm. specialize (R []). rewrite app_nil_r in R.
    refine (copy_values_fresh _ ms vs [] (C fuel _) _ c [] [] 1 R).
    cbn [length] in H. rewrite !app_length in H. lia.
  - intros m ts c sc sf lc lf Hn Ws IH F1 F2 Em P. inv P.
  - intros _. exists [], []. split; [intros suf; constructor|]. split; [constructor|]. split; [intros v []|].
    intros; constructor.
  - intros t ts a b W IH Ws IHs P. destruct (IH (P t (or_introl eq_refl))) as (m & v & Pm & Sv & Pv & Cv).
    destruct (IHs (fun t' H => P t' (or_intror H))) as (ms & vs & R & S & Pl & C).
    exists (m :: ms), (v :: vs). split; [|split; [|split]].
    + intros suf. rewrite <- app_assoc. econstructor; [apply Pm|]. rewrite skipn_app_exact by (unfold zlen; lia). apply R.
    + constructor; assumption.
    + intros v' [<-|H]; auto.
    + intros fuel H. rewrite app_length in H. constructor; [apply Cv; lia|apply C; lia].
Qed.

(** ** Copies of constructed values *)
Scheme made_mind := Induction for made Sort Prop
with rmade_mind := Induction for rmade Sort Prop.
Combined Scheme made_combined from made_mind, rmade_mind.

Fixpoint copy_list (l : list value) : res (list value) :=
  match l with [] => Ok [] | x :: l' => let? y := value_copy x in let? r := copy_list l' in Ok (y :: r) end.
Fixpoint copy_rlist (l : list record) : res (list record) :=
  match l with [] => Ok [] | x :: l' => let? y := record_copy x in let? r := copy_rlist l' in Ok (y :: r) end.
Lemma value_copy_arr e l : value_copy (VArr e l) = let? l' := copy_list l in Ok (VArr 1 l').
Proof. reflexivity. Qed.
Lemma value_copy_recs e l : value_copy (VRecs e l) = let? l' := copy_rlist l in Ok (VRecs 1 l').
Proof. reflexivity. Qed.

Lemma std_reparse c e n : new_std_value c = Ok (e, n) -> new_std_value (mv_buf e) = Ok (e, n).
Proof.
  intros H. destruct (std_decode_inv _ _ _ H) as (l & ct & body & suf & -> & L & -> & ->). cbn [mv_buf].
  rewrite <- (app_nil_r l) at 1. now apply std_decode_layout.
Qed.
Lemma simple_reparse c b d n : new_simple_value c = Ok (VSimple b d, n) -> new_simple_value b = Ok (VSimple b d, n).
Proof.
  unfold new_simple_value. destruct (decode_varchar c) as [[d' n']| |] eqn:E; cbn [rbind]; try discriminate.
  destruct (go_upto c n') as [b'| |] eqn:G; cbn [rbind]; try discriminate. intros Q. inv Q.
  destruct (varchar_inside _ _ _ E) as [(-> & -> & ->)|(pre & rest & -> & U & ->)].
  - unfold go_upto in G. simpl in G. inv G. reflexivity.
  - rewrite app_assoc, go_upto_app in G. inv G.
    rewrite (decode_varchar_header _ d _ U). rewrite (decode_varchar_header _ _ _ U) in E.
    destruct (2 ^ 63 <=? _) eqn:B; [discriminate|].
    destruct (Z.ltb_spec (zlen d) (Z.of_N (N.of_nat (length d)))) as [C|C]; [unfold zlen in C; lia|].
    cbn [rbind]. rewrite Nat2N.id, firstn_all.
    replace (zlen pre + Z.of_N (N.of_nat (length d))) with (zlen (pre ++ d)) by (unfold zlen; rewrite app_length; lia).
    rewrite <- (app_nil_r (pre ++ d)) at 1. rewrite go_upto_app. reflexivity.
Qed.
Lemma simple_shape c v n : new_simple_value c = Ok (v, n) -> exists b d, v = VSimple b d.
Proof.
  unfold new_simple_value. destruct (decode_varchar c) as [[d' n']| |] eqn:E; cbn [rbind]; try discriminate.
  destruct (go_upto c n') as [b'| |] eqn:G; cbn [rbind]; try discriminate. intros Q. inv Q. eauto.
Qed.

Lemma encode_key_copy k k' : made_key k -> ikey_copy k = Ok k' -> key_part (Some k') = key_part (Some k).
Proof.
  intros M. destruct k as [|ks buf|e ks buf est]; cbn [ikey_copy].
  - intros Q. inv Q. reflexivity.
  - destruct M as (n & D). unfold new_mapped_key. cbn [gcontent]. rewrite D. cbn [rbind]. intros Q. inv Q. reflexivity.
  - intros Q. unfold key_part. destruct (Forall_Exists_dec (fun s => gcontent s <> []) (fun s =>
      match gcontent s as g return {g <> []} + {~ g <> []} with [] => right (fun H => H eq_refl) | x :: y => left (fun H => nil_cons (eq_sym H)) end) ks) as [F|F].
    + unfold new_key in Q. destruct (add_all_ok false [] None 1 ks F) as (est1 & Q1). rewrite Q1 in Q. inv Q. cbn [app ikey_is_empty].
      destruct ks; [reflexivity|]. cbn [key_encode]. destruct (encode_keys _); reflexivity.
    + unfold new_key in Q. rewrite add_all_panic in Q; [discriminate|].
      revert F. apply Exists_impl. intros s H. destruct (gcontent s); [reflexivity|]. destruct H. discriminate.
Qed.

Lemma copy_list_spec l : (forall v, In v l -> forall v', value_copy v = Ok v' ->
    value_encode v' = value_encode v /\ value_is_nil v' = value_is_nil v) ->
  forall l', copy_list l = Ok l' -> length l' = length l /\ encode_values l' = encode_values l.
Proof.
  induction l as [|v l IH]; intros H l' E; cbn [copy_list] in E.
  - inv E. auto.
  - destruct (value_copy v) as [v'| |] eqn:Ev; cbn [rbind] in E; try discriminate.
    destruct (copy_list l) as [r| |] eqn:El; cbn [rbind] in E; try discriminate. inv E.
    destruct (IH (fun x Hx => H x (or_intror Hx)) r eq_refl) as (L & Q).
    destruct (H v (or_introl eq_refl) v' Ev) as (Q' & _). cbn [length encode_values]. rewrite Q, Q'. auto.
Qed.
Lemma copy_rlist_spec l : (forall v, In v l -> forall v', record_copy v = Ok v' -> record_encode v' = record_encode v) ->
  forall l', copy_rlist l = Ok l' -> length l' = length l /\ encode_records l' = encode_records l.
Proof.
  induction l as [|v l IH]; intros H l' E; cbn [copy_rlist] in E.
  - inv E. auto.
  - destruct (record_copy v) as [v'| |] eqn:Ev; cbn [rbind] in E; try discriminate.
    destruct (copy_rlist l) as [r| |] eqn:El; cbn [rbind] in E; try discriminate. inv E.
    destruct (IH (fun x Hx => H x (or_intror Hx)) r eq_refl) as (L & Q).
    pose proof (H v (or_introl eq_refl) v' Ev) as Q'. cbn [length encode_records]. rewrite Q, Q'. auto.
Qed.
Lemma nil_of_len {A} (l l' : list A) : length l' = length l ->
  match l' with [] => true | _ => false end = match l with [] => true | _ => false end.
Proof. destruct l, l'; simpl; congruence. Qed.

Lemma copy_encode :
  (forall v, made v -> forall v', value_copy v = Ok v' -> value_encode v' = value_encode v /\ value_is_nil v' = value_is_nil v) /\
  (forall r, rmade r -> forall r', record_copy r = Ok r' -> record_encode r' = record_encode r).
Proof.
  apply made_combined.
  - intros d v' E. inv E. auto.
  - intros e l H IH v' E. rewrite value_copy_arr in E. destruct (copy_list l) as [l'| |] eqn:El; cbn [rbind] in E; try discriminate.
    inv E. destruct (copy_list_spec l IH l' El) as (L & Q). rewrite !value_encode_arr, L, Q. split; [reflexivity|].
    cbn [value_is_nil]. now apply nil_of_len.
  - intros e l H IH v' E. rewrite value_copy_recs in E. destruct (copy_rlist l) as [l'| |] eqn:El; cbn [rbind] in E; try discriminate.
    inv E. destruct (copy_rlist_spec l IH l' El) as (L & Q). rewrite !value_encode_recs, L, Q. split; [reflexivity|].
    cbn [value_is_nil]. now apply nil_of_len.
  - intros m c n e P B v' E. cbn [value_copy] in E. rewrite B, (std_reparse _ _ _ P) in E. inv E.
    split; [reflexivity|]. cbn [value_is_nil]. unfold mv_is_nil. now rewrite B.
  - intros c v n P v' E. destruct (simple_shape _ _ _ P) as (b & d & ->). cbn [value_copy] in E.
    rewrite (simple_reparse _ _ _ _ P) in E. inv E. auto.
  - intros e k v s t a b Hk Hv IHv Hs IHs r' E. cbn [record_copy] in E.
    destruct (match k with None => Ok None | Some k => _ end) as [k'| |] eqn:Ek; cbn [rbind] in E; try discriminate.
    destruct (match v with None => Ok None | Some k => _ end) as [v'| |] eqn:Ev; cbn [rbind] in E; try discriminate.
    destruct (match s with None => Ok None | Some k => _ end) as [s'| |] eqn:Es; cbn [rbind] in E; try discriminate.
    injection E as <-. rewrite !record_encode_parts.
    assert (key_part k' = key_part k) as ->.
    { destruct k as [k|]; [|inv Ek; reflexivity]. destruct (ikey_copy k) as [k1| |] eqn:Q; cbn [rbind] in Ek; inv Ek.
      apply encode_key_copy; auto. }
    assert (forall w, opt_part v' w = opt_part v w) as Hpv.
    { intros w. destruct v as [v|]; [|inv Ev; reflexivity]. destruct (value_copy v) as [v1| |] eqn:Q; cbn [rbind] in Ev; inv Ev.
      destruct (IHv v eq_refl v1 Q) as (Q1 & Q2). cbn [opt_part]. now rewrite Q1, Q2. }
    assert (forall w, opt_part s' w = opt_part s w) as Hps.
    { intros w. destruct s as [s|]; [|inv Es; reflexivity]. destruct (value_copy s) as [v1| |] eqn:Q; cbn [rbind] in Es; inv Es.
      destruct (IHs s eq_refl v1 Q) as (Q1 & Q2). cbn [opt_part]. now rewrite Q1, Q2. }
    now rewrite Hpv, Hps.
  - intros m c n e P B r' E. cbn [record_copy] in E. destruct (new_mapped_record (mr_buf m)) as [[m' k]| |]; inv E. reflexivity.
Qed.

(** Values without record lists can always be copied. *)
Lemma plain_copy v : plain v -> exists v', value_copy v = Ok v'.
Proof.
  induction 1 as [d|e l H IH]; [eexists; reflexivity|]. rewrite value_copy_arr.
  assert (exists l', copy_list l = Ok l') as (l' & ->); [|eexists; reflexivity].
  clear H. induction l as [|v l IHl]; [eexists; reflexivity|]. cbn [copy_list].
  destruct (IH v (or_introl eq_refl)) as (v' & ->). destruct (IHl (fun x Hx => IH x (or_intror Hx))) as (l' & ->).
  eexists. reflexivity.
Qed.
Lemma plain_made v : plain v -> made v.
Proof. induction 1; constructor; auto. Qed.
