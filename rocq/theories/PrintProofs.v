(** * Proofs about printed text. *)
From Coq Require Import String List NArith ZArith Bool Lia Permutation.
From Coq Require Import Strings.Byte.
From Verif Require Import Base KeyModel AVLModel AVLSpec HashModel PrintModel PrintSpec.
Import ListNotations.
Local Open Scope Z_scope.
Local Open Scope list_scope.

Definition widest : Z := 10000009.

Lemma n2b_b2n_small n : (n < 256)%N -> b2n (n2b n) = n.
Proof.
  intros H. unfold n2b, b2n. destruct (Byte.of_N (n mod 256)) as [b|] eqn:E.
  - apply Byte.to_of_N in E. rewrite E. now apply N.mod_small.
  - apply Byte.of_N_None_iff in E. pose proof (N.mod_lt n 256). lia.
Qed.
Lemma digit_of n : (n < 10)%N -> digit (n2b (48 + n)) = Some (Z.of_N n).
Proof.
  intros H. unfold digit. rewrite n2b_b2n_small by lia.
  replace (48 <=? Z.of_N (48 + n)) with true by (symmetry; apply Z.leb_le; lia).
  replace (Z.of_N (48 + n) <=? 57) with true by (symmetry; apply Z.leb_le; lia). cbn [andb]. f_equal. lia.
Qed.

Lemma div10_lt n fuel : (n < 10 ^ N.of_nat (S fuel))%N -> (n / 10 < 10 ^ N.of_nat fuel)%N.
Proof.
  intros H. apply N.div_lt_upper_bound; [lia|]. rewrite Nat2N.inj_succ, N.pow_succ_r' in H. exact H.
Qed.
Lemma dec_fuel n : (n < 10 ^ N.of_nat (S (N.to_nat (N.size n))))%N.
Proof.
  rewrite Nat2N.inj_succ, N2Nat.id, N.pow_succ_r'. pose proof (N.size_gt n) as H.
  assert (G : (2 ^ N.size n <= 10 ^ N.size n)%N) by (apply N.pow_le_mono_l; lia).
  pose proof (N.pow_nonzero 10 (N.size n)). lia.
Qed.

(** ** Numbers in a format *)
Lemma scan_digits fuel : forall n minus zero f args, (n < 10 ^ N.of_nat fuel)%N -> (0 < n)%N -> Z.of_N n <= widest ->
  printf (digits fuel n ++ f) (Verb minus zero None SFlags) args = printf f (Verb minus zero (Some (Z.of_N n)) SWidth) args.
Proof.
  unfold widest. induction fuel as [|fuel IH]; intros n minus zero f args H P W.
  - cbn in H. lia.
  - cbn [digits]. destruct (n <? 10)%N eqn:E.
    + apply N.ltb_lt in E. cbn [app printf]. rewrite digit_of by exact E.
      replace (Z.of_N n =? 0) with false by (symmetry; apply Z.eqb_neq; lia). reflexivity.
    + apply N.ltb_ge in E. rewrite <- app_assoc. pose proof (N.div_mod' n 10) as M. pose proof (N.mod_lt n 10 ltac:(lia)) as L.
      rewrite IH; [|apply div10_lt; exact H|lia|lia]. cbn [app printf]. rewrite digit_of by exact L.
      replace (1000000 <? Z.of_N (n / 10)) with false by (symmetry; apply Z.ltb_ge; lia).
      repeat f_equal. lia.
Qed.
Lemma scan_too_wide fuel : forall n minus zero f args, (n < 10 ^ N.of_nat fuel)%N -> widest < Z.of_N n ->
  printf (digits fuel n ++ f) (Verb minus zero None SFlags) args = str "%!(NOVERB)" ++ extra args.
Proof.
  unfold widest. induction fuel as [|fuel IH]; intros n minus zero f args H W.
  - cbn in H. lia.
  - cbn [digits]. destruct (n <? 10)%N eqn:E.
    + apply N.ltb_lt in E. lia.
    + apply N.ltb_ge in E. rewrite <- app_assoc. pose proof (N.div_mod' n 10) as M. pose proof (N.mod_lt n 10 ltac:(lia)) as L.
      destruct (Z.leb_spec (Z.of_N (n / 10)) widest) as [C|C]; unfold widest in C.
      * rewrite scan_digits; [|apply div10_lt; exact H|lia|exact C]. cbn [app printf]. rewrite digit_of by exact L.
        replace (1000000 <? Z.of_N (n / 10)) with true by (symmetry; apply Z.ltb_lt; lia). reflexivity.
      * apply IH; [apply div10_lt; exact H|exact C].
Qed.

Lemma scan_percent f args : sprintf (str "%" ++ f) args = printf f (Verb false false None SFlags) args.
Proof. reflexivity. Qed.
Lemma scan_minus f args : printf (x2d :: f) (Verb false false None SFlags) args = printf f (Verb true false None SFlags) args.
Proof. reflexivity. Qed.
Lemma scan_zero f args : printf (x30 :: f) (Verb false false None SFlags) args = printf f (Verb false true None SFlags) args.
Proof. reflexivity. Qed.

(** The leading verb of every Print. *)
Lemma indent_verb indent c f args : Z.abs indent <= widest -> c = x76 \/ c = x73 ->
  sprintf (str "%" ++ dec indent ++ c :: f) (AStr [] :: args) = blanks (Z.abs indent) ++ printf f Plain args.
Proof.
  intros W C. rewrite scan_percent. unfold dec, dec_N.
  assert (F : forall minus zero w st, st = SWidth \/ w = None ->
    printf (c :: f) (Verb minus zero w st) (AStr [] :: args) =
    (match w with None => [] | Some w => repeat (if zero then x30 else x20) (Z.to_nat w) end) ++ printf f Plain args).
  { intros minus zero w st D. assert (N1 : digit c = None) by (destruct C as [-> | ->]; reflexivity).
    assert (N2 : byte_eqb c x25 = false) by (destruct C as [-> | ->]; reflexivity).
    assert (N3 : byte_eqb c x2d = false) by (destruct C as [-> | ->]; reflexivity).
    assert (N4 : byte_eqb c x2e = false) by (destruct C as [-> | ->]; reflexivity).
    cbn [printf]. rewrite N1, N2, N3, N4. unfold padded. cbn [arg_text].
    destruct w as [w|]; [|destruct st; reflexivity].
    change (zlen (@nil byte)) with 0. rewrite Z.sub_0_r. cbn [app].
    destruct st, minus; rewrite ?app_nil_r; reflexivity. }
  destruct (indent <? 0) eqn:E.
  - apply Z.ltb_lt in E. cbn [app]. rewrite scan_minus.
    rewrite scan_digits; [|apply dec_fuel|lia|lia]. rewrite F by now left. unfold blanks. f_equal. f_equal. lia.
  - apply Z.ltb_ge in E. destruct (Z.eq_dec indent 0) as [->|N].
    + change (digits (S (N.to_nat (N.size (Z.to_N 0)))) (Z.to_N 0)) with [x30]. cbn [app]. rewrite scan_zero.
      rewrite F by now right. reflexivity.
    + rewrite scan_digits; [|apply dec_fuel|lia|lia]. rewrite F by now left. unfold blanks. do 2 f_equal. lia.
Qed.
Lemma indent_too_wide indent f args : widest < Z.abs indent ->
  sprintf (str "%" ++ dec indent ++ f) args = str "%!(NOVERB)" ++ extra args.
Proof.
  intros W. rewrite scan_percent. unfold dec, dec_N. destruct (indent <? 0) eqn:E.
  - apply Z.ltb_lt in E. cbn [app]. rewrite scan_minus.
    apply scan_too_wide; [apply dec_fuel|lia].
  - apply Z.ltb_ge in E. apply scan_too_wide; [apply dec_fuel|lia].
Qed.

(** ** Texts without returns *)
Lemma one_line_app a b : one_line (a ++ b) <-> one_line a /\ one_line b.
Proof. unfold one_line. rewrite in_app_iff. tauto. Qed.
Lemma one_line_nil : one_line [].
Proof. now intros []. Qed.
Lemma one_line_blanks n : one_line (blanks n).
Proof. unfold one_line, blanks. intros H. apply repeat_spec in H. discriminate. Qed.
Lemma n2b_not_nl n : (10 < n)%N -> (n < 256)%N -> n2b n <> x0a.
Proof. intros H L E. apply (f_equal b2n) in E. rewrite n2b_b2n_small in E by exact L. change (b2n x0a) with 10%N in E. lia. Qed.
Lemma one_line_byte c : c <> x0a -> one_line [c].
Proof. intros H [E|[]]. now apply H. Qed.
Lemma one_line_cons c l : c <> x0a -> one_line l -> one_line (c :: l).
Proof. intros H G [E|E]; [now apply H|now apply G]. Qed.
Lemma one_line_digits fuel : forall n, one_line (digits fuel n).
Proof.
  induction fuel as [|fuel IH]; intros n; cbn [digits]; [apply one_line_nil|].
  destruct (n <? 10)%N eqn:E.
  - apply N.ltb_lt in E. apply one_line_byte, n2b_not_nl; lia.
  - apply one_line_app. split; [apply IH|]. pose proof (N.mod_lt n 10 ltac:(lia)). apply one_line_byte, n2b_not_nl; lia.
Qed.
Lemma one_line_dec z : one_line (dec z).
Proof.
  unfold dec, dec_N. destruct (z <? 0); [|apply one_line_digits].
  apply one_line_cons; [discriminate|apply one_line_digits].
Qed.
Lemma one_line_spaced l : Forall one_line l -> one_line (spaced l).
Proof.
  induction l as [|x l IH]; intros F; [apply one_line_nil|]. inversion F as [|y m Hx Fl]; subst. cbn [spaced].
  destruct l as [|y l]; [exact Hx|]. apply one_line_app. split; [exact Hx|]. apply one_line_app.
  split; [|now apply IH]. apply one_line_byte. discriminate.
Qed.
Lemma one_line_bytes_text b : one_line (bytes_text b).
Proof.
  unfold bytes_text. rewrite !one_line_app. split; [apply one_line_byte; discriminate|]. split; [|apply one_line_byte; discriminate].
  apply one_line_spaced. apply Forall_map, Forall_forall. intros. apply one_line_dec.
Qed.
Lemma hex_digit_not_nl n : (n < 16)%N -> hex_digit n <> x0a.
Proof. intros H. unfold hex_digit. apply n2b_not_nl; destruct (n <? 10)%N eqn:E; lia. Qed.
Lemma one_line_hex_text b : one_line (hex_text b).
Proof.
  induction b as [|c b IH]; [apply one_line_nil|]. cbn [hex_text flat_map app].
  assert (L : (b2n c < 256)%N). { unfold b2n. pose proof (Byte.to_N_bounded c). lia. }
  apply one_line_cons. { apply hex_digit_not_nl. apply N.div_lt_upper_bound; lia. }
  apply one_line_cons. { apply hex_digit_not_nl. apply N.mod_lt. lia. }
  exact IH.
Qed.

(** ** Lines *)
Lemma is_lines_nil : is_lines [] [].
Proof. split; [reflexivity|constructor]. Qed.
Lemma is_lines_cons l out ls : one_line l -> is_lines out ls -> is_lines (l ++ x0a :: out) (l :: ls).
Proof.
  intros H [-> F]. split; [|now constructor]. cbn [map concat]. rewrite <- app_assoc. reflexivity.
Qed.
Lemma is_lines_app o1 l1 o2 l2 : is_lines o1 l1 -> is_lines o2 l2 -> is_lines (o1 ++ o2) (l1 ++ l2).
Proof.
  intros [-> F] [-> G]. split; [|apply Forall_app; now split]. rewrite map_app, concat_app. reflexivity.
Qed.

(** ** The formats *)
Lemma fmt_tree a b c d e :
  sprintf (str "k=%v, v=%v, b=%d, l=[%v, %v]") [a; b; c; d; e] =
  text "k=" ++ arg_text a ++ text ", v=" ++ arg_text b ++ text ", b=" ++ arg_text c ++ text ", l=[" ++ arg_text d ++ text ", " ++ arg_text e ++ text "]".
Proof. reflexivity. Qed.
Lemma fmt_tree_nl a b c d e :
  printf (str "k=%v, v=%v, b=%d, l=[%v, %v]" ++ nl) Plain [a; b; c; d; e] =
  (text "k=" ++ arg_text a ++ text ", v=" ++ arg_text b ++ text ", b=" ++ arg_text c ++ text ", l=[" ++ arg_text d ++ text ", " ++ arg_text e ++ text "]")
  ++ [x0a].
Proof. rewrite <- !app_assoc. reflexivity. Qed.
Lemma fmt_line a : printf (str "%s" ++ nl) Plain [a] = arg_text a ++ [x0a].
Proof. reflexivity. Qed.
Lemma fmt_avl a b : sprintf (str "AVLTree: s=%d, %v") [a; b] = text "AVLTree: s=" ++ arg_text a ++ text ", " ++ arg_text b.
Proof. unfold sprintf. rewrite <- (app_nil_r (arg_text b)). reflexivity. Qed.
Lemma fmt_chain a b c :
  sprintf (str "k=%v, v=%v, l=[%v]") [a; b; c] =
  text "k=" ++ arg_text a ++ text ", v=" ++ arg_text b ++ text ", l=[" ++ arg_text c ++ text "]".
Proof. reflexivity. Qed.
Lemma fmt_hash a b c d e :
  sprintf (str "Hash: size=%d, capacity=%d, seed=%d, lf=%.2f, m=%.2f, ") [a; b; c; d; e] =
  text "Hash: size=" ++ arg_text a ++ text ", capacity=" ++ arg_text b ++ text ", seed=" ++ arg_text c ++ text ", lf=" ++ arg_text d ++
  text ", m=" ++ arg_text e ++ text ", ".
Proof. reflexivity. Qed.

(** ** Trees *)
Section Tree.
  Context {K V : Type} (ktext : K -> farg) (vtext : V -> farg).
  Let kt (k : K) : list byte := arg_text (ktext k).
  Let vt (v : V) : list byte := arg_text (vtext v).

  Lemma child_key_text (t : tree K V) : arg_text (child_key ktext t) = tree_label kt t.
  Proof using Type. clear. destruct t; reflexivity. Qed.
  Lemma tree_text_line k v b (l r : tree K V) : tree_text ktext vtext k v b l r = tree_line kt vt dec (Node k v b l r).
  Proof using Type. clear. unfold tree_text. rewrite fmt_tree, !child_key_text. reflexivity. Qed.

  Fixpoint entries_one_line (t : tree K V) : Prop :=
    match t with
    | Leaf => True
    | Node k v _ l r => one_line (kt k) /\ one_line (vt v) /\ entries_one_line l /\ entries_one_line r
    end.
  Lemma entries_one_line_spec (t : tree K V) :
    entries_one_line t <-> (forall k v, In (k, v) (inorder t) -> one_line (kt k) /\ one_line (vt v)).
  Proof using Type.
    clear. induction t as [|k v b l IHl r IHr]; cbn [entries_one_line inorder].
    - split; [intros _ ? ? []|trivial].
    - rewrite IHl, IHr. split.
      + intros (A & B & C & D) k' v' H. apply in_app_iff in H. destruct H as [H|[H|H]]; [now apply C| |now apply D].
        injection H as <- <-. now split.
      + intros H. pose proof (H k v) as G. rewrite in_app_iff in G. destruct G as [A B]; [right; now left|].
        split; [exact A|]. split; [exact B|].
        split; intros k' v' G; apply (H k' v'); apply in_app_iff; [now left|right; now right].
  Qed.
  Lemma tree_label_one_line (t : tree K V) : entries_one_line t -> one_line (tree_label kt t).
  Proof using Type. clear. destruct t as [|k v b l r]; cbn; [|tauto]. intros _ H. cbn in H. repeat (destruct H as [H|H]; [discriminate|]). exact H. Qed.
  Ltac closed := match goal with |- one_line ?t => let H := fresh in intros H; cbn in H; repeat (destruct H as [H|H]; [discriminate|]); exact H end.
  Lemma tree_line_one_line (t : tree K V) : entries_one_line t -> one_line (tree_line kt vt dec t).
  Proof using Type.
    clear. destruct t as [|k v b l r]; [intros _; cbn [tree_line]; closed|]. cbn [entries_one_line tree_line]. intros (A & B & C & D).
    repeat (apply one_line_app; split); try assumption; try closed; try apply one_line_dec; now apply tree_label_one_line.
  Qed.

  Lemma tree_print_lines (t : tree K V) : forall d indent, entries_one_line t ->
    - widest <= indent + 4 * d -> indent + 4 * (d + Z.of_nat (height t)) <= widest + 4 ->
    is_lines (tree_print ktext vtext t (indent + 4 * d)) (map (tree_row kt vt dec indent) (preorder d t)).
  Proof using Type.
    clear. induction t as [|k v b l IHl r IHr]; intros d indent H A B; [apply is_lines_nil|].
    pose proof (tree_line_one_line _ H) as HL. cbn [entries_one_line] in H. destruct H as (_ & _ & Hl & Hr). cbn [height] in B.
    cbn [tree_print preorder map]. change (str "vk=%v, v=%v, b=%d, l=[%v, %v]" ++ nl) with (x76 :: str "k=%v, v=%v, b=%d, l=[%v, %v]" ++ nl).
    rewrite indent_verb; [|unfold widest in *; lia|now left]. rewrite fmt_tree_nl, !child_key_text.
    rewrite <- !app_assoc. rewrite (app_assoc (blanks _)). cbn [app].
    replace (indent + 4 * d + 4) with (indent + 4 * (d + 1)) by lia.
    match goal with |- is_lines ?o (?r0 :: ?rs) => assert (E : o = r0 ++ x0a :: tree_print ktext vtext l (indent + 4 * (d + 1)) ++ tree_print ktext vtext r (indent + 4 * (d + 1))) end.
    { unfold tree_row. cbn [fst snd tree_line]. rewrite <- !app_assoc. reflexivity. }
    rewrite E. apply is_lines_cons.
    - unfold tree_row. apply one_line_app. split; [apply one_line_blanks|exact HL].
    - rewrite map_app. apply is_lines_app; [apply IHl|apply IHr]; try assumption; lia.
  Qed.

  Lemma tree_rows_entries (t : tree K V) : forall d indent i0, i0 < indent + 4 * d -> 0 <= i0 -> exists es, Permutation es (inorder t) /\
    Forall2 (shows_entry kt vt i0) (map (tree_row kt vt dec indent) (preorder d t)) es.
  Proof using Type.
    clear. induction t as [|k v b l IHl r IHr]; intros d indent i0 A P; [exists []; split; [apply perm_nil|constructor]|].
    destruct (IHl (d + 1) indent i0) as (el & Pl & Fl); [lia|exact P|]. destruct (IHr (d + 1) indent i0) as (er & Pr & Fr); [lia|exact P|].
    exists ((k, v) :: el ++ er). split.
    - cbn [inorder]. apply Permutation_cons_app. now apply Permutation_app.
    - cbn [preorder map]. rewrite map_app. constructor; [|now apply Forall2_app].
      unfold tree_row. cbn [fst snd tree_line]. exists (Z.abs (indent + 4 * d)). eexists. split; [lia|].
      change (text ", b=") with (text ", " ++ text "b="). rewrite <- app_assoc. reflexivity.
  Qed.
End Tree.

Ltac closed := match goal with |- one_line ?t => let H := fresh in intros H; cbn in H; repeat (destruct H as [H|H]; [discriminate|]); exact H end.

Lemma zlen_nonneg {A} (l : list A) : 0 <= zlen l.
Proof. unfold zlen. lia. Qed.

Lemma one_line_commas l : Forall one_line l -> one_line (commas l).
Proof.
  induction l as [|x l IH]; intros F; [apply one_line_nil|]. inversion F as [|y m Hx Fl]; subst. cbn [commas].
  destruct l as [|y l]; [exact Hx|]. apply one_line_app. split; [exact Hx|]. apply one_line_app.
  split; [closed|now apply IH].
Qed.
Lemma one_line_extra args : Forall (fun a => one_line (extra_arg a)) args -> one_line (extra args).
Proof.
  intros F. destruct args as [|a args]; [apply one_line_nil|]. unfold extra.
  apply one_line_app. split; [closed|]. apply one_line_app. split; [|closed].
  apply one_line_commas. apply Forall_map. exact F.
Qed.
Lemma extra_arg_one_line a : one_line (extra_arg a) -> one_line (arg_text a).
Proof.
  destruct a as [s|z| |typ t]; cbn [extra_arg arg_text]; rewrite ?one_line_app; try tauto.
Qed.

Section Tree2.
  Context {K V : Type} (ktext : K -> farg) (vtext : V -> farg).
  Let kt (k : K) : list byte := arg_text (ktext k).
  Let vt (v : V) : list byte := arg_text (vtext v).

  Definition avl_header (size : Z) (root : tree K V) : list byte :=
    text "AVLTree: s=" ++ dec size ++ text ", " ++ tree_line kt vt dec root.
  Lemma avl_text_header (t : avl K V) : avl_text ktext vtext t = avl_header (avl_size t) (avl_root t).
  Proof using Type.
    clear. unfold avl_text, avl_header. destruct (avl_root t) as [|k v b l r]; rewrite fmt_avl; cbn [arg_text]; [reflexivity|].
    rewrite (tree_text_line ktext vtext). reflexivity.
  Qed.
  Lemma avl_header_one_line size root : entries_one_line ktext vtext root -> one_line (avl_header size root).
  Proof using Type.
    clear. intros H. unfold avl_header. apply one_line_app. split; [closed|]. apply one_line_app. split; [apply one_line_dec|].
    apply one_line_app. split; [closed|]. now apply (tree_line_one_line ktext vtext).
  Qed.

  Lemma avl_print_lines (t : avl K V) indent : entries_one_line ktext vtext (avl_root t) ->
    - widest <= indent -> indent + 4 * Z.of_nat (height (avl_root t)) <= widest ->
    is_lines (avl_print ktext vtext t indent)
      ((blanks (Z.abs indent) ++ avl_header (avl_size t) (avl_root t)) :: map (tree_row kt vt dec (indent + 4)) (preorder 0 (avl_root t))).
  Proof using Type.
    clear. intros H A B. unfold avl_print. change (str "v%s" ++ nl) with (x76 :: str "%s" ++ nl).
    rewrite indent_verb; [|unfold widest in *; lia|now left]. rewrite fmt_line, avl_text_header. cbn [arg_text].
    rewrite <- !app_assoc. rewrite (app_assoc (blanks _)). cbn [app]. apply is_lines_cons.
    - apply one_line_app. split; [apply one_line_blanks|now apply avl_header_one_line].
    - replace (indent + 4) with (indent + 4 + 4 * 0) at 1 by lia. apply (tree_print_lines ktext vtext); [exact H|unfold widest in *; lia|lia].
  Qed.

  (** An indent that is too wide. *)
  Context (Hk : forall k, one_line (extra_arg (ktext k))) (Hv : forall v, one_line (extra_arg (vtext v))).
  Lemma child_key_extra (t : tree K V) : one_line (extra_arg (child_key ktext t)).
  Proof using Hk. destruct t; cbn; [closed|apply Hk]. Qed.
  Lemma extra_int z : one_line (extra_arg (AInt z)).
  Proof using Type. clear. cbn [extra_arg]. apply one_line_app. split; [closed|apply one_line_dec]. Qed.
  Lemma extra_nil_string : one_line (extra_arg (AStr [])).
  Proof using Type. clear. closed. Qed.
  Lemma tree_print_wide (t : tree K V) : forall indent, widest < indent -> one_line (tree_print ktext vtext t indent).
  Proof using Hk Hv.
    induction t as [|k v b l IHl r IHr]; intros indent W; [apply one_line_nil|]. cbn [tree_print].
    rewrite indent_too_wide by (unfold widest in *; lia). apply one_line_app. split.
    - apply one_line_app. split; [closed|]. apply one_line_extra.
      repeat constructor; try apply extra_nil_string; try apply Hk; try apply Hv; try apply extra_int; apply child_key_extra.
    - apply one_line_app. split; [apply IHl|apply IHr]; lia.
  Qed.
  Lemma avl_print_wide (t : avl K V) indent : widest < indent -> one_line (avl_print ktext vtext t indent).
  Proof using Hk Hv.
    intros W. unfold avl_print. apply one_line_app. split; [|apply tree_print_wide; lia].
    rewrite indent_too_wide by (unfold widest in *; lia). apply one_line_app. split; [closed|]. apply one_line_extra.
    constructor; [apply extra_nil_string|]. constructor; [|constructor]. cbn [extra_arg]. apply one_line_app. split; [closed|].
    rewrite avl_text_header. apply avl_header_one_line. apply entries_one_line_spec. intros k v _.
    split; apply extra_arg_one_line; [apply Hk|apply Hv].
  Qed.
End Tree2.

(** ** Hash tables *)
Section Chain.
  Context {K V : Type} (ktext : K -> farg) (vtext : V -> farg).
  Let kt (k : K) : list byte := arg_text (ktext k).
  Let vt (v : V) : list byte := arg_text (vtext v).
  Definition chain_one_line (c : list (K * V)) : Prop := forall k v, In (k, v) c -> one_line (kt k) /\ one_line (vt v).

  Lemma chain_text_line k v (c : list (K * V)) : chain_text ktext vtext k v c = chain_line kt vt (k, v) c.
  Proof using Type. clear. destruct c as [|[k' v'] c]; unfold chain_text; rewrite fmt_chain; reflexivity. Qed.
  Lemma chain_line_one_line k v (c : list (K * V)) : chain_one_line ((k, v) :: c) -> one_line (chain_line kt vt (k, v) c).
  Proof using Type.
    clear. intros H. destruct (H k v) as [A B]; [now left|]. unfold chain_line. cbn [fst snd].
    repeat (apply one_line_app; split); try assumption; try closed.
    destruct c as [|[k' v'] c]; [closed|]. cbn [fst]. apply (H k' v'). right; now left.
  Qed.
  Lemma chain_print_lines (c : list (K * V)) : forall d indent, chain_one_line c ->
    - widest <= indent + 4 * d -> indent + 4 * (d + zlen c) <= widest + 4 ->
    is_lines (chain_print ktext vtext c (indent + 4 * d)) (map (chain_row kt vt indent) (nested d c)).
  Proof using Type.
    clear. induction c as [|[k v] c IH]; intros d indent H A B; [apply is_lines_nil|].
    pose proof (chain_line_one_line _ _ _ H) as HL. cbn [chain_print nested map].
    assert (L : zlen ((k, v) :: c) = zlen c + 1) by (unfold zlen; cbn [length]; lia). pose proof (zlen_nonneg c).
    change (str "s%s" ++ nl) with (x73 :: str "%s" ++ nl).
    rewrite indent_verb; [|unfold widest in *; lia|now right]. rewrite fmt_line, chain_text_line. cbn [arg_text].
    rewrite <- !app_assoc. rewrite (app_assoc (blanks _)). cbn [app].
    replace (indent + 4 * d + 4) with (indent + 4 * (d + 1)) by lia. apply is_lines_cons.
    - apply one_line_app. split; [apply one_line_blanks|exact HL].
    - apply IH; [|lia|lia]. intros k' v' G. apply H. now right.
  Qed.
  Lemma chain_rows_entries (c : list (K * V)) : forall d indent i0, i0 < indent + 4 * d -> 0 <= i0 ->
    Forall2 (shows_entry kt vt i0) (map (chain_row kt vt indent) (nested d c)) c.
  Proof using Type.
    clear. induction c as [|[k v] c IH]; intros d indent i0 A P; [constructor|]. cbn [nested map]. constructor; [|apply IH; lia].
    cbn [chain_row]. exists (Z.abs (indent + 4 * d)). eexists. split; [lia|]. unfold chain_line.
    change (text ", l=[") with (text ", " ++ text "l=["). rewrite <- app_assoc. reflexivity.
  Qed.

  Definition hash_header (size cap seed : Z) (lf m : list byte) : list byte :=
    text "Hash: size=" ++ dec size ++ text ", capacity=" ++ dec cap ++ text ", seed=" ++ dec seed ++ text ", lf=" ++ lf ++ text ", m=" ++ m ++ text ", ".
  Lemma hash_text_header (h : hash K V) seed lf m : hash_text h seed lf m = hash_header (h_size h) (zlen (h_array h)) seed lf m.
  Proof using Type. clear. unfold hash_text. rewrite fmt_hash. reflexivity. Qed.
  Lemma hash_header_one_line size cap seed lf m : one_line lf -> one_line m -> one_line (hash_header size cap seed lf m).
  Proof using Type.
    clear. intros A B. unfold hash_header. repeat (apply one_line_app; split); try assumption; try closed; apply one_line_dec.
  Qed.
  Lemma buckets_lines (arr : list (list (K * V))) indent : chain_one_line (concat arr) -> - widest <= indent ->
    indent + 4 * zlen (concat arr) <= widest + 4 ->
    is_lines (flat_map (fun c => chain_print ktext vtext c indent) arr) (flat_map (fun c => map (chain_row kt vt indent) (nested 0 c)) arr).
  Proof using Type.
    clear. intros H A. induction arr as [|c arr IH]; intros B; [apply is_lines_nil|]. cbn [flat_map]. cbn [concat] in *.
    assert (L : zlen (c ++ concat arr) = zlen c + zlen (concat arr)) by (unfold zlen; rewrite app_length; lia).
    pose proof (zlen_nonneg c). pose proof (zlen_nonneg (concat arr)). apply is_lines_app.
    - replace indent with (indent + 4 * 0) at 1 by lia. apply chain_print_lines; [|lia|lia]. intros k v G. apply H. apply in_app_iff. now left.
    - apply IH; [|lia]. intros k v G. apply H. apply in_app_iff. now right.
  Qed.
  Lemma buckets_entries (arr : list (list (K * V))) indent i0 : i0 < indent -> 0 <= i0 ->
    Forall2 (shows_entry kt vt i0) (flat_map (fun c => map (chain_row kt vt indent) (nested 0 c)) arr) (concat arr).
  Proof using Type.
    clear. intros A P. induction arr as [|c arr IH]; [constructor|]. cbn [flat_map concat]. apply Forall2_app; [|exact IH].
    apply chain_rows_entries; lia.
  Qed.
  Lemma hash_print_lines (h : hash K V) seed lf m indent : chain_one_line (concat (h_array h)) -> one_line lf -> one_line m ->
    - widest <= indent -> indent + 4 * zlen (concat (h_array h)) <= widest -> 
    is_lines (hash_print ktext vtext h seed lf m indent)
      ((blanks (Z.abs indent) ++ hash_header (h_size h) (zlen (h_array h)) seed lf m)
       :: flat_map (fun c => map (chain_row kt vt (indent + 4)) (nested 0 c)) (h_array h)).
  Proof using Type.
    clear. intros H Hl Hm A B. unfold hash_print. change (str "s%s" ++ nl) with (x73 :: str "%s" ++ nl).
    pose proof (zlen_nonneg (concat (h_array h))).
    rewrite indent_verb; [|unfold widest in *; lia|now right]. rewrite fmt_line, hash_text_header. cbn [arg_text].
    rewrite <- !app_assoc. rewrite (app_assoc (blanks _)). cbn [app]. apply is_lines_cons.
    - apply one_line_app. split; [apply one_line_blanks|now apply hash_header_one_line].
    - apply buckets_lines; [exact H|lia|lia].
  Qed.

  Context (Hk : forall k, one_line (extra_arg (ktext k))) (Hv : forall v, one_line (extra_arg (vtext v))).
  Lemma chain_one_line_all (c : list (K * V)) : chain_one_line c.
  Proof using Hk Hv. intros k v _. split; apply extra_arg_one_line; [apply Hk|apply Hv]. Qed.
  Lemma chain_print_wide (c : list (K * V)) : forall indent, widest < indent -> one_line (chain_print ktext vtext c indent).
  Proof using Hk Hv.
    induction c as [|[k v] c IH]; intros indent W; [apply one_line_nil|]. cbn [chain_print].
    rewrite indent_too_wide by (unfold widest in *; lia). apply one_line_app. split; [|apply IH; lia].
    apply one_line_app. split; [closed|]. apply one_line_extra. constructor; [closed|]. constructor; [|constructor].
    cbn [extra_arg]. apply one_line_app. split; [closed|]. rewrite chain_text_line. apply chain_line_one_line, chain_one_line_all.
  Qed.
  Lemma hash_print_wide (h : hash K V) seed lf m indent : one_line lf -> one_line m -> widest < indent ->
    one_line (hash_print ktext vtext h seed lf m indent).
  Proof using Hk Hv.
    intros Hl Hm W. unfold hash_print. apply one_line_app. split.
    - rewrite indent_too_wide by (unfold widest in *; lia).
      apply one_line_app. split; [closed|]. apply one_line_extra. constructor; [closed|]. constructor; [|constructor].
      cbn [extra_arg]. apply one_line_app. split; [closed|]. rewrite hash_text_header. now apply hash_header_one_line.
    - induction (h_array h) as [|c arr IH]; [apply one_line_nil|]. cbn [flat_map]. apply one_line_app.
      split; [apply chain_print_wide; lia|exact IH].
  Qed.
End Chain.

(** ** Numbers *)
Lemma number_app ds : forall acc es, number acc (ds ++ es) = number (number acc ds) es.
Proof. induction ds as [|c ds IH]; intros acc es; [reflexivity|]. cbn [app number]. apply IH. Qed.
Lemma digits_number fuel : forall n, (n < 10 ^ N.of_nat fuel)%N -> number 0 (digits fuel n) = Z.of_N n.
Proof.
  induction fuel as [|fuel IH]; intros n H; [cbn in H; assert (n = 0%N) by lia; subst; reflexivity|]. cbn [digits].
  destruct (n <? 10)%N eqn:E.
  - apply N.ltb_lt in E. cbn [number]. rewrite n2b_b2n_small by lia. lia.
  - apply N.ltb_ge in E. pose proof (N.div_mod' n 10) as M. pose proof (N.mod_lt n 10 ltac:(lia)) as L.
    rewrite number_app, IH by (apply div10_lt; exact H). cbn [number]. rewrite n2b_b2n_small by lia. lia.
Qed.
Lemma digits_digits fuel : forall n, Forall decimal_digit (digits fuel n).
Proof.
  assert (G : forall n, (n < 10)%N -> decimal_digit (n2b (48 + n))).
  { intros n H. unfold decimal_digit. rewrite n2b_b2n_small by lia. lia. }
  induction fuel as [|fuel IH]; intros n; [constructor|]. cbn [digits]. destruct (n <? 10)%N eqn:E.
  - apply N.ltb_lt in E. constructor; [now apply G|constructor].
  - apply Forall_app. split; [apply IH|]. constructor; [apply G, N.mod_lt; lia|constructor].
Qed.
Lemma digits_head fuel : forall n, (n < 10 ^ N.of_nat fuel)%N -> (0 < n)%N ->
  exists c ds, digits fuel n = c :: ds /\ c <> x30.
Proof.
  induction fuel as [|fuel IH]; intros n H P; [cbn in H; lia|]. cbn [digits]. destruct (n <? 10)%N eqn:E.
  - apply N.ltb_lt in E. do 2 eexists. split; [reflexivity|]. intros C. apply (f_equal b2n) in C.
    rewrite n2b_b2n_small in C by lia. change (b2n x30) with 48%N in C. lia.
  - apply N.ltb_ge in E. pose proof (N.div_mod' n 10) as M. pose proof (N.mod_lt n 10 ltac:(lia)) as L.
    destruct (IH (n / 10)%N) as (c & ds & -> & N1); [apply div10_lt; exact H|lia|]. exists c. eexists. split; [reflexivity|exact N1].
Qed.
Lemma dec_numeral z : numeral (dec z) z.
Proof.
  unfold dec, dec_N. destruct (z <? 0) eqn:E.
  - apply Z.ltb_lt in E. destruct (digits_head _ (Z.to_N (- z)) (dec_fuel _)) as (c & ds & Hd & Hc); [lia|].
    exists true, (digits (S (N.to_nat (N.size (Z.to_N (- z))))) (Z.to_N (- z))). split; [reflexivity|]. split; [apply digits_digits|].
    rewrite (digits_number _ _ (dec_fuel _)). split; [lia|]. rewrite Hd. split; [discriminate|]. split; [intros; lia|].
    intros G. injection G as G. now elim Hc.
  - apply Z.ltb_ge in E. exists false, (digits (S (N.to_nat (N.size (Z.to_N z)))) (Z.to_N z)). split; [reflexivity|].
    split; [apply digits_digits|]. rewrite (digits_number _ _ (dec_fuel _)). split; [lia|].
    destruct (Z.eq_dec z 0) as [->|N0].
    + split; [discriminate|]. split; [discriminate|]. reflexivity.
    + destruct (digits_head _ (Z.to_N z) (dec_fuel _)) as (c & ds & Hd & Hc); [lia|]. rewrite Hd.
      split; [discriminate|]. split; [discriminate|]. intros G. injection G as G. now elim Hc.
Qed.

(** ** Keys *)
Lemma fmt_subkey_print a b : sprintf (str "    subKey[%d] = %v" ++ nl) [a; b] =
  (text "    subKey[" ++ arg_text a ++ text "] = " ++ arg_text b) ++ [x0a].
Proof. rewrite <- !app_assoc. reflexivity. Qed.
Lemma fmt_subkey_text a b : sprintf (nl ++ str "    subKey[%d] = %v") [a; b] =
  [x0a] ++ text "    subKey[" ++ arg_text a ++ text "] = " ++ arg_text b.
Proof. unfold sprintf. rewrite <- (app_nil_r (arg_text b)). reflexivity. Qed.
Lemma fmt_buf_print a : sprintf (str "    buf = %v" ++ nl) [a] = (text "    buf = " ++ arg_text a) ++ [x0a].
Proof. rewrite <- !app_assoc. reflexivity. Qed.
Lemma fmt_buf_text a : sprintf (nl ++ str "    buf = %v") [a] = [x0a] ++ text "    buf = " ++ arg_text a.
Proof. unfold sprintf. rewrite <- (app_nil_r (arg_text a)). reflexivity. Qed.

Lemma sub_key_line_one_line p : one_line (sub_key_line dec bytes_text p).
Proof.
  unfold sub_key_line. apply one_line_app; split; [closed|]. apply one_line_app; split; [apply one_line_dec|].
  apply one_line_app; split; [closed|apply one_line_bytes_text].
Qed.
Lemma subkeys_print_lines ks : forall i,
  is_lines (subkeys_print i ks) (map (sub_key_line dec bytes_text) (numbered i (map gcontent ks))).
Proof.
  induction ks as [|k ks IH]; intros i; [apply is_lines_nil|]. cbn [subkeys_print map numbered]. rewrite fmt_subkey_print, <- app_assoc.
  apply is_lines_cons; [|apply IH]. apply (sub_key_line_one_line (i, gcontent k)).
Qed.
Lemma subkeys_text_lines ks : forall i,
  subkeys_text i ks = flat_map (fun p => x0a :: sub_key_line dec bytes_text p) (numbered i (map gcontent ks)).
Proof.
  induction ks as [|k ks IH]; intros i; [reflexivity|]. cbn [subkeys_text map numbered flat_map]. rewrite fmt_subkey_text, IH. reflexivity.
Qed.

(** ** Tries *)
Lemma pnode_induction (P : pnode -> Prop)
  (H : forall mapped key data off buf kids,
     (forall m, kids = Some m -> forall k c, In (k, Some c) (inorder (avl_root m)) -> P c) -> P (PNode mapped key data off buf kids)) :
  forall n, P n.
Proof.
  fix IH 1. intros [mapped key data off buf kids]. apply H. intros m E k c G. destruct kids as [[root size]|]; [|discriminate].
  injection E as <-. cbn [avl_root] in G. revert G.
  exact ((fix walk (t : tree gslice (option pnode)) : In (k, Some c) (inorder t) -> P c :=
     match t return In (k, Some c) (inorder t) -> P c with
     | Leaf => fun G => match G with end
     | Node k0 c0 b l r => fun G =>
         match in_app_or _ _ _ G with
         | or_introl G => walk l G
         | or_intror (or_introl G) =>
             match c0 as c0 return (k0, c0) = (k, Some c) -> P c with
             | Some c1 => fun G => match f_equal snd G in _ = o return match o with Some c2 => P c2 | None => True end with eq_refl => IH c1 end
             | None => fun G => match f_equal snd G in _ = o return match o with Some c2 => P c2 | None => True end with eq_refl => Logic.I end
             end G
         | or_intror (or_intror G) => walk r G
         end
     end) root).
Qed.

Inductive built : pnode -> Prop :=
| built_node mapped key data off buf m :
    (forall k c, In (k, c) (inorder (avl_root m)) -> exists n, c = Some n /\ built n) -> built (PNode mapped key data off buf (Some m)).

(** The nodes below a node with their depth: a node, then its children in ascending order, each with its own. *)
Fixpoint visit (d : Z) (n : pnode) : list (Z * pnode) :=
  match n with
  | PNode _ _ _ _ _ kids =>
      (d, n) :: match kids with
                | None => []
                | Some m =>
                    (fix go (t : tree gslice (option pnode)) : list (Z * pnode) :=
                       match t with
                       | Leaf => []
                       | Node _ c _ l r => go l ++ (match c with Some c => visit (d + 1) c | None => [] end) ++ go r
                       end) (avl_root m)
                end
  end.
Definition node_line (n : pnode) : list byte :=
  match n with
  | PNode mapped key data off buf kids =>
      text (if mapped then "MappedTrieNode: k=" else "TrieNode: k=") ++ hex_text (gcontent key) ++ text ", child=[" ++
      dec (match kids with Some m => avl_size m | None => 0 end) ++ text "], data=" ++ arg_text data ++ text ", off=" ++ dec off ++
      text ", buf=" ++ bytes_text (firstn 16 (gcontent buf)) ++ text " "
  end.
Definition node_row (indent : Z) (p : Z * pnode) : list byte := blanks (Z.abs (indent + 4 * fst p)) ++ node_line (snd p).
Definition node_data (n : pnode) : farg := match n with PNode _ _ data _ _ _ => data end.

Lemma node_text_line mapped key data off buf m :
  node_text (PNode mapped key data off buf (Some m)) = Ok (node_line (PNode mapped key data off buf (Some m))).
Proof. cbn [node_text]. apply f_equal. destruct mapped; reflexivity. Qed.
Lemma node_line_one_line n : one_line (arg_text (node_data n)) -> one_line (node_line n).
Proof.
  destruct n as [mapped key data off buf kids]. cbn [node_data node_line]. intros H.
  apply one_line_app; split; [destruct mapped; closed|]. apply one_line_app; split; [apply one_line_hex_text|].
  apply one_line_app; split; [closed|]. apply one_line_app; split; [apply one_line_dec|].
  apply one_line_app; split; [closed|]. apply one_line_app; split; [exact H|].
  apply one_line_app; split; [closed|]. apply one_line_app; split; [apply one_line_dec|].
  apply one_line_app; split; [closed|]. apply one_line_app; split; [apply one_line_bytes_text|closed].
Qed.

Lemma fmt_plain_s a : printf (str "%s") Plain [a] = arg_text a.
Proof. rewrite <- (app_nil_r (arg_text a)). reflexivity. Qed.

Lemma node_print_rows n : forall d indent, built n -> (forall d' m, In (d', m) (visit d n) -> Z.abs (indent + 4 * d') <= widest) ->
  node_print n (indent + 4 * d) = Ok (flat_map (node_row indent) (visit d n)).
Proof.
  induction n as [mapped key data off buf kids IH] using pnode_induction. intros d indent B W.
  inversion B as [mapped' key' data' off' buf' m C]; subst. specialize (IH m eq_refl).
  cbn [node_print]. rewrite node_text_line. cbn [rbind visit] in *.
  match goal with |- rbind (?w _) _ = Ok (flat_map _ (_ :: ?g _)) =>
    assert (G : forall t, (forall k c, In (k, c) (inorder t) -> In (k, c) (inorder (avl_root m))) -> incl (g t) (g (avl_root m)) ->
                  w t = Ok (flat_map (node_row indent) (g t))) end.
  { induction t as [|k c b l IHl r IHr]; intros S I0; [reflexivity|]. cbn [inorder] in S.
    rewrite IHl; [|intros k' c' Q; apply S; apply in_app_iff; now left|intros x Q; apply I0; apply in_app_iff; now left]. cbn [rbind].
    destruct (C k c) as (n & -> & Bn). { apply S. apply in_app_iff. right; now left. }
    assert (R : node_print n (indent + 4 * d + 4) = Ok (flat_map (node_row indent) (visit (d + 1) n))).
    { replace (indent + 4 * d + 4) with (indent + 4 * (d + 1)) by lia. apply (IH k n); [|exact Bn|].
      - apply S. apply in_app_iff. right; now left.
      - intros d' n' Q. apply (W d' n'). right. apply I0. apply in_app_iff. right. apply in_app_iff. now left. }
    rewrite R. cbn [rbind]. rewrite IHr; [|intros k' c' Q; apply S; apply in_app_iff; right; now right|
        intros x Q; apply I0; apply in_app_iff; right; apply in_app_iff; now right].
    cbn [rbind]. rewrite !flat_map_app. reflexivity. }
  rewrite G; [|trivial|apply incl_refl]. cbn [rbind flat_map]. apply f_equal. f_equal.
  change (str "s%s") with (x73 :: str "%s"). rewrite indent_verb; [|apply (W d _ (or_introl eq_refl))|now right].
  rewrite fmt_plain_s. reflexivity.
Qed.

Lemma trie_line_one indent s f : Z.abs indent <= widest ->
  sprintf (str "%" ++ dec indent ++ str "%s" ++ f) [AStr []; AStr s] = text "%s" ++ printf f Plain [AStr []; AStr s].
Proof.
  intros W. rewrite scan_percent. unfold dec, dec_N. change (str "%s" ++ f) with (x25 :: x73 :: f).
  assert (F : forall minus zero w st args, printf (x25 :: x73 :: f) (Verb minus zero w st) args = x25 :: x73 :: printf f Plain args).
  { intros minus zero w st args. destruct st; reflexivity. }
  destruct (indent <? 0) eqn:E.
  - apply Z.ltb_lt in E. cbn [app]. rewrite scan_minus.
    rewrite scan_digits; [|apply dec_fuel|lia|lia]. rewrite F. reflexivity.
  - apply Z.ltb_ge in E. destruct (Z.eq_dec indent 0) as [->|N].
    + change (digits (S (N.to_nat (N.size (Z.to_N 0)))) (Z.to_N 0)) with [x30]. cbn [app]. rewrite scan_zero, F. reflexivity.
    + rewrite scan_digits; [|apply dec_fuel|lia|lia]. rewrite F. reflexivity.
Qed.
