(** * Final theorems about Print and ToString (C107, C108). *)
From Coq Require Import String List NArith ZArith Bool Lia Permutation.
From Coq Require Import Strings.Byte.
From Verif Require Import Base BaseProofs KeyModel AVLModel AVLSpec MapSpec MapProofs AVLProofs AVLHistory AVLProps HashModel HashSpec HashProofs HashProps
  PrintModel PrintSpec PrintProofs.
Import ListNotations.
Local Open Scope Z_scope.
Local Open Scope list_scope.

Lemma avl_run_size {K V} (equalb : K -> K -> res bool) (compare : K -> K -> res Z) (ops : list (mop K V)) : forall t t' os,
  avl_run equalb compare t ops = Ok (t', os) -> avl_size t' <= avl_size t + zlen ops.
Proof.
  unfold zlen. induction ops as [|op ops IH]; intros t t' os H; cbn [avl_run] in H.
  - injection H as <- <-. cbn [length]. lia.
  - destruct (avl_step equalb compare t op) as [[t1 o]| |] eqn:E; cbn [rbind] in H; try discriminate.
    destruct (avl_run equalb compare t1 ops) as [[t2 os']| |] eqn:E2; cbn [rbind] in H; try discriminate. injection H as <- <-.
    apply IH in E2. cbn [length]. assert (avl_size t1 <= avl_size t + 1); [|lia]. clear - E. destruct op as [k v|k|k]; cbn [avl_step] in E.
    + unfold avl_put in E. destruct (avl_root t); [injection E as <- _; cbn; lia|].
      destruct (putR equalb compare k v _) as [[[r' n] ?]| |]; cbn [rbind] in E; try discriminate.
      injection E as <- _. cbn [avl_size]. destruct n; lia.
    + unfold avl_remove in E. destruct (removeR equalb compare k _) as [[[r' n] ?]| |]; cbn [rbind] in E; try discriminate.
      injection E as <- _. cbn [avl_size]. destruct n; lia.
    + destruct (avl_get equalb compare t k); cbn [rbind] in E; try discriminate. injection E as <- _. lia.
Qed.
Lemma hash_run_size {K V} (equalb : K -> K -> res bool) (hashf : K -> res N) pol (ops : list (mop K V)) : forall t t' os,
  hash_run equalb hashf pol t ops = Ok (t', os) -> h_size t' <= h_size t + zlen ops.
Proof.
  unfold zlen. induction ops as [|op ops IH]; intros t t' os H; cbn [hash_run] in H.
  - injection H as <- <-. cbn [length]. lia.
  - destruct (hash_step equalb hashf pol t op) as [[t1 o]| |] eqn:E; cbn [rbind] in H; try discriminate.
    destruct (hash_run equalb hashf pol t1 ops) as [[t2 os']| |] eqn:E2; cbn [rbind] in H; try discriminate. injection H as <- <-.
    apply IH in E2. cbn [length]. assert (h_size t1 <= h_size t + 1); [|lia]. clear - E. destruct op as [k v|k|k]; cbn [hash_step] in E.
    + unfold hash_put in E. destruct (slot hashf (h_array t) k) as [i| |]; cbn [rbind] in E; try discriminate.
      destruct (bucket (h_array t) i) as [c| |]; cbn [rbind] in E; try discriminate.
      destruct (chain_replace equalb c k v) as [[[? ?]|]| |]; cbn [rbind] in E; try discriminate.
      * injection E as <- _. cbn [h_size]. lia.
      * destruct (maybe_resize hashf _ _) as [arr| |]; cbn [rbind] in E; try discriminate. injection E as <- _. cbn [h_size]. lia.
    + unfold hash_remove in E. destruct (slot hashf (h_array t) k) as [i| |]; cbn [rbind] in E; try discriminate.
      destruct (bucket (h_array t) i) as [c| |]; cbn [rbind] in E; try discriminate.
      destruct (chain_remove equalb c k) as [[[? ?]|]| |]; cbn [rbind] in E; try discriminate.
      * destruct (maybe_resize hashf _ _) as [arr| |]; cbn [rbind] in E; try discriminate. injection E as <- _. cbn [h_size]. lia.
      * injection E as <- _. lia.
    + destruct (hash_get equalb hashf t k); cbn [rbind] in E; try discriminate. injection E as <- _. lia.
Qed.
Lemma height_small {K V} (t : tree K V) : balanced t -> zlen (inorder t) < 2 ^ 63 -> Z.of_nat (height t) < 127.
Proof.
  intros B L. apply avl_height_bound in B. apply inj_le in B. rewrite Nat2Z.inj_pow, Nat2Z.inj_mul in B.
  change (Z.of_nat 2) with 2 in B. rewrite (Nat2Z.inj_succ (length (inorder t))) in B. unfold zlen in L. destruct (Z.lt_ge_cases (Z.of_nat (height t)) 127) as [C|C]; [exact C|].
  assert (G : 2 ^ 127 <= 2 ^ Z.of_nat (height t)) by (apply Z.pow_le_mono_r; lia).
  assert (N0 : 0 <= Z.of_nat (length (inorder t))) by lia.
  remember (Z.of_nat (length (inorder t))) as n eqn:En. clear En. assert (H : Z.succ n * Z.succ n <= 2 ^ 63 * 2 ^ 63) by (apply Z.mul_le_mono_nonneg; lia).
  change (2 ^ 63 * 2 ^ 63) with (2 ^ 126) in H. assert (2 ^ 126 < 2 ^ 127) by reflexivity. lia.
Qed.

(** ** C107: trees and hash tables *)

(** The numbers in the lines. *)
Theorem C107_numbers : (forall z, numeral (dec z) z) /\ (forall a b, dec a = dec b -> a = b).
Proof.
  split; [exact dec_numeral|]. intros a b H. destruct (dec_numeral a) as (na & da & Ea & Fa & -> & Na & Ga & _).
  destruct (dec_numeral b) as (nb & db & Eb & Fb & -> & Nb & Gb & _). rewrite H, Eb in Ea.
  assert (M : forall d : list byte, Forall decimal_digit (x2d :: d) -> False).
  { intros d F. inversion F as [|x l Hx Fl]; subst. unfold decimal_digit in Hx. change (b2n x2d) with 45%N in Hx. lia. }
  destruct na, nb.
  - injection Ea as ->. reflexivity.
  - subst db. now apply M in Fb.
  - subst da. now apply M in Fa.
  - now subst.
Qed.
Print Assumptions C107_numbers.

(** A width before %s and %v: the operand is filled up with blanks in front, or behind when the width is negative. *)
Theorem C107_padding : forall (w : Z) (t : list byte) (v : byte), v = x73 \/ v = x76 -> 0 < Z.abs w <= 10000009 ->
  sprintf (text "%" ++ dec w ++ [v]) [AStr t] =
    (if w <? 0 then t ++ blanks (- w - zlen t) else blanks (w - zlen t) ++ t).
Proof.
  intros w t c C W. change (text "%") with (str "%"). rewrite scan_percent. unfold dec, dec_N.
  assert (F : forall minus w, printf [c] (Verb minus false (Some w) SWidth) [AStr t] = if minus then t ++ blanks (w - zlen t) else blanks (w - zlen t) ++ t).
  { intros minus z. assert (N1 : digit c = None) by (destruct C as [-> | ->]; reflexivity).
    assert (N2 : byte_eqb c x25 = false) by (destruct C as [-> | ->]; reflexivity).
    assert (N4 : byte_eqb c x2e = false) by (destruct C as [-> | ->]; reflexivity).
    cbn [printf]. rewrite N1, N2, N4. unfold padded, blanks. cbn [arg_text extra app]. rewrite !app_nil_r. reflexivity. }
  destruct (w <? 0) eqn:E.
  - apply Z.ltb_lt in E. cbn [app]. rewrite scan_minus. rewrite scan_digits; [|apply dec_fuel|lia|unfold widest; lia]. rewrite F. do 3 f_equal. lia.
  - apply Z.ltb_ge in E. rewrite scan_digits; [|apply dec_fuel|lia|unfold widest; lia]. rewrite F. do 3 f_equal. lia.
Qed.
Print Assumptions C107_padding.
Example C107_padding_applies : sprintf (text "%4s") [AStr (text "ab")] = text "  ab" /\ sprintf (text "%-4v") [AStr (text "ab")] = text "ab  ".
Proof. split; vm_compute; reflexivity. Qed.

(** Every tree: its Print is one line for the tree and one for every node, parents first, four more blanks per level. *)
Theorem C107_tree_lines : forall {K V : Type} (ktext : K -> farg) (vtext : V -> farg) (t : avl K V) (indent : Z),
  (forall k v, In (k, v) (inorder (avl_root t)) -> one_line (arg_text (ktext k)) /\ one_line (arg_text (vtext v))) ->
  - 10000009 <= indent -> indent + 4 * Z.of_nat (height (avl_root t)) <= 10000009 ->
  let kt := fun k => arg_text (ktext k) in let vt := fun v => arg_text (vtext v) in
  avl_text ktext vtext t = text "AVLTree: s=" ++ dec (avl_size t) ++ text ", " ++ tree_line kt vt dec (avl_root t) /\
  one_line (avl_text ktext vtext t) /\
  is_lines (avl_print ktext vtext t indent)
    ((blanks (Z.abs indent) ++ avl_text ktext vtext t) :: map (tree_row kt vt dec (indent + 4)) (preorder 0 (avl_root t))).
Proof.
  intros K V ktext vtext t indent H A B kt vt. apply (entries_one_line_spec ktext vtext) in H.
  rewrite avl_text_header. split; [reflexivity|]. split; [now apply avl_header_one_line|]. now apply avl_print_lines.
Qed.
Print Assumptions C107_tree_lines.

(** Every history of a sorted map: every entry it holds is shown exactly once, one line each, below a line with their number. *)
Theorem C107_tree_history : forall {K V : Type} (equalb : K -> K -> res bool) (compare : K -> K -> res Z)
    (D : K -> Prop) (eqv lt : K -> K -> Prop) (ops : list (mop K V)) (ktext : K -> farg) (vtext : V -> farg) (indent : Z),
  total_keys D eqv lt equalb compare -> Forall (fun op => D (op_key op)) ops -> zlen ops < 2 ^ 63 ->
  (forall k v, stored eqv ops k v -> one_line (arg_text (ktext k)) /\ one_line (arg_text (vtext v))) ->
  0 <= indent <= 9999500 ->
  exists t os l es top rows, avl_run equalb compare new_avl ops = Ok (t, os) /\
    lists_entries eqv ops l /\ Permutation es l /\
    is_lines (avl_print ktext vtext t indent) ((blanks indent ++ text "AVLTree: s=" ++ dec (zlen l) ++ text ", " ++ top) :: rows) /\
    Forall2 (shows_entry (fun k => arg_text (ktext k)) (fun v => arg_text (vtext v)) indent) rows es.
Proof.
  intros K V equalb compare D eqv lt ops ktext vtext indent TK F L H R.
  destruct (avl_history equalb compare D eqv lt TK ops F) as (t & os & Hr & Hi & _).
  pose proof (avl_inv_lists equalb compare D eqv lt TK ops t Hi) as Hl. pose proof Hi as (Hd & Ha & Hb & Hs & Hh).
  apply bal_balanced in Hb. pose proof (avl_run_size _ _ _ _ _ _ Hr) as Sz. cbn [new_avl avl_size] in Sz.
  pose proof (height_small (avl_root t) Hb ltac:(lia)) as Ht.
  destruct (C107_tree_lines ktext vtext t indent) as (E & _ & P); [|lia|lia|].
  { intros k v G. apply H. now apply Hh. }
  destruct (tree_rows_entries ktext vtext (avl_root t) 0 (indent + 4) indent) as (es & Pe & Fe); [lia|lia|].
  exists t, os, (inorder (avl_root t)), es. do 2 eexists. split; [exact Hr|]. split; [exact Hl|]. split; [exact Pe|]. split.
  - rewrite E, Hs in P. rewrite Z.abs_eq in P by lia. exact P.
  - exact Fe.
Qed.
Print Assumptions C107_tree_history.

(** Every hash table: its Print is one line for the table and one for every entry, buckets in order, four more blanks per link. *)
Theorem C107_hash_lines : forall {K V : Type} (ktext : K -> farg) (vtext : V -> farg) (h : hash K V) (seed : Z) (lf m : list byte) (indent : Z),
  (forall k v, In (k, v) (concat (h_array h)) -> one_line (arg_text (ktext k)) /\ one_line (arg_text (vtext v))) ->
  one_line lf -> one_line m -> - 10000009 <= indent -> indent + 4 * zlen (concat (h_array h)) <= 10000009 ->
  let kt := fun k => arg_text (ktext k) in let vt := fun v => arg_text (vtext v) in
  hash_text h seed lf m =
    text "Hash: size=" ++ dec (h_size h) ++ text ", capacity=" ++ dec (zlen (h_array h)) ++ text ", seed=" ++ dec seed ++
    text ", lf=" ++ lf ++ text ", m=" ++ m ++ text ", " /\
  one_line (hash_text h seed lf m) /\
  is_lines (hash_print ktext vtext h seed lf m indent)
    ((blanks (Z.abs indent) ++ hash_text h seed lf m)
     :: flat_map (fun c => map (chain_row kt vt (indent + 4)) (nested 0 c)) (h_array h)).
Proof.
  intros K V ktext vtext h seed lf m indent H Hl Hm A B kt vt. rewrite hash_text_header. split; [reflexivity|].
  split; [now apply hash_header_one_line|]. now apply hash_print_lines.
Qed.
Print Assumptions C107_hash_lines.

Theorem C107_hash_history : forall {K V : Type} (equalb : K -> K -> res bool) (hashf : K -> res N)
    (pol : policy) (c : Z) (D : K -> Prop) (eqv : K -> K -> Prop) (ops : list (mop K V))
    (ktext : K -> farg) (vtext : V -> farg) (seed : Z) (lf m : list byte) (indent : Z),
  hash_keys D eqv equalb hashf -> Forall (fun op => D (op_key op)) ops -> modest pol -> c < 2 ^ 32 ->
  (forall k v, stored eqv ops k v -> one_line (arg_text (ktext k)) /\ one_line (arg_text (vtext v))) -> one_line lf -> one_line m ->
  0 <= indent -> indent + 4 * zlen ops <= 10000009 ->
  exists t os l more rows, hash_run equalb hashf pol (new_hash c) ops = Ok (t, os) /\ lists_entries eqv ops l /\
    is_lines (hash_print ktext vtext t seed lf m indent) ((blanks indent ++ text "Hash: size=" ++ dec (zlen l) ++ more) :: rows) /\
    Forall2 (shows_entry (fun k => arg_text (ktext k)) (fun v => arg_text (vtext v)) indent) rows l.
Proof.
  intros K V equalb hashf pol c D eqv ops ktext vtext seed lf m indent HK F Hp Hc H Hl Hm A B.
  destruct (hash_run_ok equalb hashf pol D eqv HK ops (modest_ok _ Hp) [] (new_hash c) F (hash_inv_new hashf D eqv c)
    (new_hash_cap c Hc)) as (t & os & Hr & Hi & _).
  cbn [app] in Hi. apply inv_lists in Hi. destruct Hi as (Hi & Hs). pose proof (hash_run_size _ _ _ _ _ _ _ Hr) as Sz. cbn [new_hash h_size] in Sz.
  destruct (C107_hash_lines ktext vtext t seed lf m indent) as (E & _ & P); [|exact Hl|exact Hm|lia|lia|].
  { intros k v G. apply H. now apply (proj1 Hi). }
  exists t, os, (concat (h_array t)). do 2 eexists. split; [exact Hr|]. split; [exact Hi|]. split.
  - rewrite E, Hs in P. rewrite Z.abs_eq in P by lia. exact P.
  - apply (buckets_entries ktext vtext); lia.
Qed.
Print Assumptions C107_hash_history.

(** Beyond that width fmt refuses the format: all is written on one line, whatever the number of entries. *)
Theorem C107_too_wide : forall {K V : Type} (ktext : K -> farg) (vtext : V -> farg),
  (forall k, one_line (extra_arg (ktext k))) -> (forall v, one_line (extra_arg (vtext v))) ->
  (forall (t : avl K V) indent, 10000009 < indent -> one_line (avl_print ktext vtext t indent)) /\
  (forall (h : hash K V) seed lf m indent, one_line lf -> one_line m -> 10000009 < indent ->
     one_line (hash_print ktext vtext h seed lf m indent)).
Proof.
  intros K V ktext vtext Hk Hv. split.
  - intros t indent W. now apply avl_print_wide.
  - intros h seed lf m indent Hl Hm W. now apply hash_print_wide.
Qed.
Print Assumptions C107_too_wide.

(** The bound is sharp: the same tree at the widest indent and one more. *)
Definition demo_keys (k : Z) : farg := AInt k.
Definition demo_values (v : Z) : farg := AInt v.
Definition demo_tree : avl Z Z := mk_avl (Node 2 20 0 (Node 1 10 0 Leaf Leaf) (Node 3 30 0 Leaf Leaf)) 3.
Theorem C107_wide_refuted :
  (exists l1 l2, is_lines (avl_print demo_keys demo_values demo_tree 10000001) (l1 :: l2) /\ length l2 = 3%nat) /\
  (forall ls, ~ is_lines (avl_print demo_keys demo_values demo_tree 10000010) ls).
Proof.
  split.
  - destruct (C107_tree_lines demo_keys demo_values demo_tree 10000001) as (_ & _ & P); [|lia|cbn; lia|].
    + intros k v _. split; apply one_line_dec.
    + do 2 eexists. split; [exact P|]. reflexivity.
  - intros ls [E F]. destruct (C107_too_wide demo_keys demo_values) as [W _]; [intros; apply extra_int|intros; apply extra_int|].
    specialize (W demo_tree 10000010 ltac:(lia)). rewrite E in W. destruct ls as [|l ls].
    + unfold avl_print in E. rewrite indent_too_wide in E by (unfold widest; lia). discriminate E.
    + apply W. cbn [map concat]. apply in_app_iff. left. apply in_app_iff. right. now left.
Qed.
Print Assumptions C107_wide_refuted.

Definition demo_ops : list (mop Z Z) := [MPut 1 10; MPut 2 20; MPut 3 30; MPut 4 40; MRemove 4].
Definition lines (l : list string) : list byte := concat (map (fun s => text s ++ [x0a]) l).
Example C107_applies :
  (exists os, avl_run z_equal z_compare new_avl demo_ops = Ok (demo_tree, os)) /\
  avl_print demo_keys demo_values demo_tree 2 =
    lines ["  AVLTree: s=3, k=2, v=20, b=0, l=[1, 3]"%string; "      k=2, v=20, b=0, l=[1, 3]"%string;
           "          k=1, v=10, b=0, l=[<nil>, <nil>]"%string; "          k=3, v=30, b=0, l=[<nil>, <nil>]"%string] /\
  hash_print demo_keys demo_values (mk_hash [[]; [(7, -5); (1, 10)]; [(2, 20)]] 3) 77 (text "0.75") (text "1.50") 0 =
    lines ["Hash: size=3, capacity=3, seed=77, lf=0.75, m=1.50, "%string; "    k=7, v=-5, l=[1]"%string; "        k=1, v=10, l=[<nil>]"%string; "    k=2, v=20, l=[<nil>]"%string].
Proof. split; [eexists|split]; vm_compute; reflexivity. Qed.
Example C107_history_applies :
  total_keys (fun _ => True) eq Z.lt z_equal z_compare /\ Forall (fun op : mop Z Z => (fun _ => True) (op_key op)) demo_ops /\ zlen demo_ops < 2 ^ 63 /\
  (forall k v, stored eq demo_ops k v -> one_line (arg_text (demo_keys k)) /\ one_line (arg_text (demo_values v))) /\
  hash_keys (fun _ => True) eq z_equal z_hash.
Proof.
  split; [exact z_total_keys|]. split; [repeat constructor|]. split; [reflexivity|].
  split; [intros; split; apply one_line_dec|exact z_hash_keys].
Qed.

(** ** C108: keys and tries *)

(** An empty key: one line, without the indent. *)
Theorem C108_empty_key_partial : forall indent, key_text KEmpty = text "EmptyKey" /\ one_line (key_text KEmpty) /\ key_print KEmpty indent = text "EmptyKey".
Proof. intros indent. split; [reflexivity|]. split; [closed|reflexivity]. Qed.
Print Assumptions C108_empty_key_partial.

(** Print of any other key: a line, one line for every sub key in order with its number and all its bytes, and one line with the head of its buffer. *)
Theorem C108_key_print : forall (k : ikey) (indent : Z),
  match k with
  | KEmpty => True
  | KMapped ks buf =>
      is_lines (key_print k indent)
        (text "MappedKey:" :: map (sub_key_line dec bytes_text) (numbered 0 (map gcontent ks)) ++ [text "    buf = " ++ bytes_text (firstn 32 buf)])
  | KKey _ ks buf _ =>
      is_lines (key_print k indent)
        (text "Key:" :: map (sub_key_line dec bytes_text) (numbered 0 (map gcontent ks)) ++ [text "    buf = " ++ bytes_text (firstn 32 (gcontent buf))])
  end.
Proof.
  intros [|ks buf|e ks buf est] indent; [exact Logic.I| |]; unfold key_print; rewrite fmt_buf_print.
  - change (sprintf (str "MappedKey:" ++ nl) []) with (text "MappedKey:" ++ [x0a]). rewrite <- app_assoc. cbn [app]. apply is_lines_cons; [closed|].
    apply is_lines_app; [apply subkeys_print_lines|]. apply is_lines_cons; [|apply is_lines_nil].
    apply one_line_app; split; [closed|apply one_line_bytes_text].
  - change (sprintf (str "Key:" ++ nl) []) with (text "Key:" ++ [x0a]). rewrite <- app_assoc. cbn [app]. apply is_lines_cons; [closed|].
    apply is_lines_app; [apply subkeys_print_lines|]. apply is_lines_cons; [|apply is_lines_nil].
    apply one_line_app; split; [closed|apply one_line_bytes_text].
Qed.
Print Assumptions C108_key_print.

(** The indent makes no difference. *)
Theorem C108_key_indent : forall (k : ikey) (i j : Z), key_print k i = key_print k j.
Proof. intros k i j. destruct k; reflexivity. Qed.
Print Assumptions C108_key_indent.

(** ToString of a key with n sub keys contains n + 1 returns. *)
Definition returns (t : list byte) : nat := length (filter (fun c => Byte.eqb c x0a) t).
Lemma returns_app a b : returns (a ++ b) = (returns a + returns b)%nat.
Proof. unfold returns. now rewrite filter_app, app_length. Qed.
Lemma returns_one_line t : one_line t <-> returns t = 0%nat.
Proof.
  unfold one_line, returns. induction t as [|c t IH]; cbn [filter In]; [cbn; tauto|]. destruct (Byte.eqb c x0a) eqn:E; cbn [length].
  - apply Byte.byte_dec_bl in E. subst. split; [intros H; elim H; now left|discriminate].
  - rewrite <- IH. split; [tauto|]. intros H [G|G]; [|now apply H]. subst. discriminate E.
Qed.
Theorem C108_key_text : forall (k : ikey),
  match k with
  | KEmpty => True
  | KMapped ks buf =>
      key_text k = text "MappedKey" ++ flat_map (fun p => x0a :: sub_key_line dec bytes_text p) (numbered 0 (map gcontent ks)) ++
                   x0a :: text "    buf = " ++ bytes_text (firstn 32 buf) /\ returns (key_text k) = S (length ks)
  | KKey _ ks buf _ =>
      key_text k = text "Key" ++ flat_map (fun p => x0a :: sub_key_line dec bytes_text p) (numbered 0 (map gcontent ks)) ++
                   x0a :: text "    buf = " ++ bytes_text (firstn 32 (gcontent buf)) /\ returns (key_text k) = S (length ks)
  end.
Proof.
  assert (R : forall (b : list byte) (ks : list gslice) (n : Z) (h : list byte), one_line h ->
    returns (h ++ flat_map (fun p => x0a :: sub_key_line dec bytes_text p) (numbered n (map gcontent ks)) ++ x0a :: text "    buf = " ++ bytes_text b) =
    S (length ks)).
  { intros b ks n h Hh. rewrite !returns_app. apply returns_one_line in Hh. rewrite Hh.
    assert (T : returns (x0a :: text "    buf = " ++ bytes_text b) = 1%nat).
    { change (x0a :: text "    buf = " ++ bytes_text b) with ((x0a :: text "    buf = ") ++ bytes_text b). rewrite returns_app.
      pose proof (proj1 (returns_one_line _) (one_line_bytes_text b)) as ->. reflexivity. }
    rewrite T. clear. revert n. induction ks as [|k ks IH]; intros n; [reflexivity|]. cbn [map numbered flat_map].
    rewrite returns_app.
    change (x0a :: sub_key_line dec bytes_text (n, gcontent k)) with ([x0a] ++ sub_key_line dec bytes_text (n, gcontent k)). rewrite returns_app.
    pose proof (proj1 (returns_one_line _) (sub_key_line_one_line (n, gcontent k))) as ->. specialize (IH (n + 1)).
    change (returns [x0a]) with 1%nat. cbn [length]. lia. }
  intros [|ks buf|e ks buf est]; [exact Logic.I| |].
  - assert (E : key_text (KMapped ks buf) = text "MappedKey" ++ flat_map (fun p => x0a :: sub_key_line dec bytes_text p) (numbered 0 (map gcontent ks)) ++
                   x0a :: text "    buf = " ++ bytes_text (firstn 32 buf)).
    { unfold key_text. rewrite fmt_buf_text, subkeys_text_lines. reflexivity. }
    split; [exact E|]. rewrite E. apply R. closed.
  - assert (E : key_text (KKey e ks buf est) = text "Key" ++ flat_map (fun p => x0a :: sub_key_line dec bytes_text p) (numbered 0 (map gcontent ks)) ++
                   x0a :: text "    buf = " ++ bytes_text (firstn 32 (gcontent buf))).
    { unfold key_text. rewrite fmt_buf_text, subkeys_text_lines. reflexivity. }
    split; [exact E|]. rewrite E. apply R. closed.
Qed.
Print Assumptions C108_key_text.

Theorem C108_keys_refuted : forall (k : ikey), k <> KEmpty ->
  ~ one_line (key_text k) /\ (forall indent l ls, is_lines (key_print k indent) (l :: ls) -> hd_error l <> Some x20).
Proof.
  intros k N. split.
  - intros H. apply returns_one_line in H. pose proof (C108_key_text k) as T. destruct k; [now elim N| |]; destruct T as [_ T]; rewrite H in T; discriminate T.
  - intros indent l ls [E F] H. assert (G : hd_error (key_print k indent) = hd_error (l ++ [x0a])).
    { rewrite E. cbn [map concat]. destruct l; reflexivity. }
    destruct l as [|c l]; [discriminate H|]. injection H as ->. destruct k; [now elim N| |]; discriminate G.
Qed.
Print Assumptions C108_keys_refuted.

(** A key in hexadecimal: two small digits for each byte. *)
Theorem C108_hexadecimal : forall b : list byte,
  hex_text b = flat_map (fun c => [nth (N.to_nat (b2n c / 16)) (text "0123456789abcdef") x00; nth (N.to_nat (b2n c mod 16)) (text "0123456789abcdef") x00]) b.
Proof.
  intros b. unfold hex_text. apply flat_map_ext. intros c. destruct c; vm_compute; reflexivity.
Qed.
Print Assumptions C108_hexadecimal.

(** Bytes in decimal, separated by blanks, in brackets. *)
Theorem C108_decimal_bytes : bytes_text [] = text "[]" /\
  forall (c : byte) (b : list byte), bytes_text (c :: b) =
    text "[" ++ dec (Z.of_N (b2n c)) ++ flat_map (fun c => text " " ++ dec (Z.of_N (b2n c))) b ++ text "]".
Proof.
  split; [reflexivity|]. intros c b. unfold bytes_text. change (text "[") with (str "["). change (text "]") with (str "]"). f_equal.
  rewrite app_assoc. f_equal. revert c. induction b as [|d b IH]; intros c; cbn [map spaced flat_map].
  - rewrite app_nil_r. reflexivity.
  - specialize (IH d). cbn [map spaced] in IH. rewrite IH. change (text " ") with (str " "). rewrite <- !app_assoc. reflexivity.
Qed.
Print Assumptions C108_decimal_bytes.
Example C108_bytes_applies : hex_text [x0f; xa0] = text "0fa0" /\ bytes_text [x0f; xa0] = text "[15 160]".
Proof. split; vm_compute; reflexivity. Qed.

(** ToString of a trie node and of a trie with such a root: one line, if the text of the value is one. *)
Theorem C108_trie_text : forall (mapped mapped' : bool) (key : gslice) (data : farg) (off : Z) (nbuf : gslice)
    (m : avl gslice (option pnode)) (buf : bytes), one_line (arg_text data) ->
  let n := PNode mapped' key data off nbuf (Some m) in
  let t := text (if mapped then "MappedTrie: r=" else "Trie: r=") ++ node_line n ++ text ", buf=" ++ bytes_text (firstn 32 buf) in
  node_text n = Ok (node_line n) /\ one_line (node_line n) /\ trie_text mapped (Some n) buf = Ok t /\ one_line t.
Proof.
  intros mapped mapped' key data off nbuf m buf H n t. split; [apply node_text_line|].
  assert (L : one_line (node_line n)) by (apply node_line_one_line; exact H). split; [exact L|]. split.
  - cbn [trie_text]. unfold n at 1. rewrite node_text_line. fold n. cbn [rbind]. apply f_equal. unfold t. generalize (node_line n). intros s.
    unfold sprintf. rewrite <- (app_nil_r (bytes_text _)). destruct mapped; reflexivity.
  - unfold t. apply one_line_app; split; [destruct mapped; closed|]. apply one_line_app; split; [exact L|].
    apply one_line_app; split; [closed|apply one_line_bytes_text].
Qed.
Print Assumptions C108_trie_text.

(** Print of a node: every node below it once, parents first, indented by its depth, and no returns at all. *)
Theorem C108_node_print : forall (n : pnode) (indent : Z), built n ->
  (forall d m, In (d, m) (visit 0 n) -> Z.abs (indent + 4 * d) <= 10000009) ->
  (forall d m, In (d, m) (visit 0 n) -> one_line (arg_text (node_data m))) ->
  exists out, node_print n indent = Ok out /\ out = flat_map (node_row indent) (visit 0 n) /\ one_line out.
Proof.
  intros n indent B W O. exists (flat_map (node_row indent) (visit 0 n)). split; [|split; [reflexivity|]].
  - replace indent with (indent + 4 * 0) at 1 by lia. now apply node_print_rows.
  - clear - O. induction (visit 0 n) as [|[d m] l IH]; [apply one_line_nil|]. cbn [flat_map]. apply one_line_app. split.
    + unfold node_row. apply one_line_app. split; [apply one_line_blanks|]. apply node_line_one_line. apply (O d m). now left.
    + apply IH. intros d' m' G. apply (O d' m'). now right.
Qed.
Print Assumptions C108_node_print.

(** Print of a trie: the format has no operand for the indent, so fmt's complaint is written, with the only return before it. *)
Theorem C108_trie_print : forall (mapped : bool) (n : pnode) (buf : bytes) (indent : Z), built n -> Z.abs indent <= 10000009 ->
  (forall d m, In (d, m) (visit 0 n) -> Z.abs (indent + 4 + 4 * d) <= 10000009) ->
  (forall d m, In (d, m) (visit 0 n) -> one_line (arg_text (node_data m))) ->
  exists s out, trie_text mapped (Some n) buf = Ok s /\ trie_print mapped (Some n) buf indent = Ok out /\
    out = text "%s" ++ x0a :: text "%!(EXTRA string=, string=" ++ s ++ text ")" ++ flat_map (node_row (indent + 4)) (visit 0 n) /\
    returns out = 1%nat.
Proof.
  intros mapped n buf indent B W0 W O. destruct (C108_node_print n (indent + 4) B W O) as (rest & Hr & E & L).
  inversion B as [mapped' key data off nbuf m C]; subst n.
  destruct (C108_trie_text mapped mapped' key data off nbuf m buf) as (_ & _ & Ht & Lt).
  { apply (O 0 (PNode mapped' key data off nbuf (Some m))). now left. }
  cbv zeta in Ht, Lt. remember (PNode mapped' key data off nbuf (Some m)) as n eqn:En. clear En.
  match type of Ht with _ = Ok ?s0 => remember s0 as s eqn:Es; clear Es end.
  exists s. eexists. split; [exact Ht|]. unfold trie_print. rewrite Ht. cbn [rbind]. rewrite Hr. cbn [rbind]. split; [reflexivity|].
  rewrite trie_line_one by exact W0.
  assert (X : printf nl Plain [AStr []; AStr s] = x0a :: text "%!(EXTRA string=, string=" ++ s ++ text ")") by reflexivity.
  rewrite X, E. rewrite <- !app_assoc. cbn [app]. split; [rewrite <- !app_assoc; reflexivity|].
  rewrite <- E. apply returns_one_line in L. apply returns_one_line in Lt.
  change (text "%s" ++ x0a :: (text "%!(EXTRA string=, string=" ++ s ++ text ")") ++ rest)
    with ((text "%s" ++ [x0a]) ++ (text "%!(EXTRA string=, string=" ++ s ++ text ")") ++ rest).
  rewrite !returns_app, L, Lt. reflexivity.
Qed.
Print Assumptions C108_trie_print.

(** A trie with children "a" and "b", where "a" has a child "c": four nodes and one return, which is not between any two of them. *)
Definition demo_node (key : string) (kids : tree gslice (option pnode)) (size : Z) : pnode :=
  PNode false (Some (text key)) ANil 0 None (Some (mk_avl kids size)).
Definition demo_c : pnode := demo_node "c" Leaf 0.
Definition demo_a : pnode := demo_node "a" (Node (Some (text "c")) (Some demo_c) 0 Leaf Leaf) 1.
Definition demo_b : pnode := demo_node "b" Leaf 0.
Definition demo_root : pnode :=
  demo_node "" (Node (Some (text "a")) (Some demo_a) 1 Leaf (Node (Some (text "b")) (Some demo_b) 0 Leaf Leaf)) 2.
Lemma demo_built : built demo_root.
Proof.
  assert (L : forall k, built (demo_node k Leaf 0)) by (intros k; constructor; intros ? ? []).
  assert (A : built demo_a). { constructor. intros k c [G|[]]. injection G as <- <-. eexists. split; [reflexivity|apply L]. }
  constructor. intros k c [G|[G|[]]]; injection G as <- <-; (eexists; split; [reflexivity|]); [exact A|apply L].
Qed.
Theorem C108_tries_refuted :
  (* Print of a trie of four nodes is not made of lines, and its one return comes before all nodes *)
  built demo_root /\ length (visit 0 demo_root) = 4%nat /\
  (exists out, trie_print false (Some demo_root) [] 0 = Ok out /\ (forall ls, ~ is_lines out ls) /\
     firstn 28 out = text "%s" ++ x0a :: text "%!(EXTRA string=, string=" /\ one_line (skipn 3 out)) /\
  (exists out, node_print demo_root 0 = Ok out /\ one_line out /\ (forall ls, ~ is_lines out ls)) /\
  (* no parsed trie can be shown *)
  (forall buf indent, trie_text true (Some (parsed_root buf)) buf = Panic /\ trie_print true (Some (parsed_root buf)) buf indent = Panic) /\
  (* a trie without a root, and a node with a nil child, cannot be shown either *)
  (forall mapped buf indent, trie_text mapped None buf = Panic /\ trie_print mapped None buf indent = Panic) /\
  (forall key k indent, node_print (demo_node key (Node k None 0 Leaf Leaf) 1) indent = Panic).
Proof.
  split; [exact demo_built|]. split; [reflexivity|].
  assert (X : forall out ls, is_lines out ls -> out = [] \/ exists o, out = o ++ [x0a]).
  { intros out ls [-> _]. destruct (rev ls) as [|l rs] eqn:R.
    - left. apply (f_equal (@rev _)) in R. rewrite rev_involutive in R. subst. reflexivity.
    - right. apply (f_equal (@rev _)) in R. rewrite rev_involutive in R. subst. cbn [rev]. rewrite map_app, concat_app. cbn [map concat].
      rewrite app_nil_r. eexists. rewrite app_assoc. reflexivity. }
  assert (Y : forall out ls, out <> [] -> last out x00 <> x0a -> ~ is_lines out ls).
  { intros out ls N L H. apply X in H. destruct H as [H|(o & ->)]; [now apply N|]. apply L. apply last_last. }
  split; [eexists; split; [vm_compute; reflexivity|]; split; [intros ls; apply Y; [discriminate|vm_compute; discriminate]|split; [reflexivity|closed]]|].
  split; [eexists; split; [vm_compute; reflexivity|]; split; [closed|intros ls; apply Y; [discriminate|vm_compute; discriminate]]|].
  split; [intros; split; reflexivity|]. split; [intros; split; reflexivity|]. intros. reflexivity.
Qed.
Print Assumptions C108_tries_refuted.

Example C108_applies :
  key_text (KKey false [Some [x01; x02]; Some [xff]] None 1) =
    text "Key" ++ x0a :: text "    subKey[0] = [1 2]" ++ x0a :: text "    subKey[1] = [255]" ++ x0a :: text "    buf = []" /\
  key_print (KMapped [Some [x01; x02]] [x01]) 8 = lines ["MappedKey:"%string; "    subKey[0] = [1 2]"%string; "    buf = [1]"%string] /\
  (forall d m, In (d, m) (visit 0 demo_root) -> Z.abs (8 + 4 + 4 * d) <= 10000009 /\ one_line (arg_text (node_data m))) /\
  node_print demo_root 2 = Ok (text ("  TrieNode: k=, child=[2], data=<nil>, off=0, buf=[]       TrieNode: k=61, child=[1], data=<nil>, off=0, buf=[] " ++
    "          TrieNode: k=63, child=[0], data=<nil>, off=0, buf=[]       TrieNode: k=62, child=[0], data=<nil>, off=0, buf=[] ")).
Proof.
  split; [vm_compute; reflexivity|]. split; [vm_compute; reflexivity|]. split; [|vm_compute; reflexivity].
  intros d m H. cbn in H. repeat (destruct H as [H|H]; [injection H as <- <-; split; [lia|cbn [node_data demo_node demo_root demo_a demo_b demo_c]; closed]|]).
  destruct H.
Qed.
