(** * C112: questions put with PromptText are answered by the lines of the input, one after the other. *)
From Coq Require Import List Bool NArith Lia Arith.
From Coq Require Import Strings.Byte.
From Verif Require Import Base PromptModel PromptSpec PromptProofs.
Import ListNotations.

(** "trimmed" names one text. *)
Theorem C112_trimmed_one : forall s, exists t, trimmed s t /\ forall u, trimmed s u -> u = t.
Proof. intros s. exists (trim_space s). split; [apply trim_space_trimmed|apply trimmed_only]. Qed.
Print Assumptions C112_trimmed_one.
Example C112_trimmed_applies : trimmed [x20; xc2; xa0; x79; x20; x65; x0d] [x79; x20; x65].
Proof.
  pose proof (trim_space_trimmed [x20; xc2; xa0; x79; x20; x65; x0d]) as T. vm_compute in T |- *. exact T.
Qed.

(** One question, exactly: the prompt, a colon and a space are printed; reads are made until one is empty or has a newline,
    and not one more; the answer is the first line of what was read, without the white space around it. *)
Theorem C112_exact : forall p i out a rest, prompt_text p i = (out, a, rest) ->
  map b2n out = map b2n p ++ [32; 58; 32]%N /\ trimmed (line (concat (firstn (used i) i))) a /\ rest = skipn (used i) i.
Proof.
  intros p i out a rest E. pose proof (prompt_spec p i) as Q. rewrite E in Q. destruct Q as (-> & T & R).
  split; [now rewrite map_app|]. split; assumption.
Qed.
Print Assumptions C112_exact.
Example C112_exact_applies :
  prompt_text [x3f] [[x79]; [x65; x73; x0d; x0a; x6e]; [x6f; x0a]] = ([x3f; x20; x3a; x20], [x79; x65; x73], [[x6f; x0a]]).
Proof. vm_compute. reflexivity. Qed.

(** An answer never has white space at its ends, whatever was typed. *)
Theorem C112_no_space_around : forall p i w u, blank w ->
  snd (fst (prompt_text p i)) <> w ++ u /\ snd (fst (prompt_text p i)) <> u ++ w.
Proof.
  intros p i w u B. pose proof (prompt_spec p i) as Q. destruct (prompt_text p i) as [[o a] r]. destruct Q as (_ & (_ & T1 & T2) & _).
  cbn. split; [now apply T1|now apply T2].
Qed.
Print Assumptions C112_no_space_around.

(** At a terminal, where no read goes beyond the end of a line, the answers are the lines in their order and whoever reads
    next gets what comes after them. *)
Theorem C112_terminal_partial : forall ps i, line_wise i ->
  Forall2 trimmed (lines (length ps) (concat i)) (fst (answers ps i)) /\
  concat (snd (answers ps i)) = Nat.iter (length ps) after_line (concat i).
Proof. intros ps i L. destruct (answers_lines ps i L) as (A & B & _). split; assumption. Qed.
Print Assumptions C112_terminal_partial.
Definition two_lines : list bytes := [[x79; x0a]; [x6e; x6f]; [x20; x0a]].
Lemma two_lines_wise : line_wise two_lines.
Proof.
  assert (W : forall b l, Forall (fun x => b2n x <> 10%N) l -> forall u v : bytes, l ++ [b] = u ++ v -> v <> [] -> ~ In 10%N (map b2n u)).
  { intros b l F u v E Nv H. destruct (exists_last Nv) as (v' & z & ->). rewrite app_assoc in E.
    apply app_inj_tail in E. destruct E as [-> _]. rewrite Forall_app in F. destruct F as [F _].
    apply in_map_iff in H. destruct H as (x & Ex & Ix). rewrite Forall_forall in F. now apply (F x Ix). }
  repeat constructor; try discriminate.
  - apply (W x0a [x79]). repeat constructor; discriminate.
  - apply (W x6f [x6e]). repeat constructor; discriminate.
  - apply (W x0a [x20]). repeat constructor; discriminate.
Qed.
Example C112_terminal_applies : line_wise two_lines /\ fst (answers [[]; []] two_lines) = [[x79]; [x6e; x6f]].
Proof. split; [exact two_lines_wise|vm_compute; reflexivity]. Qed.

(** What is lost otherwise: of the text after the line, exactly what the last read had. *)
Theorem C112_lost : forall p i, Forall (fun c => c <> []) i ->
  after_line (concat i) = after_line (concat (firstn (used i) i)) ++ concat (snd (prompt_text p i)).
Proof.
  intros p i N. pose proof (prompt_spec p i) as Q. destruct (prompt_text p i) as [[o a] r]. destruct Q as (_ & _ & ->).
  exact (proj2 (used_lines i N)).
Qed.
Print Assumptions C112_lost.

(** With the input from a pipe or a file the second question loses its answer. *)
Definition piped : list bytes := [[x79; x0a; x6e; x6f; x0a]].
Theorem C112_lines_refuted : ~ forall ps i, Forall (fun c => c <> []) i ->
  Forall2 trimmed (lines (length ps) (concat i)) (fst (answers ps i)).
Proof.
  intros H. specialize (H [[]; []] piped). assert (N : Forall (fun c : bytes => c <> []) piped) by (repeat constructor; discriminate).
  specialize (H N). inversion H as [|? ? ? ? _ H2 E1 E2]; subst. inversion H2 as [|? ? ? ? T _ E3 E4]; subst.
  apply trimmed_only in T. vm_compute in T. discriminate T.
Qed.
Print Assumptions C112_lines_refuted.
(** And a passphrase that follows in the same input is not there for the one who reads it. *)
Theorem C112_next_reader_refuted : exists i rest : list bytes,
  prompt_text [] i = ([x20; x3a; x20], [x79], rest) /\ Forall (fun c => c <> []) i /\
  after_line (concat i) <> [] /\ concat rest = [].
Proof.
  exists piped, []. split; [vm_compute; reflexivity|]. split; [repeat constructor; discriminate|].
  split; [discriminate|reflexivity].
Qed.
Print Assumptions C112_next_reader_refuted.
